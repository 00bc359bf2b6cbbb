(** Model of pfrl/nn/noisy_linear.py:7-70 (init_lecun_uniform, init_variance_scaling_constant, FactorizedNoisyLinear).
    Tensors are (nested) lists of exact real numbers; standard normal and uniform samples are arguments. *)
From Coq Require Import Reals.
From Verif Require Import Base.
Open Scope R_scope.

(** torch.sign *)
Definition sgn (r : R) : R := if Rlt_dec r 0 then -1 else if Rlt_dec 0 r then 1 else 0.
(** 53-55 for one normal sample *)
Definition eps1 (r : R) : R := Rabs (sqrt (Rabs r)) * sgn r.

Fixpoint dotR (a b : list R) : R := match a, b with x :: a, y :: b => x * y + dotR a b | _, _ => 0 end.
(** F.linear(x, W, b) for one row of x *)
Definition linear_row (W : list (list R)) (b : option (list R)) (x : list R) : list R :=
  match b with
  | Some b => map (fun p => dotR (fst p) x + snd p) (combine W b)
  | None => map (fun w => dotR w x) W
  end.
(** torch.ger *)
Definition ger (a b : list R) : list (list R) := map (fun x => map (fun y => x * y) b) a.
(** torch.addcmul(t, a, b) = t + a * b *)
Definition addcmul1 (t a b : list R) : list R := map (fun p => fst p + fst (snd p) * snd (snd p)) (combine t (combine a b)).
Definition addcmul2 (t a b : list (list R)) : list (list R) := map (fun p => addcmul1 (fst p) (fst (snd p)) (snd (snd p))) (combine t (combine a b)).

Record layer := { mu_w : list (list R); mu_b : option (list R); sigma_w : list (list R); sigma_b : option (list R) }.

(** 57-70; [in_size] is the second dimension of sigma.weight, [r] the samples of torch.normal (length in_size + out_size), [xs] the rows of the
    input.  mu and sigma both have a bias or both have none (line 45, 48). *)
Definition noisy_forward (l : layer) (in_size : nat) (r : list R) (xs : list (list R)) : list (list R) :=
  let eps := map eps1 r in
  let eps_x := firstn in_size eps in
  let eps_y := skipn in_size eps in
  let W := addcmul2 (mu_w l) (sigma_w l) (ger eps_y eps_x) in
  let b := match mu_b l, sigma_b l with Some m, Some s => Some (addcmul1 m s eps_y) | _, _ => None end in
  map (linear_row W b) xs.

(** 7-12: uniform samples [us] of [-1, 1] scaled; fan_in of a weight (out, in) is in *)
Definition init_lecun_uniform (fan_in : nat) (scale : R) (us : list (list R)) : list (list R) :=
  let s := scale * sqrt (3 / INR fan_in) in map (map (fun u => s * u)) us.
(** 15-22 for a weight (out, in) and for a bias (out) *)
Definition init_variance_scaling_weight (n_out n_in : nat) (scale : R) : list (list R) := repeat (repeat (scale / sqrt (INR n_in)) n_in) n_out.
Definition init_variance_scaling_bias (n : nat) (scale : R) : list R := repeat (scale / sqrt (INR n)) n.
(** 35-51; [bias] is what nn.Linear itself initialises the mean bias with, if there is one *)
Definition noisy_init (n_out n_in : nat) (bias : option (list R)) (sigma_scale : R) (us : list (list R)) : layer :=
  {| mu_w := init_lecun_uniform n_in (1 / sqrt 3) us; mu_b := bias;
     sigma_w := init_variance_scaling_weight n_out n_in sigma_scale;
     sigma_b := match bias with Some _ => Some (init_variance_scaling_bias n_out sigma_scale) | None => None end |}.
