(** Model of pfrl/utils/mode_of_distribution.py:5-19 and of the policy heads that build distributions: pfrl/policies/gaussian_policy.py:44-57,
    76-92, 107-119, pfrl/policies/softmax_policy.py:5-7 and pfrl/policies/deterministic_policy.py:7-11.
    One element of the batch; event values are lists of exact real numbers; a tensor of indices is the list of those numbers. *)
From Coq Require Import Reals Rtrigo_def.
From Verif Require Import Base.
Open Scope R_scope.

(** torch.distributions.transforms used with policies: AffineTransform(loc, scale) and TanhTransform *)
Inductive transform := Affine (loc scale : R) | Tanh.
Definition transform_fwd (t : transform) (x : R) : R := match t with Affine l s => l + s * x | Tanh => tanh x end.

Inductive distribution :=
| Categorical (probs : list R)
| Normal (mean std : list R)
| MultivariateNormal (mean : list R) (precision : list (list R))
| Transformed (base : distribution) (transforms : list transform)
| Independent (base : distribution)
| Delta (loc : list R)
| OtherDistribution.

(** torch.argmax of one row: the first of the largest *)
Fixpoint argmax_from (i best : nat) (v : R) (l : list R) : nat :=
  match l with [] => best | x :: l => if Rlt_dec v x then argmax_from (S i) i x l else argmax_from (S i) best v l end.
Definition argmax (l : list R) : nat := match l with [] => 0%nat | x :: l => argmax_from 1 0 x l end.

(** 5-19; the argument is always a Distribution here, so the assertion holds *)
Fixpoint mode_of_distribution (d : distribution) : result (list R) :=
  match d with
  | Categorical probs => match probs with [] => Err IndexError | _ => Ok [INR (argmax probs)] end
  | Normal mean _ | MultivariateNormal mean _ => Ok mean
  | Transformed base ts =>
      x <- mode_of_distribution base ;;
      Ok (fold_left (fun x t => map (transform_fwd t) x) ts x)
  | Independent base => mode_of_distribution base
  | Delta _ | OtherDistribution => Err RuntimeError
  end.

(** softmax_policy.py:5-7: Categorical(logits) has probs = softmax(logits) *)
Definition softmax_head (logits : list R) : distribution :=
  Categorical (map (fun x => exp x / fold_right Rplus 0 (map exp logits)) logits).
(** gaussian_policy.py:44-57; the parameter has size 1 (spherical) or the size of the action; Normal broadcasts its arguments *)
Definition broadcast (n : nat) (l : list R) : result (list R) :=
  match l with [x] => Ok (repeat x n) | _ => if Nat.eqb (length l) n then Ok l else Err RuntimeError end.
Definition state_independent_head (var_func : R -> R) (var_param mean : list R) : result distribution :=
  std <- broadcast (length mean) (map (fun v => sqrt (var_func v)) var_param) ;; Ok (Independent (Normal mean std)).
(** 76-92: chunk(2) splits n values into the first ceil(n / 2) and the rest; with one value there is a single chunk, which cannot be unpacked *)
Definition diagonal_head (var_func : R -> R) (mean_and_var : list R) : result distribution :=
  let n := length mean_and_var in
  let k := ((n + 1) / 2)%nat in
  let mean := firstn k mean_and_var in
  let pre_var := skipn k mean_and_var in
  match pre_var with
  | [] => Err ValueError
  | _ => std <- broadcast (length mean) (map (fun v => sqrt (var_func v)) pre_var) ;; Ok (Independent (Normal mean std))
  end.
(** 107-119 *)
Definition fixed_head (scale : R) (mean : list R) : distribution := Independent (Normal mean (repeat scale (length mean))).
(** deterministic_policy.py:7-11 *)
Definition deterministic_head (loc : list R) : distribution := Independent (Delta loc).
