(** Model of the networks of pfrl/agents/iqn.py: 11-29 (cosine_basis_functions), 32-60 (CosineBasisLinear), 63-80
    (_evaluate_psi_x_with_quantile_thresholds), 107-124 (ImplicitQuantileQFunction.forward), 345-371 (_compute_y_and_taus) and 402-433
    (_evaluate_model_and_update_recurrent_states), without recurrent states (C89, C93 treat those).
    Tensors are nested lists; networks that map rows to rows are functions of a row; cos is a function given as an argument. *)
From Coq Require Import QArith.
From Verif Require Import Base M_Batch M_ActionValue.
Open Scope nat_scope.

(** reshape of a tensor with one row per (i, j) to (n, m, ...): rows are in row-major order; RuntimeError for a wrong number of rows *)
Definition reshape2 {X} (n m : nat) (l : list X) : result (list (list X)) :=
  if length l =? n * m then Ok (map (fun i => firstn m (skipn (i * m) l)) (seq 0 n)) else Err RuntimeError.
(** reshape(-1, k) of a tensor (n, m, k) *)
Definition flatten2 {X} (l : list (list X)) : list X := concat l.

(** 23-29: [cosine] x i is torch.cos(x * (i * pi)) *)
Definition cosine_basis_functions (cosine : Q -> nat -> Q) (n_basis : nat) (x : list (list Q)) : list (list (list Q)) :=
  map (map (fun v => map (cosine v) (seq 1 n_basis))) x.

Fixpoint dot (a b : list Q) : Q := match a, b with x :: a, y :: b => (x * y + dot a b)%Q | _, _ => 0%Q end.
(** nn.Linear on one row *)
Definition linear (w : list (list Q)) (bias : list Q) (x : list Q) : list Q := map (fun p => (dot (fst p) x + snd p)%Q) (combine w bias).

(** 56-60 on a (batch, n_taus) input *)
Definition cosine_basis_linear (cosine : Q -> nat -> Q) (n_basis : nat) (w : list (list Q)) (bias : list Q) (x : list (list Q)) :
  result (list (list (list Q))) :=
  let h := flatten2 (cosine_basis_functions cosine n_basis x) in
  reshape2 (length x) (match x with [] => 0 | r :: _ => length r end) (map (linear w bias) h).

Definition all_len {X} (n : nat) (l : list (list X)) : bool := forallb (fun r => length r =? n) l.
(** 64-80; [phi] maps (batch, n_taus) to (batch, n_taus, hidden), [f] a row of hidden values to a row of action values *)
Definition evaluate_psi_x (psi_x : list (list Q)) (phi : list (list Q) -> result (list (list (list Q)))) (f : list Q -> list Q) (taus : list (list Q)) :
  result (list (list (list Q))) :=
  let batch_size := length psi_x in
  let hidden_size := match psi_x with [] => 0 | r :: _ => length r end in
  _ <- passert (length taus =? batch_size) ;;
  let n_taus := match taus with [] => 0 | r :: _ => length r end in
  phi_taus <- phi taus ;;
  _ <- passert ((length phi_taus =? batch_size) && all_len n_taus phi_taus && forallb (all_len hidden_size) phi_taus) ;;
  let h := map (fun p => map (fun r => map (fun q => (fst q * snd q)%Q) (combine (fst p) r)) (snd p)) (combine psi_x phi_taus) in
  let h := map f (flatten2 h) in
  _ <- passert (length h =? batch_size * n_taus) ;;
  reshape2 batch_size n_taus h.

(** 107-124: forward returns the function of the thresholds *)
Definition iqn_forward {Ob} (psi : Ob -> list Q) phi f (x : list Ob) (taus : list (list Q)) : result (list (list (list Q))) :=
  evaluate_psi_x (map psi x) phi f taus.

(** 345-371: y for the actions of the batch; 416-433 and dqn.py: the greedy actions *)
Definition iqn_y (quantiles : list (list (list Q))) (actions : list nat) : result (list (list Q)) :=
  if length actions =? length quantiles
  then rmapM (fun p => evaluate_action_as_quantiles (fst p) (snd p)) (combine quantiles actions) else Err IndexError.
Definition iqn_greedy (quantiles : list (list (list Q))) : result (list nat) := rmapM (fun q => greedy_action (quantile_q_values q)) quantiles.
(** 416-425: torch.linspace(0, 1, K).repeat(batch, 1) *)
Definition linspace01 (k : nat) : list Q :=
  match k with 1 => [0%Q] | _ => map (fun i => (inject_Z (Z.of_nat i) / inject_Z (Z.of_nat (k - 1)))%Q) (seq 0 k) end.
Definition act_deterministically {Ob} (psi : Ob -> list Q) phi f (k : nat) (obs : list Ob) : result (list nat) :=
  q <- iqn_forward psi phi f obs (map (fun _ => linspace01 k) obs) ;; iqn_greedy q.
