(** Model of pfrl/utils/clip_l2_grad_norm.py:5-38 on CPU.  Floats are real numbers.  A parameter is represented by
    its gradient: [None], or the list of the tensor's entries.  The branch for parameters on a GPU (26-28), which
    calls torch's own function, is not modelled. *)
From Coq Require Import Reals.
From Verif Require Import Base.
Open Scope R_scope.

(** numpy.linalg.norm of a flattened array (0.0 for an empty list) *)
Fixpoint sum_sq (l : list R) : R := match l with [] => 0 | x :: t => x * x + sum_sq t end.
Definition norm (l : list R) : R := sqrt (sum_sq l).

(** 29: filter(lambda p: p.grad is not None, parameters) *)
Fixpoint grads (ps : list (option (list R))) : list (list R) :=
  match ps with [] => [] | Some g :: t => g :: grads t | None :: t => grads t end.

(** 5-38.  1e-6 is / 1000000. *)
Definition clip_l2_grad_norm (ps : list (option (list R))) (max_norm : R) : list (option (list R)) * R :=
  match ps with
  | [] => (ps, 0)
  | _ =>
      let total_norm := norm (map norm (grads ps)) in
      let clip_coef := max_norm / (total_norm + / 1000000) in
      (if Rlt_dec clip_coef 1
       then map (option_map (map (fun x => x * clip_coef))) ps
       else ps, total_norm)
  end.
