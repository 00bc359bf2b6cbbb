(** Specification helper for C49. *)
From Coq Require Import Reals.
From Verif Require Import Base M_Prioritized M_PriorityWeights.

(** Running weights_from_probabilities on a list of batches. *)
Fixpoint weights_run (w : pwe) (calls : list (nat * list R * R)) : result pwe :=
  match calls with
  | [] => Ok w
  | (n, ps, m) :: t => '(w', _) <- weights_from_probabilities w n ps m ;; weights_run w' t
  end.
