(** Specification of running statistics. *)
From Coq Require Import Reals.
From Verif Require Import Base.
Open Scope R_scope.

Definition sum_over (l : list R) : R := fold_right Rplus 0 l.
(** mean and population variance of non-empty data *)
Definition is_mean (data : list R) (m : R) : Prop := m * INR (length data) = sum_over data.
Definition is_variance (data : list R) (v : R) : Prop :=
  forall m, is_mean data m -> v * INR (length data) = sum_over (map (fun x => (x - m)²) data).

(** the data learned by a normalizer that stops once it has learned [until] samples: whole batches until that number is reached *)
Fixpoint learned (until : nat) (got : list R) (batches : list (list R)) : list R :=
  match batches with
  | [] => got
  | b :: rest => if (until <=? length got)%nat then got else learned until (got ++ b) rest
  end.
