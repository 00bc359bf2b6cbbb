(** Specification for C145. *)
From Coq Require Import Reals ZArith Sorted.
From Flocq Require Import Core BinarySingleNaN.
From Verif Require Import Base M_FloatAction M_FloatCategorical.
Open Scope R_scope.

(** The exact sum of floating point numbers. *)
Fixpoint total (l : list binary32) : R := match l with [] => 0 | x :: l => B2R x + total l end.
(** The sum of the numbers, each times its index (the first index being k). *)
Fixpoint moment (k : nat) (l : list binary32) : R := match l with [] => 0 | x :: l => INR k * B2R x + moment (S k) l end.
Definition finite_nonneg (x : binary32) : Prop := is_finite x = true /\ 0 <= B2R x.
(** Atoms as the constructor of the Q-function makes them: at least two, ascending, finite. *)
Definition atoms_ok (z : list binary32) : Prop :=
  (2 <= Z.of_nat (length z) <= 65536)%Z /\ Sorted (fun a b => B2R a < B2R b) z /\ Forall (fun x => is_finite x = true /\ Rabs (B2R x) <= 2 ^ 100) z.
(** A row of a batch: one finite value per atom, with probabilities that add up to at most 2 (to about 1). *)
Definition row_ok (z : list binary32) (row : list (binary32 * binary32)) : Prop :=
  length row = length z /\ Forall (fun yp => is_finite (fst yp) = true /\ finite_nonneg (snd yp)) row /\ total (map snd row) <= 2.
(** The exact position of a value among evenly spaced atoms, in units of their distance, after clipping to their range. *)
Definition atom (z : list binary32) (i : nat) : R := B2R (nth i z (B754_zero false)).
Definition exact_position (z : list binary32) (y : binary32) : R :=
  Rmin ((Rmin (Rmax (B2R y) (atom z 0)) (atom z (length z - 1)) - atom z 0) / (atom z 1 - atom z 0)) (INR (length z) - 1).
(** The mean position of a row. *)
Fixpoint mean_position (z : list binary32) (row : list (binary32 * binary32)) : R := match row with [] => 0 | (y, p) :: row => B2R p * exact_position z y + mean_position z row end.
(** What the projection of one row has to be: a distribution over the atoms with the total and the mean of the row, up to rounding. *)
Definition projected (z : list binary32) (row : list (binary32 * binary32)) (o : list binary32) : Prop :=
  let n := INR (length z) in
  length o = length z /\ Forall finite_nonneg o /\
  Rabs (total o - total (map snd row)) <= (4 * n + 4) / 2 ^ 24 * total (map snd row) + 4 * n / 2 ^ 150 /\
  Rabs (moment 0 o - mean_position z row) <= (4 * n + 12) / 2 ^ 24 * mean_position z row + 8 * n ^ 2 / 2 ^ 150.
