(** Specification for quadratic action values. *)
From Coq Require Import QArith.
From Verif Require Import Base Vec M_Quadratic.
Open Scope Q_scope.

(** the quadratic form x^T P x as a double sum *)
Fixpoint qsum (n : nat) (f : nat -> Q) : Q := match n with 0%nat => 0 | S n => qsum n f + f n end.
Definition entry (P : list vec) (i j : nat) : Q := nth j (nth i P []) 0.
Definition quad_form (n : nat) (P : list vec) (x : vec) : Q := qsum n (fun i => qsum n (fun j => nth i x 0 * entry P i j * nth j x 0)).
Definition square (n : nat) (P : list vec) : Prop := length P = n /\ Forall (fun r => length r = n) P.
Definition positive_definite (n : nat) (P : list vec) : Prop :=
  forall x, length x = n -> 0 <= quad_form n P x /\ (quad_form n P x == 0 -> veq x (vzero n)).
Definition diagonal (n : nat) (P : list vec) : Prop := forall i j, (i < n)%nat -> (j < n)%nat -> i <> j -> entry P i j == 0.
(** Q(a) = v - 1/2 (a - mu)^T P (a - mu) *)
Definition value (q : quadratic) (a : vec) : Q := v q - quad_form (length (mu q)) (mat q) (vsub a (mu q)) / 2.
(** [a] within the bounds (a bound of size one applies to all dimensions) *)
Definition bound_at (b : vec) (i : nat) : Q := match b with [x] => x | _ => nth i b 0 end.
Definition in_bounds (q : quadratic) (a : vec) : Prop := length a = length (mu q) /\ forall i, (i < length a)%nat ->
  (forall m, min_action q = Some m -> bound_at m i <= nth i a 0) /\ (forall m, max_action q = Some m -> nth i a 0 <= bound_at m i).
Definition good_bounds (q : quadratic) : Prop :=
  (forall m, min_action q = Some m -> length m = 1%nat \/ length m = length (mu q)) /\
  (forall m, max_action q = Some m -> length m = 1%nat \/ length m = length (mu q)) /\
  forall m m', min_action q = Some m -> max_action q = Some m' -> forall i, (i < length (mu q))%nat -> bound_at m i <= bound_at m' i.
