(** Specification vocabulary for C148: what is needed of independent standard draws is that an average over them is linear, and their first two moments. *)
From Coq Require Import Reals Lia.
From Verif Require Import Base.
Open Scope R_scope.

Definition shaped (n_out n_in : nat) (z : list (list R)) : Prop := length z = n_out /\ Forall (fun r => length r = n_in) z.
Definition draw (i j : nat) (z : list (list R)) : R := nth j (nth i z []) 0.
(** [E] averages over draws of the given shape. *)
Definition average_over (n_out n_in : nat) (E : (list (list R) -> R) -> R) : Prop :=
  (forall f g, (forall z, shaped n_out n_in z -> f z = g z) -> E f = E g) /\
  (forall f g, E (fun z => f z + g z) = E f + E g) /\ (forall a f, E (fun z => a * f z) = a * E f).
(** The draws have mean 0 and variance 1 and are not correlated. *)
Definition standard (n_out n_in : nat) (E : (list (list R) -> R) -> R) : Prop :=
  (forall i j, (i < n_out)%nat -> (j < n_in)%nat -> E (draw i j) = 0) /\
  (forall i j i' j', (i < n_out)%nat -> (j < n_in)%nat -> (i' < n_out)%nat -> (j' < n_in)%nat ->
     E (fun z => draw i j z * draw i' j' z) = if (Nat.eqb i i' && Nat.eqb j j')%bool then 1 else 0).
Fixpoint squares (x : list R) : R := match x with [] => 0 | a :: x => a * a + squares x end.
