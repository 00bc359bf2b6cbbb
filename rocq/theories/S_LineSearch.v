(** Specification of a line search by halving. *)
From Coq Require Import QArith.
From Verif Require Import Base Vec M_LineSearch.
Open Scope nat_scope.

Fixpoint half_pow (i : nat) : Q := match i with 0 => 1%Q | S i => (half_pow i / 2)%Q end.
(** parameters of the same sizes, equal entry by entry to old + c * step *)
Definition moved (old : list vec) (c : Q) (step : vec) (new : list vec) : Prop :=
  map (@length Q) new = map (@length Q) old /\ veq (concat new) (vadd (concat old) (vscale c step)).
(** Values at which a step may be taken: the gain is finite and not below the old gain, the divergence finite and at most the bound.  "Not below"
    is meant in the sense of float comparison: a NaN old gain is not above anything. *)
Definition not_below (x y : fl) : Prop := match x, y with Fin a, Fin b => (b <= a)%Q | Fin _, PInf => False | Fin _, _ => True | _, _ => False end.
Definition within (x : fl) (b : Q) : Prop := match x with Fin a => (a <= b)%Q | _ => False end.
