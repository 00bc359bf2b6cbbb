(** Specification of PPO's loss. *)
From Coq Require Import Reals.
From Verif Require Import Base.
Open Scope R_scope.

(** Schulman et al. 2017, in closed form: with a non-negative advantage the ratio counts up to 1 + eps, with a negative one down to 1 - eps. *)
Definition surrogate (eps ratio adv : R) : R := if Rle_dec 0 adv then Rmin ratio (1 + eps) * adv else Rmax ratio (1 - eps) * adv.

(** The point of [lo, hi] nearest to x. *)
Definition nearest (lo hi x y : R) : Prop := lo <= y <= hi /\ forall z, lo <= z <= hi -> Rabs (x - y) <= Rabs (x - z).

Fixpoint total {A} (f : A -> R) (l : list A) : R := match l with [] => 0 | x :: t => f x + total f t end.
Definition average {A} (f : A -> R) (l : list A) : R := total f l / INR (length l).

(** One transition of a minibatch, as the loss sees it. *)
Record sample := { x_entropy : R; x_v : R; x_logp : R; x_v_old : R; x_logp_old : R; x_adv : R; x_target : R }.
