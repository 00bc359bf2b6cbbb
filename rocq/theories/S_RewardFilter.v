(** Specification: exponentially weighted statistics of a sequence of rewards. *)
From Coq Require Import Reals.
From Verif Require Import Base S_PPOLoss.
Open Scope R_scope.

(** The weight of reward [i] among [n] rewards: tau for the last one, (1 - tau) times less for each older one.
    The weights leave (1 - tau)^n for the initial value 0. *)
Definition weight (tau : R) (n i : nat) : R := tau * (1 - tau) ^ (n - 1 - i).

(** Weighted sum of [f r] over the rewards. *)
Definition weighted (tau : R) (f : R -> R) (rs : list R) : R :=
  total (fun i => weight tau (length rs) i * f (nth i rs 0)) (seq 0 (length rs)).

Definition ema (tau : R) (rs : list R) : R := weighted tau (fun r => r) rs.

(** Weighted mean square distance from the mean, the initial value 0 included. *)
Definition evar (tau : R) (rs : list R) : R :=
  weighted tau (fun r => (r - ema tau rs) * (r - ema tau rs)) rs + (1 - tau) ^ length rs * (ema tau rs * ema tau rs).
