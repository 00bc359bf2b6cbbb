(** Specification vocabulary for C147: the exact exponential average. *)
From Coq Require Import Reals List.
Import ListNotations.
Open Scope R_scope.

Fixpoint average (tau : R) (x : R) (sources : list R) : R :=
  match sources with [] => x | s :: sources => average tau ((1 - tau) * x + tau * s) sources end.
