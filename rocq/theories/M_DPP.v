(** The operators of dynamic policy programming over the reals: pfrl/agents/dpp.py:91-137 with pfrl/action_value.py:78-79, one row of action values (the batch is row by row: F.softmax of a matrix without
    dim works along the second axis).  DPPGreedy's operator is [max] of M_ActionValue.v; the targets are [dpp_target] of M_Targets.v.
    Simplification: exact real numbers; C135 allows for an error of the computed operator. *)
From Coq Require Import Reals.
From Verif Require Import Base M_Boltzmann.
Open Scope R_scope.

(** action_value.py:78-79 DiscreteActionValue.compute_expectation, dpp.py:104-105 *)
Definition compute_expectation (beta : R) (row : list R) : R := sumR (map (fun p => fst p * snd p) (combine (softmax (map (fun q => beta * q) row)) row)).
(** dpp.py:121-122: torch.logsumexp(self.eta * q_values, dim=1) / self.eta *)
Definition logsumexp_over (eta : R) (row : list R) : R := ln (sumR (map exp (map (fun q => eta * q) row))) / eta.
