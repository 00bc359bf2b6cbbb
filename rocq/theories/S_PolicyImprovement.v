(** Specification for C139: expected losses of policies. *)
From Coq Require Import Reals QArith Qreals.
From Verif Require Import Base M_PolicyLoss S_ValueIteration S_PolicyEvaluation.
Close Scope Q_scope. Close Scope R_scope. Open Scope nat_scope.

(** A policy by the probability [pi s a] of every action. *)
Definition listed (D : problem) (pi : nat -> nat -> R) (s : nat) : list (R * nat) := map (fun a => (pi s a, a)) (seq 0 (S (last_action D))).
(** Expected loss for a batch that consists of the state [s]: the action is sampled from the policy. *)
Definition expected_neg_q (D : problem) (pi : nat -> nat -> R) (q : nat -> nat -> R) (s : nat) : R := mean_over (fun a => neg_q_loss [q s a]) (listed D pi s).
Definition expected_soft (D : problem) (temperature : R) (pi : nat -> nat -> R) (q1 q2 : nat -> nat -> R) (s : nat) : R :=
  mean_over (fun a => soft_policy_loss temperature [ln (pi s a)] [q1 s a] [q2 s a]) (listed D pi s).
(** What SAC charges a policy for its choices. *)
Definition entropy_charge (temperature : R) (pi : nat -> nat -> R) (s a : nat) : R := (temperature * ln (pi s a))%R.
(** Critics within [eps] of [U]. *)
Definition near (D : problem) (q U : nat -> nat -> R) (eps : R) : Prop := forall s a, s < states D -> a <= last_action D -> (Rabs (q s a - U s a) <= eps)%R.
