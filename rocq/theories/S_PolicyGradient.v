(** Specification for C140: complete episodes of a random policy that depends on a parameter, the gradient of the expected return, and the
    direction in which an update of REINFORCE moves the parameter. *)
From Coq Require Import Reals QArith Qreals.
From Verif Require Import Base M_Reinforce S_Reinforce S_ValueIteration S_Unbiased.
Close Scope Q_scope. Open Scope nat_scope.

(** Sums over actions, means over what may happen *)
Fixpoint over_actions (l : list nat) (f : nat -> R) : R := match l with [] => 0%R | a :: l => (f a + over_actions l f)%R end.
Fixpoint over_outcomes {X} (l : list (Q * X)) (f : X -> R) : R := match l with [] => 0%R | (p, x) :: l => (Q2R p * f x + over_outcomes l f)%R end.

Section Episodes.
Context (D : problem) (pi : nat -> nat -> R).
(** The mean of [f] over the complete episodes from state [s] in which actions are taken with the probabilities [pi]; episodes of more than
    [T] steps do not count (see [ends]). *)
Fixpoint episodes (T : nat) (s : nat) (f : list step -> R) : R :=
  match T with
  | O => 0%R
  | S T => over_actions (seq 0 (S (last_action D))) (fun a => (pi s a * over_outcomes (outcomes D s a) (fun o => let '(r, s', terminal) := o in let x := mkStep s a r s' terminal in
      if terminal then f [x] else episodes T s' (fun rest => f (x :: rest))))%R)
  end.
(** Batches of [n] independent episodes from [s] *)
Fixpoint batches (n : nat) (T s : nat) (f : list (list step) -> R) : R :=
  match n with O => f [] | S n => episodes T s (fun l => batches n T s (fun ls => f (l :: ls))) end.
End Episodes.
(** Every episode from [s] ends within [T] steps. *)
Fixpoint ends (D : problem) (T s : nat) : Prop :=
  match T with
  | O => False
  | S T => forall a, a <= last_action D -> Forall (fun o => let '(_, s', terminal) := snd o in terminal = true \/ ends D T s') (outcomes D s a)
  end.

(** Steps from a state to a terminal step: a complete episode *)
Fixpoint ends_with (s : nat) (l : list step) : Prop :=
  match l with [] => False | [x] => at_state x = s /\ ended x = true | x :: l => at_state x = s /\ ended x = false /\ ends_with (reached x) l end.
(** Of an episode: the sum of its rewards, its last reward; sums over its steps. *)
Fixpoint all_rewards (l : list step) : R := match l with [] => 0%R | x :: l => (Q2R (earned x) + all_rewards l)%R end.
Fixpoint last_reward (l : list step) : R := match l with [] => 0%R | [x] => Q2R (earned x) | _ :: l => last_reward l end.
Fixpoint over_steps (l : list step) (f : step -> R) : R := match l with [] => 0%R | x :: l => (f x + over_steps l f)%R end.

(** A policy with a parameter: probabilities are positive and add up to 1.  [score] is the derivative of the logarithm of the probabilities, [dH]
    that of the entropy; with many parameters, take any one of them. *)
Definition entropy (D : problem) (pi : nat -> nat -> R) (s : nat) : R := (- over_actions (seq 0 (S (last_action D))) (fun a => pi s a * ln (pi s a)))%R.
Record policy_family (D : problem) (pi : R -> nat -> nat -> R) (theta : R) (score : nat -> nat -> R) (dH : nat -> R) : Prop := {
  positive : forall th s a, (0 < pi th s a)%R;
  adds_up : forall th s, over_actions (seq 0 (S (last_action D))) (pi th s) = 1%R;
  score_is : forall s a, derivable_pt_lim (fun th => ln (pi th s a)) theta (score s a);
  dH_is : forall s, derivable_pt_lim (fun th => entropy D (pi th) s) theta (dH s) }.

(** What the agent is told of episodes: for every step a call of act and one of observe.  The log-probability and the entropy that belong to a step
    are those of its state and action. *)
Definition calls (ls : list (list step)) : list (op step) := flat_map (fun x => [Act true x; Observe true (earned x) (ended x) false]) (concat ls).
Definition updates (batchsize : nat) (separately : bool) (ls : list (list step)) : list (list (Q * step)) :=
  applied [] (events_of (snd (run (call batchsize separately) reinforce_init (calls ls)))).
(** The negative derivative of the loss of an update (reinforce.py:187-190): sum over the terms of (coefficient * log-probability + beta * entropy), divided by the batch size *)
Definition direction (batchsize : nat) (beta : R) (score : nat -> nat -> R) (dH : nat -> R) (ts : list (Q * step)) : R :=
  (fold_right (fun t acc => Q2R (fst t) * score (at_state (snd t)) (took (snd t)) + beta * dH (at_state (snd t)) + acc) 0 ts / INR batchsize)%R.
(** That of the update that follows the episodes [ls] *)
Definition move (batchsize : nat) (separately : bool) (beta : R) (score : nat -> nat -> R) (dH : nat -> R) (ls : list (list step)) : R :=
  match updates batchsize separately ls with [ts] => direction batchsize beta score dH ts | _ => 0%R end.
