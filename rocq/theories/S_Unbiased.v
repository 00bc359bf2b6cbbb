(** Specification for C137: expectations over the trajectories of a policy in a finite decision problem, exact values. *)
From Coq Require Import QArith.
From Verif Require Import Base S_ValueIteration.
Close Scope Q_scope. Open Scope nat_scope.

(** One step: state, action, reward, next state, whether the step was terminal. *)
Record step := mkStep { at_state : nat; took : nat; earned : Q; reached : nat; ended : bool }.
(** The mean of [f] over finitely many cases with probabilities *)
Fixpoint mean {X} (l : list (Q * X)) (f : X -> Q) : Q := match l with [] => 0%Q | (p, x) :: l => (p * f x + mean l f)%Q end.

Section Trajectories.
Context (D : problem) (policy : nat -> list (Q * nat)) (stop : list step -> bool).
(** The policy: actions with probabilities.  Observation may stop after any step, by a rule that looks at the steps so far; it stops at the
    latest after [T] more steps, and at a terminal step.  [expected T past s f] is the mean of [f rest] over what may follow in state [s] after
    the steps [past]; [given_action T past s a f] is the mean given that the action in [s] is [a]. *)
Definition given_step (follow : list step -> nat -> (list step -> Q) -> Q) (past : list step) (s a : nat) (f : list step -> Q) : Q :=
  mean (outcomes D s a) (fun o => let '(r, s', terminal) := o in let x := mkStep s a r s' terminal in
    if terminal then f [x] else follow (past ++ [x]) s' (fun rest => f (x :: rest))).
Fixpoint expected (T : nat) (past : list step) (s : nat) (f : list step -> Q) : Q :=
  match T with
  | O => f []
  | S T => if stop past then f [] else mean (policy s) (fun a => given_step (expected T) past s a f)
  end.
Definition given_action (T : nat) : list step -> nat -> nat -> (list step -> Q) -> Q := given_step (expected T).
(** Every trajectory ends with a terminal step. *)
Fixpoint always_ends (T : nat) (past : list step) (s : nat) : Prop :=
  match T with
  | O => False
  | S T => stop past = false /\ Forall (fun a => Forall (fun o => let '(r, s', terminal) := snd o in terminal = true \/ always_ends T (past ++ [mkStep s (snd a) r s' terminal]) s') (outcomes D s (snd a))) (policy s)
  end.
End Trajectories.

(** A policy: for every state, actions with probabilities that add up to 1. *)
Definition random_policy (D : problem) (policy : nat -> list (Q * nat)) : Prop :=
  forall s, s < states D -> (mean (policy s) (fun _ => 1) == 1)%Q /\ Forall (fun a => snd a <= last_action D) (policy s).
(** Action values for given state values *)
Definition action_value (D : problem) (gamma : Q) (v : nat -> Q) (s a : nat) : Q :=
  mean (outcomes D s a) (fun o => let '(r, s', terminal) := o in (r + (if terminal : bool then 0 else gamma * v s'))%Q).
(** [v] are the values of the policy. *)
Definition exact_values (D : problem) (gamma : Q) (policy : nat -> list (Q * nat)) (v : nat -> Q) : Prop :=
  forall s, s < states D -> (v s == mean (policy s) (action_value D gamma v s))%Q.
