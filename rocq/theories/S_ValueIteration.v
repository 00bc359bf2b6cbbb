(** Specification for C134: finite decision problems, values of policies, exact fitting of targets. *)
From Coq Require Import Reals QArith Qreals.
From Verif Require Import Base M_ReplayBuffer M_Batch S_Targets.
Close Scope Q_scope. Close Scope R_scope. Open Scope nat_scope.

(** States 0 .. states-1, actions 0 .. last_action.  For a state and an action: what may happen, with probabilities: reward, next state, terminal or not. *)
Record problem := { states : nat; last_action : nat; outcomes : nat -> nat -> list (Q * (Q * nat * bool)) }.
Fixpoint total_probability (l : list (Q * (Q * nat * bool))) : Q := match l with [] => 0%Q | (p, _) :: l => (p + total_probability l)%Q end.
Definition well_formed (D : problem) : Prop := forall s a, s < states D -> a <= last_action D ->
  (total_probability (outcomes D s a) == 1)%Q /\ Forall (fun x => let '(p, (_, s', _)) := x in (0 <= p)%Q /\ s' < states D) (outcomes D s a).

(** Expected reward plus discounted value of what follows; nothing follows a terminal step. *)
Fixpoint expected_value (gamma : Q) (U : nat -> R) (l : list (Q * (Q * nat * bool))) : R :=
  match l with
  | [] => 0%R
  | (p, (r, s', terminal)) :: l => (Q2R p * (Q2R r + (if terminal then 0 else Q2R gamma * U s')) + expected_value gamma U l)%R
  end.
(** [U s] is what a policy earns from [s] on. *)
Definition value_of (D : problem) (gamma : Q) (policy : nat -> nat) (U : nat -> R) : Prop := forall s, s < states D -> U s = expected_value gamma U (outcomes D s (policy s)).
Definition admissible (D : problem) (policy : nat -> nat) : Prop := forall s, s < states D -> policy s <= last_action D.
(** No admissible policy earns more, from any state. *)
Definition optimal_with (D : problem) (gamma : Q) (policy : nat -> nat) (U : nat -> R) : Prop :=
  admissible D policy /\ value_of D gamma policy U /\ forall policy' U', admissible D policy' -> value_of D gamma policy' U' -> forall s, s < states D -> (U' s <= U s)%R.

(** A table of action values: a row for every state. *)
Definition table (D : problem) (q : nat -> list Q) : Prop := forall s, s < states D -> length (q s) = S (last_action D).
(** [q'] fits exactly, on average, the targets that an agent computes with the target network [q] from the transitions there are. *)
Definition transition (s a : nat) (o : Q * nat * bool) : trans (exper nat nat) := let '(r, s', terminal) := o in mkTrans (mkEx s a r s' None) terminal.
Fixpoint average (l : list (Q * (Q * nat * bool))) (ts : list Q) : Q := match l, ts with (p, _) :: l, t :: ts => (p * t + average l ts)%Q | _, _ => 0%Q end.
Definition fits (D : problem) (gamma : Q) (target : (nat -> list Q) -> batch nat nat -> result (list Q)) (q q' : nat -> list Q) : Prop :=
  forall s a, s < states D -> a <= last_action D -> exists x ts, nth_error (q' s) a = Some x /\ (x == average (outcomes D s a) ts)%Q /\
    Forall2 (fun o t => exists b, batch_experiences gamma [[transition s a (snd o)]] = Ok b /\ target q b = Ok [t]) (outcomes D s a) ts.
(** Fit, make the result the target network, and again. *)
Definition iterates (D : problem) (gamma : Q) (target : (nat -> list Q) -> batch nat nat -> result (list Q)) (q : nat -> nat -> list Q) : Prop :=
  table D (q 0) /\ forall k, table D (q (S k)) /\ fits D gamma target (q k) (q (S k)).
(** The greedy policies of a table. *)
Definition greedy (D : problem) (q : nat -> list Q) (policy : nat -> nat) : Prop := forall s, s < states D -> is_argmax (q s) (policy s).
