(** Specification for C138 and C139: what a policy is worth on a finite decision problem, and critics fitted round after round. *)
From Coq Require Import Reals QArith Qreals Qabs.
From Verif Require Import Base M_ReplayBuffer M_Batch Vec M_Targets M_ActorCritic S_ValueIteration.
Close Scope Q_scope. Close Scope R_scope. Open Scope nat_scope.

(** ** Worth *)
Fixpoint mean_over {X} (f : X -> R) (l : list (R * X)) : R := match l with [] => 0%R | (p, x) :: l => (p * f x + mean_over f l)%R end.
(** A policy: for every state, actions with their probabilities. *)
Definition proper (D : problem) (pi : nat -> list (R * nat)) : Prop :=
  forall s, s < states D -> mean_over (fun _ => 1%R) (pi s) = 1%R /\ Forall (fun c => (0 <= fst c)%R /\ snd c <= last_action D) (pi s).
(** [charge s a] is what choosing [a] in [s] costs the policy: temperature times log-probability for SAC, nothing for DDPG and TD3. *)
Definition state_worth (pi : nat -> list (R * nat)) (charge U : nat -> nat -> R) (s : nat) : R := mean_over (fun a => U s a - charge s a)%R (pi s).
(** [U s a]: taking [a] in [s] and following the policy from then on. *)
Definition worth (D : problem) (gamma : Q) (pi : nat -> list (R * nat)) (charge U : nat -> nat -> R) : Prop :=
  forall s a, s < states D -> a <= last_action D -> U s a = expected_value gamma (state_worth pi charge U) (outcomes D s a).
Definition free : nat -> nat -> R := fun _ _ => 0%R.

(** ** Critics fitted to targets *)
(** Here the probabilities are rational. *)
Definition real (pi : nat -> list (Q * nat)) (s : nat) : list (R * nat) := map (fun c => (Q2R (fst c), snd c)) (pi s).
(** What may happen after [a] in [s], and what the policy may choose there. *)
Definition chances (D : problem) (pi : nat -> list (Q * nat)) (s a : nat) : list (Q * ((Q * nat * bool) * nat)) :=
  flat_map (fun x => let '(p, (r, s', tm)) := x in map (fun c => ((p * fst c)%Q, ((r, s', tm), snd c))) (pi s')) (outcomes D s a).
Fixpoint average_over {X} (l : list (Q * X)) (ts : list Q) : Q := match l, ts with (p, _) :: l, t :: ts => (p * t + average_over l ts)%Q | _, _ => 0%Q end.
(** A table as the parameters of a network: one parameter for every state and action. *)
Definition size (D : problem) : nat := states D * S (last_action D).
Definition cell (D : problem) (p : vec) (s a : nat) : Q := nth (s * S (last_action D) + a) p 0%Q.
(** [q] is, up to [eps], the average of the targets computed from the transitions there are and the next actions the policy samples. [target s' a' b]: the targets of
    the batch [b] when [a'] is sampled in its next state [s']. *)
Definition fits_within (D : problem) (gamma eps : Q) (pi : nat -> list (Q * nat)) (target : nat -> nat -> batch nat nat -> list Q) (q : vec) : Prop :=
  length q = size D /\ forall s a, s < states D -> a <= last_action D -> exists ts, (Qabs (cell D q s a - average_over (chances D pi s a) ts) <= eps)%Q /\
    Forall2 (fun c t => let '(_, ((_, s', _) as o, a')) := c in exists b, batch_experiences gamma [[transition s a o]] = Ok b /\ target s' a' b = [t]) (chances D pi s a) ts.
(** Rounds: fit the critics to the targets of the target critics, then synchronise the target critics, again and again. *)
Definition ddpg_rounds (D : problem) (gamma eps : Q) (method : option Q) (pi : nat -> list (Q * nat)) (q t : nat -> vec) : Prop :=
  length (t 0) = size D /\ forall k,
    fits_within D gamma eps pi (fun _ a' b => ddpg_target gamma (cell D (t k)) [a'] b) (q (S k)) /\ t (S k) = synchronize method (t k) (q (S k)).
Definition td3_rounds (D : problem) (gamma eps tau : Q) (pi : nat -> list (Q * nat)) (q1 q2 t1 t2 : nat -> vec) : Prop :=
  length (t1 0) = size D /\ length (t2 0) = size D /\ forall k,
    let target := fun _ a' b => td3_target (cell D (t1 k)) (cell D (t2 k)) [a'] b in
    fits_within D gamma eps pi target (q1 (S k)) /\ fits_within D gamma eps pi target (q2 (S k)) /\ t1 (S k) = soft_copy tau (t1 k) (q1 (S k)) /\ t2 (S k) = soft_copy tau (t2 k) (q2 (S k)).
(** [lp s a]: the log-probability that the policy reports for [a] in [s]. *)
Definition sac_rounds (D : problem) (gamma eps tau temperature : Q) (pi : nat -> list (Q * nat)) (lp : nat -> nat -> Q) (q1 q2 t1 t2 : nat -> vec) : Prop :=
  length (t1 0) = size D /\ length (t2 0) = size D /\ forall k,
    let target := fun s' a' b => sac_target (cell D (t1 k)) (cell D (t2 k)) temperature [(a', lp s' a')] b in
    fits_within D gamma eps pi target (q1 (S k)) /\ fits_within D gamma eps pi target (q2 (S k)) /\ t1 (S k) = soft_copy tau (t1 k) (q1 (S k)) /\ t2 (S k) = soft_copy tau (t2 k) (q2 (S k)).
(** A table is within [d] of the worth of the policy. *)
Definition within (D : problem) (q : vec) (U : nat -> nat -> R) (d : R) : Prop := forall s a, s < states D -> a <= last_action D -> (Rabs (Q2R (cell D q s a) - U s a) <= d)%R.
