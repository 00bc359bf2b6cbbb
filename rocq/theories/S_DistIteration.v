(** Specification for C136: exact fitting of distributions of returns. *)
From Coq Require Import QArith.
From Verif Require Import Base M_ReplayBuffer M_Batch S_Targets S_Categorical S_ValueIteration.
Close Scope Q_scope. Open Scope nat_scope.

(** A probability distribution on n atoms. *)
Definition distribution (n : nat) (p : list Q) : Prop := length p = n /\ Forall (fun x => (0 <= x)%Q) p /\ (total p == 1)%Q.
(** For every state, a distribution for every action. *)
Definition dist_table (D : problem) (n : nat) (d : nat -> list (list Q)) : Prop := forall s, s < states D -> length (d s) = S (last_action D) /\ Forall (distribution n) (d s).
(** The action values: the means of the distributions. *)
Definition means (z : list Q) (d : nat -> list (list Q)) (s : nat) : list Q := map (fun p => mean_of p z) (d s).
(** [d'] fits the targets that an agent computes with the target network [d]: the distribution of a state and an action is the mixture of the
    targets of the transitions there are, with their probabilities (the distribution with the least expected cross entropy). *)
Definition dist_fits (D : problem) (gamma : Q) (n : nat) (target : (nat -> list (list Q)) -> batch nat nat -> result (list (list Q))) (d d' : nat -> list (list Q)) : Prop :=
  forall s a, s < states D -> a <= last_action D -> exists p ts, nth_error (d' s) a = Some p /\ length p = n /\
    (forall j, j < n -> (nth j p 0 == average (outcomes D s a) (map (fun t => nth j t 0) ts))%Q) /\
    Forall2 (fun o t => exists b, batch_experiences gamma [[transition s a (snd o)]] = Ok b /\ target d b = Ok [t]) (outcomes D s a) ts.
(** Fit, make the result the target network, and again. *)
Definition dist_iterates (D : problem) (gamma : Q) (n : nat) (target : (nat -> list (list Q)) -> batch nat nat -> result (list (list Q))) (d : nat -> nat -> list (list Q)) : Prop :=
  dist_table D n (d 0) /\ forall k, (forall s, s < states D -> length (d (S k) s) = S (last_action D)) /\ dist_fits D gamma n target (d k) (d (S k)).
(** The support is wide enough: the reward of a step plus the discounted value of any atom stays within it. *)
Definition wide_enough (D : problem) (gamma lo hi : Q) : Prop := forall s a, s < states D -> a <= last_action D ->
  Forall (fun x => let '(_, (r, _, terminal)) := x in if terminal : bool then (lo <= r <= hi)%Q else (lo <= r + gamma * lo)%Q /\ (r + gamma * hi <= hi)%Q) (outcomes D s a).
