(** Specification of n-step targets. *)
From Coq Require Import QArith.
From Verif Require Import Base M_ReplayBuffer M_Batch S_Batch.
Open Scope nat_scope.

(** r_0 + gamma r_1 + ... + gamma^(n-1) r_(n-1) + gamma^n v for a window of n transitions; nothing is added after a terminal state. *)
Definition nstep {S A} (gamma : Q) (w : list (trans (exper S A))) (v : Q) : Q :=
  (discounted gamma (map (fun t => x_reward (payload t)) w) + (if existsb terminal w then 0 else gpow gamma (length w) * v))%Q.

(** A window starts with action [a] in state [s] and ends in state [s']. *)
Definition from_to {S A} (w : list (trans (exper S A))) (s : S) (a : A) (s' : S) : Prop :=
  exists first last init rest, w = first :: rest /\ w = init ++ [last] /\
    s = x_state (payload first) /\ a = x_action (payload first) /\ s' = x_next_state (payload last).

(** [m] is the largest entry; [a] is the index of one. *)
Definition is_max (l : list Q) (m : Q) : Prop := In m l /\ forall x, In x l -> (x <= m)%Q.
Definition is_argmax (l : list Q) (a : nat) : Prop := exists m, nth_error l a = Some m /\ forall x, In x l -> (x <= m)%Q.

Fixpoint total (l : list Q) : Q := match l with [] => 0%Q | x :: t => (x + total t)%Q end.
(** [m] is the average of the quantiles of action [j]; [quantiles] has one row per threshold, with an entry for every action. *)
Definition average_of (quantiles : list (list Q)) (j : nat) (m : Q) : Prop :=
  exists vals, Forall2 (fun row v => nth_error row j = Some v) quantiles vals /\ (m == total vals / inject_Z (Z.of_nat (length vals)))%Q.
Definition best_average (quantiles : list (list Q)) (i : nat) : Prop :=
  exists m, average_of quantiles i m /\ forall j m', average_of quantiles j m' -> (m' <= m)%Q.
