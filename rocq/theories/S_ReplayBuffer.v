(** Specification of n-step windows, from the history of operations alone. *)
From Verif Require Import Base M_ReplayBuffer.

Section Spec.
Context {T : Type}.
Implicit Types (ops : list (rb_op T)) (ep : list (trans T)).

Definition env_of (o : rb_op T) : nat := match o with RAppend e _ => e | RStop e => e end.

(** The finished episodes of environment [e] and its unfinished one.  An episode ends with a terminal transition or
    with stop_current_episode. *)
Definition ep_step (e : nat) (s : list (list (trans T)) * list (trans T)) (o : rb_op T) :=
  let (done, cur) := s in
  match o with
  | RAppend e' t =>
      if e' =? e then (if terminal t then (done ++ [cur ++ [t]], []) else (done, cur ++ [t])) else s
  | RStop e' => if e' =? e then (match cur with [] => s | _ => (done ++ [cur], []) end) else s
  end.
Definition episodes (e : nat) (ops : list (rb_op T)) := fold_left (ep_step e) ops ([], []).

(** The window of the i-th transition: itself and the next up-to-(n-1) of the same episode. *)
Definition window (n : nat) (ep : list (trans T)) (i : nat) : list (trans T) := firstn n (skipn i ep).
(** All windows of a finished episode; all complete windows of an unfinished one. *)
Definition windows (n : nat) (ep : list (trans T)) := map (window n ep) (seq 0 (length ep)).
Definition full_windows (n : nat) (ep : list (trans T)) := map (window n ep) (seq 0 (length ep + 1 - n)).

(** What environment [e] must have contributed after [ops]. *)
Definition stored (n e : nat) (ops : list (rb_op T)) : list (list (trans T)) :=
  flat_map (windows n) (fst (episodes e ops)) ++ full_windows n (snd (episodes e ops)).

(** The contributions in the order in which they become due: each operation contributes what is new for its
    environment. *)
Fixpoint log_from (n : nat) (past ops : list (rb_op T)) : list (nat * list (trans T)) :=
  match ops with
  | [] => []
  | o :: t =>
      map (pair (env_of o)) (skipn (length (stored n (env_of o) past)) (stored n (env_of o) (past ++ [o])))
      ++ log_from n (past ++ [o]) t
  end.
Definition log n ops := log_from n [] ops.
End Spec.
