(** C09: n-step replay windows. *)
From Verif Require Import Base M_RandomAccessQueue M_Prioritized M_ReplayBuffer S_ReplayBuffer P_ReplayBuffer.

(** After any sequence of append/stop_current_episode over any environments, the memory holds exactly the windows in
    the order in which they became due (the last [capacity] of them). *)
Theorem C09_replay_buffer_windows : forall T cap n (ops : list (rb_op T)), 0 < n ->
  exists b0 b, replay_buffer cap n = Ok b0 /\ rb_run raq_append b0 ops = Ok b /\
    raq_iter (memory b) = trunc cap (map snd (log n ops)).
Proof. exact replay_buffer_windows. Qed.
Print Assumptions C09_replay_buffer_windows.

(** The same for PrioritizedReplayBuffer. *)
Theorem C09_prioritized_windows : forall T cap n (ops : list (rb_op T)), 0 < n -> cap <> Some 0 ->
  exists b0 b, prioritized_replay_buffer cap n = Ok b0 /\ rb_run pb_append_default b0 ops = Ok b /\
    data (memory b) = trunc cap (map snd (log n ops)).
Proof. exact prioritized_replay_buffer_windows. Qed.
Print Assumptions C09_prioritized_windows.

(** Per environment: one window per transition of every finished episode, in order, plus the complete windows of the
    unfinished episode; nothing else. *)
Theorem C09_per_environment : forall T n e (ops : list (rb_op T)), 0 < n ->
  map snd (filter (fun p => fst p =? e) (log n ops)) = stored n e ops.
Proof. exact log_env. Qed.
Print Assumptions C09_per_environment.

(** Two interleaved environments, n = 3: a terminated episode of length 4 in environment 0, an interrupted episode of
    length 2 and an unfinished one in environment 1. *)
Definition c09_ops : list (rb_op nat) :=
  let t x := mkTrans x false in
  [RAppend 0 (t 1); RAppend 1 (t 11); RAppend 0 (t 2); RAppend 1 (t 12); RStop 1; RAppend 0 (t 3); RAppend 1 (t 13);
   RAppend 0 (mkTrans 4 true); RAppend 1 (t 14); RAppend 1 (t 15)].
Example C09_case :
  (b0 <- replay_buffer (Some 6) 3 ;; b <- rb_run raq_append b0 c09_ops ;; Ok (map (map payload) (raq_iter (memory b))))
  = Ok [[12]; [1; 2; 3]; [2; 3; 4]; [3; 4]; [4]; [13; 14; 15]].
Proof. vm_compute. reflexivity. Qed.
Example C09_case_spec : map (map payload) (stored 3 1 c09_ops) = [[11; 12]; [12]; [13; 14; 15]].
Proof. vm_compute. reflexivity. Qed.
