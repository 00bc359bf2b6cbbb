(** Model of pfrl/replay_buffers/replay_buffer.py (append, stop_current_episode, save/load) for any kind of memory:
    RandomAccessQueue (ReplayBuffer) or PrioritizedBuffer (PrioritizedReplayBuffer). *)
From Verif Require Import Base M_RandomAccessQueue M_Prioritized.

(** A stored transition dict: everything but is_state_terminal is opaque payload. *)
Record trans (T : Type) := mkTrans { payload : T; terminal : bool }.
Arguments mkTrans {T}. Arguments payload {T}. Arguments terminal {T}.

Section RB.
Context {T M : Type}.
Variable mem_append : M -> list (trans T) -> result M.

(** replay_buffer.py:24-31.  [last_n] is the defaultdict of deques(maxlen=num_steps); environment ids are natural
    numbers (any hashable object in Python). *)
Record rbuf := mkRb { num_steps : nat; memory : M; last_n : nat -> list (trans T) }.

Definition upd {X} (f : nat -> X) (e : nat) (v : X) : nat -> X := fun e' => if e' =? e then v else f e'.

(** replay_buffer.py:24-31 [__init__]: num_steps > 0 is asserted. *)
Definition rb_init (n : nat) (mem : M) : result rbuf :=
  _ <- passert (0 <? n) ;; Ok (mkRb n mem (fun _ => [])).

(** replay_buffer.py:56-58 and 73-75: append every non-empty suffix. *)
Fixpoint flush (mem : M) (l : list (trans T)) : result M :=
  match l with
  | [] => Ok mem
  | _ :: t => mem' <- mem_append mem l ;; flush mem' t
  end.

(** replay_buffer.py:33-62 [append]. *)
Definition rb_append (b : rbuf) (e : nat) (t : trans T) : result rbuf :=
  let l := deque_append (Some (num_steps b)) (last_n b e) t in
  if terminal t then
    mem <- flush (memory b) l ;; Ok (mkRb (num_steps b) mem (upd (last_n b) e []))
  else
    mem <- (if length l =? num_steps b then mem_append (memory b) l else Ok (memory b)) ;;
    Ok (mkRb (num_steps b) mem (upd (last_n b) e l)).

(** replay_buffer.py:64-76 [stop_current_episode]. *)
Definition rb_stop (b : rbuf) (e : nat) : result rbuf :=
  let l := last_n b e in
  mem <- (if (0 <? length l) && (length l <? num_steps b) then mem_append (memory b) l else Ok (memory b)) ;;
  let l := if (0 <? length l) && (length l <=? num_steps b) then tl l else l in
  mem <- flush mem l ;;
  Ok (mkRb (num_steps b) mem (upd (last_n b) e [])).

Inductive rb_op := RAppend (e : nat) (t : trans T) | RStop (e : nat).

Definition rb_step (b : rbuf) (o : rb_op) : result rbuf :=
  match o with RAppend e t => rb_append b e t | RStop e => rb_stop b e end.

Fixpoint rb_run (b : rbuf) (ops : list rb_op) : result rbuf :=
  match ops with
  | [] => Ok b
  | o :: t => b' <- rb_step b o ;; rb_run b' t
  end.
End RB.
Arguments rbuf : clear implicits.
Arguments rb_op : clear implicits.

(** ReplayBuffer (replay_buffer.py:28) and PrioritizedReplayBuffer (prioritized.py:102): the memories. *)
Definition replay_buffer {T} (capacity : option nat) (n : nat) : result (rbuf T (raq (list (trans T)))) :=
  q <- raq_init capacity [] ;; rb_init n q.
Definition prioritized_replay_buffer {T} (capacity : option nat) (n : nat) : result (rbuf T (pbuf (list (trans T)))) :=
  rb_init n (pb_init capacity true 1%Q).
Definition pb_append_default {A} (b : pbuf A) (x : A) : result (pbuf A) := pb_append b x None.
