(** Model of actor-learner DQN training: the poller thread (pfrl/agents/dqn.py:604-646) and the learner thread
    (pfrl/agents/dqn.py:648-712) sharing one PrioritizedReplayBuffer (pfrl/replay_buffers/prioritized.py:67-122).

    Simplifications.  The two threads run in interleaved steps.  A step of the poller is one "transition" command; it is atomic
    because of replay_buffer_lock.  A step of the learner is: starting an iteration and sampling (atomic because of the lock);
    entering set_last_priority; writing the priority of one index in both trees (collections/prioritized.py:111-114; no lock is
    held, and the poller may run between two such writes; the real threads may also interleave inside a write); leaving
    set_last_priority; the rest of the iteration.  Transitions are opaque and num_steps is 1, so that a "transition" command stores
    exactly one element.  "get_statistics", "load", "save" and "stop_episode" commands do not touch the memory when num_steps is 1
    and are left out.  The recurrent branches (lines 659-665) are left out.  Importance weights are left out (they are C49). *)
From Verif Require Import Base M_Prioritized.
Open Scope nat_scope.

(** The parameters of the constructor (dqn.py:181-205) and of setup_actor_learner_training (dqn.py:729-737) the loops read. *)
Record al_cfg := mkCfg {
  replay_start_size : nat;
  minibatch_size : nat;
  update_interval : nat;
  target_update_interval : nat;
  actor_update_interval : nat;
  n_updates : option nat
}.

Section ActorLearner.
Context {A : Type}.

(** Where the learner is.  [LWriting]: the indices of memory.sampled_indices still to be written, each with the transition that
    was sampled there and the priority computed from that transition's error. *)
Inductive phase :=
| LTop                                  (* dqn.py:663, top of the while loop *)
| LSampled (xs : list A)                (* dqn.py:686, in self.update before update_errors *)
| LWriting (todo : list (Z * A * Q))    (* in set_last_priority, collections/prioritized.py:111-114 *)
| LUpdated                              (* update_errors has returned *)
| LStopped                              (* n_updates reached: stop_event set, loop left *)
| LFailed (e : exn).                    (* dqn.py:710-712: logged, exception_event set *)

Record al_state := mkAl {
  buf : pbuf A;
  cumulative_steps : nat;               (* self._cumulative_steps *)
  poller_failed : bool;                 (* the poller's except clause has run (dqn.py:644-646) *)
  lphase : phase;
  optim_t : nat;
  update_counter : nat;                 (* the local variable update_counter *)
  published : nat;                      (* self.update_counter.value: copies of the model given to the actors *)
  agent_t : nat;                        (* self.t *)
  syncs : list nat                      (* value of optim_t at each call of sync_target_network, newest first *)
}.

Definition with_buf (st : al_state) (b : pbuf A) : al_state :=
  mkAl b (cumulative_steps st) (poller_failed st) (lphase st) (optim_t st) (update_counter st) (published st) (agent_t st) (syncs st).
Definition with_phase (st : al_state) (ph : phase) : al_state :=
  mkAl (buf st) (cumulative_steps st) (poller_failed st) ph (optim_t st) (update_counter st) (published st) (agent_t st) (syncs st).

(** dqn.py:252-254 and prioritized.py:85-112 (the memory waits for priorities after sampling; its initial maximum is 1). *)
Definition al_init (cap : option nat) : al_state := mkAl (pb_init cap true 1%Q) 0 false LTop 0 0 0 0 [].

(** What is scheduled next, with the outcomes of the generator and of the loss computation. *)
Inductive event :=
| Poll (x : A)                          (* the poller handles a "transition" command *)
| Learn (o : soracle)                   (* the learner goes through the top of its loop and samples *)
| Errors (ps : list Q)                  (* the loss is computed; update_errors enters set_last_priority with these priorities *)
| Write                                 (* one pass of the loop of set_last_priority, or leaving it when it is done *)
| Finish.                               (* the rest of the iteration *)

(** dqn.py:627-632 in _poll_pipe: a poller whose exception_event is set reads no more commands.
    prioritized.py:67 inherits append: with num_steps = 1 the element is appended to the memory. *)
Definition poll_step (st : al_state) (x : A) : al_state :=
  if poller_failed st then st
  else match pb_append (buf st) x None with
       | Ok b => mkAl b (S (cumulative_steps st)) false (lphase st) (optim_t st) (update_counter st) (published st) (agent_t st) (syncs st)
       | Err _ => mkAl (buf st) (cumulative_steps st) true (lphase st) (optim_t st) (update_counter st) (published st) (agent_t st) (syncs st)
       end.

(** prioritized.py:113-119 [sample] without the weights; the number of draws is minibatch_size, none of them uniform. *)
Definition buffer_sample (b : pbuf A) (n : nat) (o : soracle) : result (pbuf A * list A) :=
  _ <- passert (n <=? length (data b)) ;;
  '(b', (xs, _, _)) <- pb_sample b (mkSo [] (firstn n (so_fracs o))) 0%Q ;;
  Ok (b', xs).

(** dqn.py:662-686: _can_start_replay, the n_updates test, sampling under the lock. *)
Definition learn_top (c : al_cfg) (st : al_state) (o : soracle) : al_state :=
  if length (data (buf st)) <? replay_start_size c then st
  else
    let go := match buffer_sample (buf st) (minibatch_size c) o with
              | Ok (b, xs) => with_phase (with_buf st b) (LSampled xs)
              | Err e => with_phase st (LFailed e)
              end in
    match n_updates c with
    | Some n => if n <? optim_t st then with_phase st (LFailed AssertionError)
                else if optim_t st =? n then with_phase st LStopped
                else go
    | None => go
    end.

(** collections/prioritized.py:107-110: the assertions of set_last_priority, then its loop begins. *)
Definition enter_update (st : al_state) (xs : list A) (ps : list Q) : al_state :=
  let b := buf st in
  match (_ <- passert (negb (wait_after b) || flag_wait b) ;;
         _ <- passert (forallb (fun p => Qltb 0 p) ps) ;;
         match sampled_indices b with
         | None => Err AttributeError
         | Some ixs => _ <- passert (length ixs =? length ps) ;; Ok ixs
         end) with
  | Ok ixs => with_phase st (LWriting (combine (combine ixs xs) ps))
  | Err e => with_phase st (LFailed e)
  end.

(** collections/prioritized.py:111-116: one index in both trees and the maximum, or the end of set_last_priority. *)
Definition write_step (st : al_state) (todo : list (Z * A * Q)) : al_state :=
  let b := buf st in
  match todo with
  | [] => with_phase (with_buf st (mkPb (capacity b) (data b) (sums b) (mins b) (max_priority b) (wait_after b) false (Some []))) LUpdated
  | (i, _, p) :: rest =>
      match ('(s, _) <- tq_set op_sum (sums b) i p ;;
             '(m, _) <- tq_set op_min (mins b) i p ;;
             Ok (mkPb (capacity b) (data b) s m (if Qltb (max_priority b) p then p else max_priority b) (wait_after b)
                   (flag_wait b) (sampled_indices b))) with
      | Ok b' => with_phase (with_buf st b') (LWriting rest)
      | Err e => with_phase st (LFailed e)
      end
  end.

(** dqn.py:358-365 (optimizer step, optim_t) and 688-709 (publishing to the actors, self.t, target network). Hooks are left out. *)
Definition finish_step (c : al_cfg) (st : al_state) : al_state :=
  let ot := S (optim_t st) in
  let uc := S (update_counter st) in
  let eff := ot * update_interval c in
  mkAl (buf st) (cumulative_steps st) (poller_failed st) LTop ot uc
    (if uc mod actor_update_interval c =? 0 then S (published st) else published st)
    eff
    (if eff mod target_update_interval c =? 0 then ot :: syncs st else syncs st).

(** One step of the schedule.  An event the learner is not ready for is skipped. *)
Definition al_step (c : al_cfg) (st : al_state) (e : event) : al_state :=
  match e, lphase st with
  | Poll x, _ => poll_step st x
  | Learn o, LTop => learn_top c st o
  | Errors ps, LSampled xs => enter_update st xs ps
  | Write, LWriting todo => write_step st todo
  | Finish, LUpdated => finish_step c st
  | _, _ => st
  end.

Definition al_run (c : al_cfg) (st : al_state) (es : list event) : al_state := fold_left (al_step c) es st.
End ActorLearner.
Arguments phase : clear implicits. Arguments al_state : clear implicits. Arguments event : clear implicits.
