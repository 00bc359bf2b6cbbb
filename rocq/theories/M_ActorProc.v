(** Model of train_loop (pfrl/experiments/train_agent_async.py:28-143) when the agents are StateQFunctionActor
    (pfrl/agents/state_q_function_actor.py), whose calls block until the poller thread (pfrl/agents/dqn.py:604-645 and 710-723)
    answers.  The processes take the steps of M_Async; a step that calls the learner first waits for the answers. *)
From Verif Require Import Base M_Train M_Async.
Open Scope nat_scope.

(** Messages from an actor: a transition, which is not answered, or a command that is (stop_episode, get_statistics, save). *)
Inductive pmsg := PTransition | PCommand.

(** A process: the worker of M_Async, the messages it sent and the poller has not taken, the answers it has not received, and,
    if it is blocked in pipe.recv(), the behaviour of the step in progress and the number of commands that step still waits for. *)
Record proc := mkProc { pr_k : worker; pr_out : list pmsg; pr_in : nat; pr_wait : option (choice * nat) }.

Section Procs.
Context (P : async_args).

(** A call of user code happens at these program counters. *)
Definition calls_user (k : worker) : bool :=
  match wk_pc k with
  | PcReset _ | PcAct | PcStep | PcObserve | PcEval => true
  | PcHook i => i <? as_nhooks P
  | _ => false
  end.

(** The number of commands sent (and waited for) before the step of process [idx] completes; [extra]: those sent by hooks and by
    the evaluator (evaluator.py:524-662 calls get_statistics and, for a new best score, save).  An exception in the user code makes
    process 0 save the agent (train_agent_async.py:49-54, 129-131); observe sends stop_episode at the end of an episode
    (state_q_function_actor.py:75-80); process 0 logs the statistics (94), saves when it detects the exception event (126), and the
    final and successful agents are saved (133-143). *)
Definition commands (idx : nat) (c : choice) (extra : nat) (g : shared) (k : worker) : nat :=
  if calls_user k && c_raise c then (if idx =? 0 then 1 else 0) else
  match wk_pc k with
  | PcObserve => if wk_done k || wk_reset k then 1 else 0
  | PcCheck => if (wk_done k || wk_reset k || (as_steps P <=? wk_gt k) || sh_stop g) && (idx =? 0) then 1 else 0
  | PcEval => extra
  | PcHook i => if i <? as_nhooks P then extra else 0
  | PcException => if (idx =? 0) && sh_exn g then 1 else 0
  | PcFinish => if wk_gt k =? as_steps P then 1 else 0
  | PcSuccess => if wk_success k then 1 else 0
  | _ => 0
  end.
(** observe sends the transition (76). *)
Definition transitions (c : choice) (k : worker) : list pmsg :=
  match wk_pc k with PcObserve => if c_raise c then [] else [PTransition] | _ => [] end.

(** What can happen next: process [idx] starts its next step; it receives an answer; the poller takes a message of process [i]
    (handling it may raise; dqn.py:642-644); the user sets the stop event; the learner thread fails (dqn.py:706-708). *)
Inductive pevent := PRun (idx : nat) (c : choice) (extra : nat) | PRecv (idx : nat) | PPoll (i : nat) (raise : bool) | PStop | PExn.

Definition pstate : Type := shared * list proc.

Definition pstep (s : pstate) (e : pevent) : pstate :=
  let (g, ps) := s in
  if sh_killed g then s else
  match e with
  | PRun i c extra =>
      match nth_error ps i with
      | Some (mkProc k out n None) =>
          match commands i c extra g k with
          | 0 => let '(g', k', _) := wstep P i c g k in (g', list_set ps i (mkProc k' (out ++ transitions c k) n None))
          | S m => (g, list_set ps i (mkProc k (out ++ transitions c k ++ [PCommand]) n (Some (c, S m))))
          end
      | _ => s
      end
  | PRecv i =>
      match nth_error ps i with
      | Some (mkProc k out (S n) (Some (c, S (S m)))) => (g, list_set ps i (mkProc k (out ++ [PCommand]) n (Some (c, S m))))
      | Some (mkProc k out (S n) (Some (c, _))) =>
          let '(g', k', _) := wstep P i c g k in (g', list_set ps i (mkProc k' out n None))
      | _ => s
      end
  | PPoll i raise =>
      if sh_exn g then s else
      match nth_error ps i with
      | Some (mkProc k (m :: out) n w) =>
          if raise then (mkSh (sh_counter g) (sh_episodes g) (sh_stop g) true (sh_killed g), list_set ps i (mkProc k out n w))
          else (g, list_set ps i (mkProc k out (match m with PCommand => S n | PTransition => n end) w))
      | _ => s
      end
  | PStop => (mkSh (sh_counter g) (sh_episodes g) true (sh_exn g) (sh_killed g), ps)
  | PExn => (mkSh (sh_counter g) (sh_episodes g) (sh_stop g) true (sh_killed g), ps)
  end.
Definition prun (s : pstate) (es : list pevent) : pstate := fold_left pstep es s.
End Procs.

Definition pstart (processes : nat) : pstate := (mkSh 0 0 false false false, repeat (mkProc worker0 [] 0 None) processes).
