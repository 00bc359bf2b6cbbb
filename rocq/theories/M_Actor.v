(** Model of pfrl/agents/state_q_function_actor.py (StateQFunctionActor) and pfrl/agents/dqn.py:604-645 (_poll_pipe): the
    actors of actor-learner training, the pipes, and the learner's side of the pipes. *)
From Verif Require Import Base.
From Coq Require Import QArith.
Close Scope Q_scope.
Open Scope nat_scope.

Section Actor.
Context {Ob Ac RS : Type}.
(** self.recurrent (31). *)
Context (recurrent : bool).

(** state_q_function_actor.py:100-118: the dictionary "transition"; [tr_rec] holds the entries recurrent_state and
    next_recurrent_state, present only when recurrent ([None] inside is Python's None). *)
Record transition := mkTr {
  tr_state : Ob; tr_action : Ac; tr_reward : Q; tr_next : Ob; tr_terminal : bool; tr_rec : option (option RS * option RS) }.

(** The messages an actor sends; directories are numbered. *)
Inductive msg := MTransition (t : transition) | MStopEpisode | MGetStatistics | MSave (dir : nat) | MLoad (dir : nat).
(** The answers: statistics (only the entry cumulative_steps is kept), or None. *)
Inductive reply := RStats (cumulative_steps : nat) | RNone.

(** 36-46: attributes of the actor; [ac_training] is set by agent.eval_mode (agent.py:50-59). *)
Record actor := mkActor {
  ac_training : bool; ac_t : nat; ac_last_state : option Ob; ac_last_action : option Ac;
  ac_train : option RS; ac_prev : option RS; ac_test : option RS }.
Definition actor0 : actor := mkActor true 0 None None None None None.

(** 82-95: act.  [net] is what the shared network computes for [obs] at this moment, from the recurrent state given to it:
    the greedy action and the new recurrent state; [expl] is the explorer's choice, given t and the greedy action. *)
Definition act (obs : Ob) (net : option RS -> Ac * RS) (expl : nat -> Ac -> Ac) (a : actor) : actor * option RS * RS * Ac :=
  let s := if recurrent then if ac_training a then ac_train a else ac_test a else None in
  let (greedy, s') := net s in
  if ac_training a then
    let action := expl (ac_t a) greedy in
    (mkActor true (ac_t a) (Some obs) (Some action)
             (if recurrent then Some s' else ac_train a) (if recurrent then ac_train a else ac_prev a) (ac_test a),
     s, s', action)
  else
    (mkActor false (ac_t a) (ac_last_state a) (ac_last_action a) (ac_train a) (ac_prev a)
             (if recurrent then Some s' else ac_test a),
     s, s', greedy).

(** 97-124 and 75-80: observe up to the blocking pipe.recv(): the messages sent (an AssertionError if act was never called in
    training mode) and whether the actor now waits for an answer. *)
Definition observe (obs : Ob) (r : Q) (done reset : bool) (a : actor) : actor * result (list msg * bool) :=
  if ac_training a then
    let a1 := mkActor true (S (ac_t a)) (ac_last_state a) (ac_last_action a) (ac_train a) (ac_prev a) (ac_test a) in
    match ac_last_state a, ac_last_action a with
    | Some o, Some u =>
        let t := mkTr o u r obs done (if recurrent then Some (ac_prev a, ac_train a) else None) in
        (mkActor true (S (ac_t a)) (Some o) (Some u) (ac_train a) (if recurrent then None else ac_prev a) (ac_test a),
         Ok (MTransition t :: (if done || reset then [MStopEpisode] else []), done || reset))
    | _, _ => (a1, Err AssertionError)
    end
  else
    (mkActor false (ac_t a) (ac_last_state a) (ac_last_action a) (ac_train a) (ac_prev a)
             (if (done || reset) && recurrent then None else ac_test a), Ok ([], false)).
(** 119-121: the end of observe, after pipe.recv() returned. *)
Definition observe_end (a : actor) : actor :=
  if recurrent then mkActor (ac_training a) (ac_t a) (ac_last_state a) (ac_last_action a) None None (ac_test a) else a.

(** What a blocked actor is waiting for. *)
Inductive wait := WObserve | WRequest (m : msg).

(** An actor process: the actor, the two directions of its pipe, and what it is blocked on. *)
Record node := mkNode { nd_actor : actor; nd_out : list msg; nd_in : list reply; nd_wait : option wait }.
Definition node0 : node := mkNode actor0 [] [] None.

(** Calls made on the replay buffer. *)
Inductive bufop := BAppend (env_id : nat) (t : transition) | BStop (env_id : nat).
(** The learner: the calls made on its replay buffer, _cumulative_steps, exception_event. *)
Record learner := mkLearner { lr_ops : list bufop; lr_steps : nat; lr_exn : bool }.

(** dqn.py:616-639: one iteration of the loop of _poll_pipe for the message [m] of actor [i], not raising. *)
Definition handle (i : nat) (m : msg) (l : learner) : learner * list reply :=
  match m with
  | MGetStatistics => (l, [RStats (lr_steps l)])
  | MLoad _ | MSave _ => (l, [RNone])
  | MTransition t => (mkLearner (lr_ops l ++ [BAppend i t]) (S (lr_steps l)) (lr_exn l), [])
  | MStopEpisode => (mkLearner (lr_ops l ++ [BStop i]) (lr_steps l) (lr_exn l), [RStats (lr_steps l)])
  end.

(** What can happen next: a call on actor [i] by its process (ignored while that process is blocked), the delivery of an answer,
    one iteration of the poller for pipe [i] ([raise]: handling it raises; dqn.py:642-644), a failure of the learner thread
    (dqn.py:706-708). *)
Inductive event :=
| EvAct (i : nat) (obs : Ob) (net : option RS -> Ac * RS) (expl : nat -> Ac -> Ac)
| EvObserve (i : nat) (obs : Ob) (r : Q) (done reset : bool)
| EvMode (i : nat) (training : bool)
| EvRequest (i : nat) (m : msg)
| EvRecv (i : nat)
| EvPoll (i : nat) (raise : bool)
| EvLearnerFails.

(** The record: calls and what they returned. *)
Inductive call :=
| CAct (i : nat) (training : bool) (obs : Ob) (s : option RS) (s' : RS) (action : Ac)
| CObserve (i : nat) (training : bool) (obs : Ob) (r : Q) (done reset : bool)
| CAnswer (i : nat) (m : msg) (r : reply).

Definition world : Type := learner * list node.

(** 126-136: save, load, get_statistics; only these three messages are sent this way. *)
Definition is_request (m : msg) : bool := match m with MGetStatistics | MSave _ | MLoad _ => true | _ => false end.

Definition step (w : world) (e : event) : world * list call :=
  let (l, ns) := w in
  match e with
  | EvAct i obs net expl =>
      match nth_error ns i with
      | Some (mkNode a out inn None) =>
          let '(a', s, s', u) := act obs net expl a in
          ((l, list_set ns i (mkNode a' out inn None)), [CAct i (ac_training a) obs s s' u])
      | _ => (w, [])
      end
  | EvObserve i obs r done reset =>
      match nth_error ns i with
      | Some (mkNode a out inn None) =>
          let (a', res) := observe obs r done reset a in
          match res with
          | Ok (ms, blocks) =>
              ((l, list_set ns i (mkNode a' (out ++ ms) inn (if blocks then Some WObserve else None))),
               [CObserve i (ac_training a) obs r done reset])
          | Err _ => ((l, list_set ns i (mkNode a' out inn None)), [CObserve i (ac_training a) obs r done reset])
          end
      | _ => (w, [])
      end
  | EvMode i b =>
      match nth_error ns i with
      | Some (mkNode a out inn None) =>
          ((l, list_set ns i (mkNode (mkActor b (ac_t a) (ac_last_state a) (ac_last_action a) (ac_train a) (ac_prev a) (ac_test a)) out inn None)), [])
      | _ => (w, [])
      end
  | EvRequest i m =>
      match nth_error ns i with
      | Some (mkNode a out inn None) =>
          if is_request m then ((l, list_set ns i (mkNode a (out ++ [m]) inn (Some (WRequest m)))), []) else (w, [])
      | _ => (w, [])
      end
  | EvRecv i =>
      match nth_error ns i with
      | Some (mkNode a out (r :: inn) (Some k)) =>
          match k with
          | WObserve => ((l, list_set ns i (mkNode (observe_end a) out inn None)), [])
          | WRequest m => ((l, list_set ns i (mkNode a out inn None)), [CAnswer i m r])
          end
      | _ => (w, [])
      end
  | EvPoll i raise =>
      if lr_exn l then (w, []) else
      match nth_error ns i with
      | Some (mkNode a (m :: out) inn k) =>
          if raise then ((mkLearner (lr_ops l) (lr_steps l) true, list_set ns i (mkNode a out inn k)), [])
          else let (l', rs) := handle i m l in ((l', list_set ns i (mkNode a out (inn ++ rs) k)), [])
      | _ => (w, [])
      end
  | EvLearnerFails => ((mkLearner (lr_ops l) (lr_steps l) true, ns), [])
  end.

Fixpoint exec (w : world) (es : list event) : world * list call :=
  match es with
  | [] => (w, [])
  | e :: es => let (w1, c1) := step w e in let (w2, c2) := exec w1 es in (w2, c1 ++ c2)
  end.

(** dqn.py:739-757: n actors around a fresh learner. *)
Definition world0 (n : nat) : world := (mkLearner [] 0 false, repeat node0 n).
End Actor.
