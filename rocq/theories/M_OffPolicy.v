(** Model of the training bookkeeping of the off-policy agents: dqn.py:489-584 (batch_act, batch_observe), ddpg.py:243-304,
    td3.py:267-317 and soft_actor_critic.py:327-374.  The four have the same loop; DQN and DDPG synchronise the target network from it
    ([target_update_interval = Some _]), TD3 and SAC do not ([None]).  The replay buffer, the target network and the replay updater are
    represented by the list of calls made on them.  The chosen actions are an input of batch_act.  Recurrent states and statistics are
    not modelled. *)
From Verif Require Import Base.

Section OffPolicy.
  Context {O A R : Type}.

  Record transition := mkT { tr_state : O; tr_action : A; tr_reward : R; tr_next_state : O; tr_terminal : bool }.

  (** calls on the collaborators, in order *)
  Inductive event :=
  | SyncTarget                                      (* self.sync_target_network() *)
  | Append (env_id : nat) (x : transition)          (* self.replay_buffer.append(..., env_id=i) *)
  | StopEpisode (env_id : nat)                      (* self.replay_buffer.stop_current_episode(env_id=i) *)
  | UpdateIfNecessary (t : nat).                    (* self.replay_updater.update_if_necessary(self.t) *)

  (** [last]: batch_last_obs and batch_last_action, which do not exist before the first batch_act in training mode *)
  Record agent := mkA { training : bool; t : nat; last : option (list (option O) * list (option A)) }.
  Definition init : agent := mkA true 0 None.

  (** dqn.py:489-507, ddpg.py:261-279, td3.py:277-295, soft_actor_critic.py:337-352; [actions] are the actions chosen *)
  Definition batch_act (s : agent) (batch_obs : list O) (actions : list A) : agent :=
    if training s then mkA true (t s) (Some (map Some batch_obs, map Some actions)) else s.

  Definition get {X} (l : list X) (i : nat) : result X := match nth_error l i with Some x => Ok x | None => Err IndexError end.

  (** One turn of the loop of _batch_observe_train: dqn.py:516-549, ddpg.py:283-304, td3.py:299-317, soft_actor_critic.py:356-374 *)
  Definition observe_one (target_update_interval : option nat) (batch_obs : list O) (batch_reward : list R) (batch_done batch_reset : list bool)
      (s : agent) (i : nat) : result (agent * list event) :=
    let t := S (t s) in
    sync <- match target_update_interval with
            | Some 0 => Err ZeroDivisionError
            | Some n => Ok (if t mod n =? 0 then [SyncTarget] else [])
            | None => Ok []
            end ;;
    ' (lo, la) <- match last s with Some l => Ok l | None => Err AttributeError end ;;
    o <- get lo i ;;
    ' (lo, la, evs) <-
      match o with
      | None => Ok (lo, la, [])
      | Some state =>
          a <- get la i ;;
          action <- match a with Some a => Ok a | None => Err AssertionError end ;;
          r <- get batch_reward i ;; next <- get batch_obs i ;; done <- get batch_done i ;;
          let app := Append i (mkT state action r next done) in
          reset <- get batch_reset i ;;
          if reset || done then Ok (list_set lo i None, list_set la i None, [app; StopEpisode i]) else Ok (lo, la, [app])
      end ;;
    Ok (mkA (training s) t (Some (lo, la)), sync ++ evs ++ [UpdateIfNecessary t]).

  Fixpoint observe_loop (iv : option nat) (obs : list O) (rw : list R) (dn rs : list bool) (s : agent) (is : list nat) : result (agent * list event) :=
    match is with
    | [] => Ok (s, [])
    | i :: is => ' (s, e) <- observe_one iv obs rw dn rs s i ;; ' (s, e') <- observe_loop iv obs rw dn rs s is ;; Ok (s, e ++ e')
    end.

  (** dqn.py:568-584 (and the others) *)
  Definition batch_observe (iv : option nat) (s : agent) (obs : list O) (rw : list R) (dn rs : list bool) : result (agent * list event) :=
    if training s then observe_loop iv obs rw dn rs s (seq 0 (length obs)) else Ok (s, []).

  (** agent.py eval_mode: sets [training] to False for the duration of a with-block *)
  Definition set_training (s : agent) (b : bool) : agent := mkA b (t s) (last s).
  (** the training loops start with agent.t = step_offset *)
  Definition set_t (s : agent) (t : nat) : agent := mkA (training s) t (last s).

  Inductive call :=
  | Act (obs : list O) (actions : list A)
  | Observe (obs : list O) (rewards : list R) (dones resets : list bool)
  | SetTraining (b : bool).
  Definition step (iv : option nat) (s : agent) (c : call) : result (agent * list event) :=
    match c with
    | Act obs actions => Ok (batch_act s obs actions, [])
    | Observe obs rw dn rs => batch_observe iv s obs rw dn rs
    | SetTraining b => Ok (set_training s b, [])
    end.
  Fixpoint calls (iv : option nat) (s : agent) (cs : list call) : result (agent * list event) :=
    match cs with
    | [] => Ok (s, [])
    | c :: cs => ' (s, e) <- step iv s c ;; ' (s, e') <- calls iv s cs ;; Ok (s, e ++ e')
    end.
End OffPolicy.
Arguments transition : clear implicits. Arguments event : clear implicits. Arguments agent : clear implicits. Arguments call : clear implicits.
