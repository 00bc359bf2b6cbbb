(** Specification of off-policy training bookkeeping. *)
From Verif Require Import Base M_OffPolicy.

Section Spec.
  Context {O A R : Type}.

  (** One round of training with n environments: the agent acts on [obs] and then observes the outcome; one entry per environment:
      observation, action taken, reward, next observation, done, reset. *)
  Definition env_step : Type := (O * A * R * O * bool * bool)%type.
  Definition obs_of (e : env_step) : O := let '(o, _, _, _, _, _) := e in o.
  Definition action_of (e : env_step) : A := let '(_, a, _, _, _, _) := e in a.
  Definition reward_of (e : env_step) : R := let '(_, _, r, _, _, _) := e in r.
  Definition next_of (e : env_step) : O := let '(_, _, _, o, _, _) := e in o.
  Definition done_of (e : env_step) : bool := let '(_, _, _, _, d, _) := e in d.
  Definition reset_of (e : env_step) : bool := let '(_, _, _, _, _, r) := e in r.
  Definition round_calls (r : list env_step) : list (call O A R) :=
    [Act (map obs_of r) (map action_of r); Observe (map next_of r) (map reward_of r) (map done_of r) (map reset_of r)].

  (** the act and observe calls made in training mode *)
  Fixpoint in_training (mode : bool) (cs : list (call O A R)) : list (call O A R) :=
    match cs with
    | [] => []
    | SetTraining b :: cs => in_training b cs
    | c :: cs => if mode then c :: in_training mode cs else in_training mode cs
    end.

  (** what the observation of one environment step at time T must do *)
  Definition sync_at (interval : option nat) (T : nat) : list (event O A R) :=
    match interval with Some n => if T mod n =? 0 then [SyncTarget] else [] | None => [] end.
  Definition store (i : nat) (e : env_step) : list (event O A R) :=
    Append i (mkT (obs_of e) (action_of e) (reward_of e) (next_of e) (done_of e)) :: (if done_of e || reset_of e then [StopEpisode i] else []).
  Fixpoint round_events (interval : option nat) (T i : nat) (r : list env_step) : list (event O A R) :=
    match r with
    | [] => []
    | e :: r => sync_at interval (S T) ++ store i e ++ [UpdateIfNecessary (S T)] ++ round_events interval (S T) (S i) r
    end.
  Fixpoint expected (interval : option nat) (T : nat) (rounds : list (list env_step)) : list (event O A R) :=
    match rounds with [] => [] | r :: rs => round_events interval T 0 r ++ expected interval (T + length r) rs end.

  (** events concerning the schedule, and events concerning environment i *)
  Definition is_schedule (e : event O A R) : bool := match e with SyncTarget | UpdateIfNecessary _ => true | _ => false end.
  Definition about (i : nat) (e : event O A R) : bool := match e with Append j _ => j =? i | StopEpisode j => j =? i | _ => false end.
End Spec.
Arguments env_step : clear implicits.
