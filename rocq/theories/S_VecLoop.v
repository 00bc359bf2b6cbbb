(** Specification for C117: what happened in an environment, and what an agent was shown of it. *)
From Coq Require Import QArith.
From Verif Require Import Base M_VecLoop.
Close Scope Q_scope. Open Scope nat_scope.

Section Spec.
Context {Ob Ac : Type}.

(** An episode: what reset returned, then the actions with what step returned: observation, (reward, done, needs_reset). *)
Definition vplay : Type := Ob * list (Ac * Ob * (Q * bool * bool)).
Fixpoint to_last {T} (f : T -> T) (l : list T) : list T := match l with [] => [] | [x] => [f x] | x :: t => x :: to_last f t end.
Definition vrecord (ps : list vplay) (c : lcall Ob Ac) : list vplay :=
  match c with
  | LReset o => ps ++ [(o, [])]
  | LStep a o x => to_last (fun p => (fst p, snd p ++ [(a, o, x)])) ps
  end.
Definition vplays (log : list (lcall Ob Ac)) : list vplay := fold_left vrecord log [].

(** One step: the observation before it, the action, the reward, the observation after it, done, and whether the episode has to be cut here. *)
Definition vstep : Type := Ob * Ac * Q * Ob * bool * bool.
Definition ended (x : vstep) : bool := let '(_, _, _, _, done, reset) := x in done || reset.
(** The steps of an episode; it is cut when its length is the maximum, or when the environment says so.  [k] steps came before. *)
Fixpoint lived_from (max_len : option nat) (k : nat) (o : Ob) (l : list (Ac * Ob * (Q * bool * bool))) : list vstep :=
  match l with
  | [] => []
  | (a, o', (r, done, needs)) :: l => (o, a, r, o', done, match max_len with Some m => S k =? m | None => false end || needs) :: lived_from max_len (S k) o' l
  end.
Definition lived (max_len : option nat) (p : vplay) : list vstep := lived_from max_len 0 (fst p) (snd p).

(** A round, one step per environment: the agent is asked for the actions, then told the outcomes. *)
Definition s_obs (x : vstep) : Ob := let '(o, _, _, _, _, _) := x in o.
Definition s_action (x : vstep) : Ac := let '(_, a, _, _, _, _) := x in a.
Definition s_reward (x : vstep) : Q := let '(_, _, r, _, _, _) := x in r.
Definition s_next (x : vstep) : Ob := let '(_, _, _, o, _, _) := x in o.
Definition s_done (x : vstep) : bool := let '(_, _, _, _, d, _) := x in d.
Definition s_reset (x : vstep) : bool := let '(_, _, _, _, _, e) := x in e.
Definition asked_and_told (r : list vstep) : list (acall Ob Ac) :=
  [CAct (map s_obs r) (map s_action r); CObserve (map s_next r) (map s_reward r) (map s_done r) (map s_reset r)].
(** The steps of the i-th environment in the rounds. *)
Definition column {T} (i : nat) (rounds : list (list T)) : list T := flat_map (fun r => match nth_error r i with Some x => [x] | None => [] end) rounds.

(** An episode that ran to its end, and not further. *)
Definition whole (max_len : option nat) (p : vplay) : Prop := exists init x, lived max_len p = init ++ [x] /\ ended x = true /\ Forall (fun y => ended y = false) init.
(** An episode that has not ended. *)
Definition ongoing (max_len : option nat) (p : vplay) : Prop := Forall (fun y => ended y = false) (lived max_len p).
End Spec.
Arguments vplay : clear implicits. Arguments vstep : clear implicits.
