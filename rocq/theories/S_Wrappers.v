(** Specification for C25-C29, C57, C58. *)
From Verif Require Import Base M_Wrappers.
Open Scope nat_scope.

(** ** C25 *)
Section Frames.
Context {Ob J : Type}.
(** The frames of the current episode, oldest first; None before the first reset. *)
Definition frames_step (fs : option (list Ob)) (r : reply Ob J) : option (list Ob) :=
  match r with
  | RReset (Ok o) => Some [o]
  | RStep (Ok o) => match fs with Some l => Some (l ++ [o_obs o]) | None => None end
  | _ => fs
  end.
Definition frames_of (rs : list (reply Ob J)) : option (list Ob) := fold_left frames_step rs None.
(** The last k frames, the first one repeated if there are fewer. *)
Definition stacked (k : nat) (fs : list Ob) : list Ob :=
  match fs with [] => [] | f :: _ => repeat f (k - length fs) ++ lastn k fs end.
(** The answer [r] with the observation replaced. *)
Definition with_obs (s : list Ob) (r : reply Ob J) : reply (list Ob) J :=
  match r with
  | RReset (Ok _) => RReset (Ok s)
  | RStep (Ok o) => RStep (Ok (mkOut s (o_rew o) (o_done o) (o_needs o) (o_info o)))
  | RReset (Err x) => RReset (Err x)
  | RStep (Err x) => RStep (Err x)
  end.
(** The same for one of several environments: [true] in the mask means that the environment is not reset. *)
Definition vframes_step {A} (i : nat) (fs : option (list Ob)) (cr : vcmd A * vreply Ob J) : option (list Ob) :=
  match cr with
  | (VCReset m, VRReset (Ok obs)) =>
      if match m with None => false | Some mask => nth i mask false end then fs
      else match nth_error obs i with Some o => Some [o] | None => fs end
  | (VCStep _, VRStep (Ok outs)) => match fs, nth_error outs i with Some l, Some o => Some (l ++ [o_obs o]) | _, _ => fs end
  | _ => fs
  end.
Definition vframes_of {A} (i : nat) (h : list (vcmd A * vreply Ob J)) : option (list Ob) := fold_left (vframes_step i) h None.
(** The stacks of the environments [is], if all of them have been reset. *)
Fixpoint vstacks {A} (k : nat) (h : list (vcmd A * vreply Ob J)) (is : list nat) : option (list (list Ob)) :=
  match is with
  | [] => Some []
  | i :: is => match vframes_of i h, vstacks k h is with Some fs, Some l => Some (stacked k fs :: l) | _, _ => None end
  end.
Definition vwith_obs (s : list (list Ob)) (r : vreply Ob J) : vreply (list Ob) J :=
  match r with
  | VRReset (Ok _) => VRReset (Ok s)
  | VRStep (Ok outs) => VRStep (Ok (map (fun '(s, o) => mkOut s (o_rew o) (o_done o) (o_needs o) (o_info o)) (combine s outs)))
  | VRReset (Err x) => VRReset (Err x)
  | VRStep (Err x) => VRStep (Err x)
  end.
End Frames.
(** The vectorized environment answers for all its [n] members; masks have length [n]. *)
Definition v_complete {W Ob A J} (n : nat) (e : venv W Ob A J) : Prop :=
  (forall m w w' obs, v_reset e m w = (w', Ok obs) -> length obs = n) /\ (forall a w w' outs, v_step e a w = (w', Ok outs) -> length outs = n).
Definition masks_ok {A} (n : nat) (cmds : list (vcmd A)) : Prop := Forall (fun c => match c with VCReset (Some m) => length m = n | _ => True end) cmds.


(** ** C26: steps since the last reset; None before the first reset. *)
Definition steps_since {A Ob J} (h : list (cmd A * reply Ob J)) : option nat :=
  fold_left (fun n cr => match cr with (CReset, _) => Some 0 | (CStep _, RStep (Ok _)) => option_map S n | _ => n end) h None.

(** ** C27 *)
Definition over {Ob J} (o : out Ob J) : bool := o_done o || o_needs o.
Definition step_calls {A Ob J} (a : A) (outs : list (out Ob J)) : list (cmd A * reply Ob J) := map (fun o => (CStep a, RStep (Ok o))) outs.
Definition rewards {Ob J} (outs : list (out Ob J)) : Q := fold_right Qplus 0%Q (map o_rew outs).

(** ** C28: has the game itself ended?  [h] are the calls the game received. *)
Definition game_over {A Ob J} (h : list (cmd A * reply Ob J)) : bool :=
  match rev h with [] => true | (CStep _, RStep (Ok o)) :: _ => over o | _ => false end.
Definition ok_reply {Ob J} (r : reply Ob J) : bool := match r with RReset (Ok _) | RStep (Ok _) => true | _ => false end.
(** ** C57: the observation in the last answer of the game. *)
Definition latest_obs {A Ob J} (h : list (cmd A * reply Ob J)) : option Ob :=
  match rev h with (_, RReset (Ok o)) :: _ => Some o | (_, RStep (Ok o)) :: _ => Some (o_obs o) | _ => None end.

(** ** C29: the answers with the reward changed by [f]. *)
Definition with_reward {Ob J} (f : Q -> Q) (r : reply Ob J) : reply Ob J :=
  match r with RStep (Ok o) => RStep (Ok (mkOut (o_obs o) (f (o_rew o)) (o_done o) (o_needs o) (o_info o))) | _ => r end.
(** ** C58: number of steps since the last reset, or since the beginning. *)
Definition steps_in_episode {A Ob J} (h : list (cmd A * reply Ob J)) : nat :=
  fold_left (fun n cr => match cr with (CReset, _) => 0 | (CStep _, RStep (Ok _)) => S n | _ => n end) h 0.
