(** Specification for C102. *)
From Verif Require Import Base M_Train S_Train.
Open Scope nat_scope.

(** The requests for an evaluation: time, episodes so far, the score if there was an evaluation. *)
Definition requests (tr : list ev) : list (nat * nat * option Q) := flat_map (fun e => match e with EEval t ep s => [(t, ep, s)] | _ => [] end) tr.
Definition brequests (tr : list bev) : list (nat * nat * option Q) := flat_map (fun e => match e with BEval t ep s => [(t, ep, s)] | _ => [] end) tr.
Definition at_time {X} (r : nat * nat * X) : nat := fst (fst r).
Definition scored (rs : list (nat * nat * option Q)) : list Q := flat_map (fun r => match snd r with Some m => [m] | None => [] end) rs.

(** There is an evaluation exactly at the requests whose time lies in a later interval than the offset and all earlier requests. *)
Definition on_schedule (interval offset : nat) (rs : list (nat * nat * option Q)) : Prop :=
  forall pre t ep s post, rs = pre ++ (t, ep, s) :: post ->
    (s <> None <-> forall b, In b (offset :: map at_time pre) -> b / interval < t / interval).

(** The times, counted from [t], at which an episode ends (done, reset, or the last step), or all times. *)
Fixpoint occasions (P : train_args) (t : nat) (tr : list ev) : list nat :=
  match tr with
  | [] => []
  | EObserve _ done reset :: tr =>
      (if done || reset || (S t =? a_steps P) || a_eval_during_episode P then [S t] else []) ++ occasions P (S t) tr
  | _ :: tr => occasions P t tr
  end.

(** After an evaluation in the training environment no action is chosen before the environment was reset. *)
Fixpoint undisturbed (used : bool) (tr : list ev) : bool :=
  match tr with
  | [] => true
  | EReset :: tr => undisturbed false tr
  | EEval _ _ (Some _) :: tr => undisturbed true tr
  | EAct :: tr => negb used && undisturbed used tr
  | _ :: tr => undisturbed used tr
  end.
(** The same for environment [i] of a vector environment. *)
Fixpoint bundisturbed (i : nat) (used : bool) (tr : list bev) : bool :=
  match tr with
  | [] => true
  | BReset None :: tr => bundisturbed i false tr
  | BReset (Some mask) :: tr => bundisturbed i (match nth_error mask i with Some false => false | _ => used end) tr
  | BEval _ _ (Some _) :: tr => bundisturbed i true tr
  | BAct :: tr => negb used && bundisturbed i used tr
  | _ :: tr => bundisturbed i used tr
  end.
Fixpoint total (l : list Q) : Q := match l with [] => 0%Q | x :: l => (x + total l)%Q end.
