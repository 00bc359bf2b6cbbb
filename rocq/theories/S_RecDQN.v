(** Specification for C116: what a recurrent agent should remember, from what happened to it. *)
From Coq Require Import QArith.
From Verif Require Import Base M_ReplayBuffer S_ReplayBuffer M_RecDQN.
Close Scope Q_scope. Open Scope nat_scope.

Section Spec.
Context {Ob Ac AV H Pm : Type}.
Context (cell : Pm -> Ob -> H -> AV * H) (zero : H).
Notation seen := (seen Ob Ac AV H Pm).
Notation rec := (rec Ob Ac H).

(** Training in n environments: the agent acts on n observations, is told n outcomes, acts, and so on.  Evaluation may come in between at any time. *)
Fixpoint proper (n : nat) (acted : bool) (tr : list seen) : Prop :=
  match tr with
  | [] => True
  | Acted true _ obs _ _ :: tr => acted = false /\ length obs = n /\ proper n true tr
  | Observed true l _ :: tr => acted = true /\ length l = n /\ proper n false tr
  | _ :: tr => proper n acted tr
  end.

(** What is remembered of the i-th environment: the network is fed the observation acted on; when the episode ends, nothing is remembered. *)
Definition remember (x : seen) (m : nat -> H) (i : nat) : H :=
  match x with
  | Acted true p obs _ _ => match nth_error obs i with Some o => snd (cell p o (m i)) | None => m i end
  | Observed true l _ => match nth_error l i with Some y => if ends y then zero else m i | None => m i end
  | _ => m i
  end.
Definition memory (tr : list seen) : nat -> H := fold_left (fun m x => remember x m) tr (fun _ => zero).

(** The calls the replay buffer must get: at the end of a step of the i-th environment the transition, with what was remembered before and after its observation was seen. *)
Fixpoint steps (i : nat) (obs : list Ob) (actions : list Ac) (l : list (outcome Ob)) (before after : nat -> H) : list (rb_op rec) :=
  match obs, actions, l with
  | o :: obs, a :: actions, (o', r, done, reset) :: l =>
      RAppend i (mkTrans (mkRec o a r o' (Some (before i)) (Some (after i))) done) :: (if done || reset then [RStop i] else []) ++ steps (S i) obs actions l before after
  | _, _, _ => []
  end.
(** [m]: what is remembered now; [before], [obs], [actions]: what was remembered before the last action, what was seen and done then. *)
Fixpoint calls (m before : nat -> H) (obs : list Ob) (actions : list Ac) (tr : list seen) : list (rb_op rec) :=
  match tr with
  | [] => []
  | x :: tr =>
      match x with
      | Acted true _ obs _ actions => calls (remember x m) m obs actions tr
      | Observed true l _ => steps 0 obs actions l before m ++ calls (remember x m) before [] [] tr
      | _ => calls m before obs actions tr
      end
  end.
Definition expected_calls (tr : list seen) : list (rb_op rec) := calls (fun _ => zero) (fun _ => zero) [] [] tr.

(** What the network remembers after the given observations, seen with the given parameters. *)
Definition fed (l : list (Pm * Ob)) : H := fold_left (fun h po => snd (cell (fst po) (snd po) h)) l zero.
(** An episode whose k-th step carries what is remembered after its first k and after its first k + 1 observations. *)
Definition coherent (ep : list (trans rec)) : Prop :=
  exists ps : list Pm, length ps = length ep /\
  forall k x, nth_error ep k = Some x ->
    let seen_ j := firstn j (combine ps (map (fun x => r_state (payload x)) ep)) in
    r_before (payload x) = Some (fed (seen_ k)) /\ r_after (payload x) = Some (fed (seen_ (S k))).

(** None is stored in place of zeros before the first step of all. *)
Definition stored_as (x : trans rec) : trans rec :=
  let y := payload x in mkTrans (mkRec (r_state y) (r_action y) (r_reward y) (r_next y) (match r_before y with None => Some zero | h => h end) (r_after y)) (terminal x).
End Spec.
