(** Specification for C89: what the replay buffer must receive, read off the calls made on the actors. *)
From Verif Require Import Base M_Actor.
From Coq Require Import QArith.
Close Scope Q_scope.
Open Scope nat_scope.

Section Spec.
Context {Ob Ac RS : Type}.
Notation call := (@call Ob Ac RS).
Notation bufop := (@bufop Ob Ac RS).

(** The last training act of the actor not yet followed by an observation. *)
Definition pending : Type := option (Ob * Ac * option RS * RS).

(** The buffer calls owed for actor [i]: each training observation owes one transition made of the observation acted on, the
    action act returned, the reward, the new observation and the terminal flag, and the recurrent states before and after that
    act; and the end of the episode if done or reset.  [None]: observe was called without a preceding act. *)
Definition owes (recurrent : bool) (i : nat) (st : option (pending * list bufop)) (c : call) : option (pending * list bufop) :=
  match st with
  | None => None
  | Some (p, ops) =>
      match c with
      | CAct j true obs s s' u => if j =? i then Some (Some (obs, u, s, s'), ops) else st
      | CObserve j true obs r done reset =>
          if j =? i then
            match p with
            | Some (o, u, s, s') =>
                Some (None, ops ++ BAppend i (mkTr o u r obs done (if recurrent then Some (s, Some s') else None))
                                :: (if done || reset then [BStop i] else []))
            | None => None
            end
          else st
      | _ => st
      end
  end.
Definition owed (recurrent : bool) (i : nat) (cs : list call) : option (pending * list bufop) :=
  fold_left (owes recurrent i) cs (Some (None, [])).

(** The buffer calls made for environment [i]. *)
Definition env_of (o : bufop) : nat := match o with BAppend e _ | BStop e => e end.
Definition ops_for (i : nat) (ops : list bufop) : list bufop := filter (fun o => env_of o =? i) ops.
Definition is_append (o : bufop) : bool := match o with BAppend _ _ => true | _ => false end.
Definition appends (ops : list bufop) : nat := length (filter is_append ops).

(** The recurrent state handed to the network in each act of actor [i] in the given mode is the one its previous act in that
    mode produced, or None at the start and after an observation in that mode that ended an episode.  [cur]: the state due. *)
Fixpoint carries (i : nat) (mode : bool) (cur : option RS) (cs : list call) : Prop :=
  match cs with
  | [] => True
  | CAct j m _ s s' _ :: cs =>
      if (j =? i) && Bool.eqb m mode then s = cur /\ carries i mode (Some s') cs else carries i mode cur cs
  | CObserve j m _ _ done reset :: cs =>
      carries i mode (if (j =? i) && Bool.eqb m mode && (done || reset) then None else cur) cs
  | CAnswer _ _ _ :: cs => carries i mode cur cs
  end.
End Spec.
