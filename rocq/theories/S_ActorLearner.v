(** Specification vocabulary for C48, C67 and C68: schedules of the poller and the learner. *)
From Verif Require Import Base M_Prioritized S_Prioritized M_ActorLearner.
Open Scope nat_scope.

(** The transitions the actors sent, in the order the poller read them. *)
Definition polled {A} (es : list (event A)) : list A := flat_map (fun e => match e with Poll x => [x] | _ => [] end) es.

(** How many of [stored] + [more] transitions a buffer of this capacity has dropped. *)
Definition dropped (cap : option nat) (stored more : nat) : nat := match cap with None => 0 | Some c => stored + more - c end.

(** The buffer never had to drop a transition. *)
Definition never_full {A} (cap : option nat) (es : list (event A)) : Prop := dropped cap 0 (length (polled es)) = 0.

(** Outcomes the generator and the loss can have: numbers in [0, 1), one per draw; one positive priority per sampled transition. *)
Definition schedule_ok {A} (n : nat) (es : list (event A)) : Prop :=
  Forall (fun e => match e with
                   | Learn o => n <= length (so_fracs o) /\ Forall (fun f => 0 <= f < 1)%Q (so_fracs o)
                   | Errors ps => length ps = n /\ Forall (Qlt 0) ps
                   | _ => True
                   end) es.

Definition failed {A} (st : al_state A) : Prop := match lphase st with LFailed _ => True | _ => False end.
