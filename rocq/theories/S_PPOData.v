(** Specification for C93 and C94. *)
From Coq Require Import QArith.
From Verif Require Import Base M_PPOData.
Close Scope Q_scope.

Section Spec.
Context {Ob Act F Dist HS : Type} (step : F -> HS -> (Dist * Q) * HS).
(** The state of a recurrent model after it has read [xs], and its output on element [t] of [xs]. *)
Definition hidden_after (h : HS) (xs : list F) : HS := fold_left (fun h x => snd (step x h)) xs h.
Definition output_at (h : HS) (xs : list F) (t : nat) : option (Dist * Q) :=
  match nth_error xs t with Some x => Some (fst (step x (hidden_after h (firstn t xs)))) | None => None end.
(** The transitions an episode (a list of references) refers to. *)
Definition contents (heap : list (ptr Ob Act HS)) (refs : list nat) (xs : list (ptr Ob Act HS)) : Prop :=
  Forall2 (fun a x => nth_error heap a = Some x) refs xs.
End Spec.
