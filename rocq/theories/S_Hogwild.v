(** Specification for optimizer steps without locks. *)
From Coq Require Import Reals.
From Verif Require Import Base M_RMSprop M_Hogwild.
Open Scope R_scope.

(** [l] is got from [l'] by leaving out entries. *)
Inductive subseq {A : Type} : list A -> list A -> Prop :=
| sub_nil : subseq [] []
| sub_skip : forall x l l', subseq l l' -> subseq l (x :: l')
| sub_take : forall x l l', subseq l l' -> subseq (x :: l) (x :: l').

Fixpoint sumR (l : list R) : R := match l with [] => 0 | x :: t => x + sumR t end.

(** All gradients the schedule has are within [-G, G]. *)
Definition gradients_within (G : R) (es : list event) : Prop :=
  forall i g, In (Begin i g) es -> Rabs g <= G.

(** The number of calls of step in a schedule. *)
Fixpoint begins (es : list event) : nat :=
  match es with [] => 0%nat | Begin _ _ :: t => S (begins t) | Access _ :: t => begins t end.

(** Whole steps, one after the other: worker i's step with gradient g, all its (at most 18) accesses before anything
    else happens. *)
Fixpoint one_by_one (steps : list (nat * R)) : list event :=
  match steps with
  | [] => []
  | (i, g) :: t => Begin i g :: repeat (Access i) 18 ++ one_by_one t
  end.

(** The numbers of the entry after the sequential optimizer. *)
Definition entry_is (m : mem) (p : param) : Prop :=
  m_p m = Some (p_data p)
  /\ exists st, p_state p = Some st /\ m_sq m = Some (square_avg st)
     /\ (forall a, grad_avg st = Some a -> m_ga m = Some a)
     /\ (forall b, momentum_buffer st = Some b -> m_buf m = Some b).
