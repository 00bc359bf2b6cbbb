(** Specification of saving and loading. *)
From Verif Require Import Base M_Saving.

Section Spec.
  Context {St : Type}.
  Implicit Types h : heap St.

  (** [v] is, or wraps, the module or optimizer [l] *)
  Definition leaf_of h (v l : nat) : Prop :=
    (exists c, nth_error h v = Some (Leaf c) /\ l = v) \/ (nth_error h v = Some (Wrap l) /\ exists c, nth_error h l = Some (Leaf c)).
  Definition content h (l : nat) (c : St) : Prop := nth_error h l = Some (Leaf c).

  (** following declared attributes a1.a2...an from [i] leads to the module [l] *)
  Inductive reaches h : nat -> list nat -> nat -> Prop :=
  | reach_here i saved get a v l : nth_error h i = Some (Mixin saved get) -> In a saved -> get a = ARef v -> leaf_of h v l -> reaches h i [a] l
  | reach_in i saved get a v p l : nth_error h i = Some (Mixin saved get) -> In a saved -> get a = ARef v -> reaches h v p l -> reaches h i (a :: p) l.

  (** nested agents, following declared attributes *)
  Definition child h (i v : nat) : Prop :=
    exists saved get a s' g', nth_error h i = Some (Mixin saved get) /\ In a saved /\ get a = ARef v /\ nth_error h v = Some (Mixin s' g').
  Inductive descendant h : nat -> nat -> Prop := desc_refl i : descendant h i i | desc_step i j k : child h i j -> descendant h j k -> descendant h i k.
  Definition has_cycle h (i : nat) : Prop := exists j k, descendant h i j /\ child h j k /\ descendant h k j.

  (** every declared attribute exists and every reference is valid *)
  Definition well_formed h : Prop := forall i saved get a, nth_error h i = Some (Mixin saved get) -> In a saved ->
    get a = ANone \/ exists v, get a = ARef v /\ ((exists s' g', nth_error h v = Some (Mixin s' g')) \/ exists l, leaf_of h v l).
  Definition is_agent h i : Prop := exists saved get, nth_error h i = Some (Mixin saved get).

  (** the declared attributes of [i] in [h1] and [j] in [h2] have the same names, and the same are None, modules or agents, at all depths *)
  Inductive same_shape (h1 h2 : heap St) : nat -> nat -> Prop :=
  | shape i j saved g1 g2 : nth_error h1 i = Some (Mixin saved g1) -> nth_error h2 j = Some (Mixin saved g2) ->
      (forall a, In a saved ->
         (g1 a = ANone /\ g2 a = ANone) \/
         (exists v w, g1 a = ARef v /\ g2 a = ARef w /\ ((exists l, leaf_of h1 v l) /\ (exists l, leaf_of h2 w l) \/ same_shape h1 h2 v w))) ->
      same_shape h1 h2 i j.
  (** the same objects with the same attributes; only contents of modules may differ *)
  Definition same_nodes h h' : Prop := length h = length h' /\ forall i, match nth_error h i, nth_error h' i with
    | Some (Leaf _), Some (Leaf _) => True | Some a, Some b => a = b | None, None => True | _, _ => False end.
  (** the contents of [h1] at the path [p] from [i] *)
  Definition at_path (h1 : heap St) i p c : Prop := exists l, reaches h1 i p l /\ content h1 l c.
End Spec.
