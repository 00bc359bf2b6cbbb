(** C41: saving and loading agents. *)
From Verif Require Import Base P_Base M_Saving S_Saving P_Saving.

(** Saving an agent succeeds exactly when its nesting has no cycle (a cycle is rejected by an assertion); it then writes the state of every
    declared module, at all depths, under its path of attribute names, and no other file. *)
Theorem C41_save {St} (h : heap St) fs D self : well_formed h -> is_agent h self ->
  (has_cycle h self -> save h fs D self = Err AssertionError) /\
  (~ has_cycle h self -> exists fs', save h fs D self = Ok fs' /\
     (forall p c, at_path h self p c -> read fs' (D ++ p) = Ok c) /\
     (forall k, (forall p l, reaches h self p l -> k <> D ++ p) -> read fs' k = read fs k)).
Proof.
  intros WF IA. destruct (save_ok h WF (S (length h)) [] fs D self IA) as [(fs' & E & A & R & U)|[E C]].
  - cbn. constructor; [intros []|constructor].
  - intros x [].
  - cbn. lia.
  - split; [intros C; destruct (acc_no_cycle _ _ A C)|]. intros _. exists fs'. split; [exact E|]. split; [|exact U]. intros p c (l & Hr & Hc). eapply R; eassumption.
  - split; [intros _; exact E|]. intros N. destruct (N C).
Qed.

(** Saving one agent and loading into another of the same structure (its modules possibly different in every way) gives each declared module of
    the second, at all depths, the state the corresponding module of the first had, provided that attributes of the second which share a module
    correspond to attributes of the first with equal states (as when both were constructed alike).  No other object changes. *)
Theorem C41_roundtrip {St} (h1 h2 : heap St) fs D a b : well_formed h1 -> same_shape h1 h2 a b ->
  (forall p q l c c', reaches h2 b p l -> reaches h2 b q l -> at_path h1 a p c -> at_path h1 a q c' -> c = c') ->
  exists fs' h', save h1 fs D a = Ok fs' /\ load h2 fs' D b = Ok h' /\ same_nodes h2 h' /\
    (forall p c, at_path h1 a p c <-> at_path h' b p c) /\
    (forall l, (forall p, ~ reaches h2 b p l) -> nth_error h' l = nth_error h2 l).
Proof.
  intros WF SH CO. destruct (shape_agent _ _ _ _ SH) as [IA _]. destruct (shape_acc _ _ _ _ SH) as [A1 _].
  destruct (C41_save h1 fs D a WF IA) as [_ SV]. destruct (SV (acc_no_cycle _ _ A1)) as (fs' & Es & R & _).
  destruct (load_ok h1 h2 fs' (S (length h2)) [] h2 D a b SH (same_refl h2)) as (h' & El & SN & K).
  - cbn. constructor; [intros []|constructor].
  - intros x [].
  - cbn. lia.
  - exact R.
  - exists fs', h'. split; [exact Es|]. split; [exact El|]. split; [exact SN|].
    assert (G : forall p l, reaches h2 b p l -> exists c, at_path h1 a p c /\ content h' l c).
    { intros p l Hr. destruct (K l) as [[N _]|(q & c & Hq & Hc & Hl)]; [destruct (N p Hr)|]. destruct (shape_paths _ _ _ _ SH _ _ Hr) as (c' & Hc'). rewrite (CO _ _ _ _ _ Hr Hq Hc' Hc) in Hc'. eauto. }
    split; [intros p c; split|].
    + intros (l & Hr & Hc). assert (exists l2, reaches h2 b p l2) as (l2 & Hr2).
      { clear - SH Hr. revert a b SH p l Hr. refine (shape_ind' h1 h2 _ _). intros i j saved g1 g2 E1 E2 H p l Hr. apply (reaches_iff _ _ _ _ _ _ E1) in Hr. destruct Hr as (x & Hx & v & Hv & Q).
        destruct (H x Hx) as [[N _]|(v' & w & G1 & G2 & Kk)]; [congruence|]. rewrite Hv in G1. injection G1 as <-. destruct Q as [[-> Hl]|(p' & -> & Hr)]; destruct Kk as [[(l1 & L1) (l2 & L2)]|[SS IH]].
        - exists l2. eapply reach_here; eassumption.
        - exfalso. destruct (shape_agent _ _ _ _ SS) as [(s & g & Em) _]. eapply (leaf_not_mixin h1); eassumption.
        - exfalso. destruct (reaches_mixin _ _ _ _ Hr) as (s & g & Em). eapply (leaf_not_mixin h1); eassumption.
        - destruct (IH _ _ Hr) as (l2 & Hr2). exists l2. eapply reach_in; eassumption. }
      destruct (G p l2 Hr2) as (c2 & (l1 & Hr1 & Hc1) & Hc2). rewrite (reaches_det _ _ _ _ Hr _ Hr1) in Hc. unfold content in Hc, Hc1. assert (c2 = c) by congruence. subst c2. exists l2. split; [eapply same_reaches; eassumption|exact Hc2].
    + intros (l & Hr & Hc). pose proof (same_reaches _ _ _ _ _ (same_sym _ _ SN) Hr) as Hr2. destruct (G p l Hr2) as (c2 & Ha & Hc2). unfold content in Hc, Hc2. assert (c2 = c) by congruence. subst c2. exact Ha.
    + intros l N. destruct (K l) as [[_ E]|(p & c & Hr & _)]; [exact E|destruct (N p Hr)].
Qed.

(** An agent 0 with a module 1, a data-parallel wrapper 2 of module 3, an attribute that is None, and a nested agent 4 holding module 5 and
    sharing module 1; object 6 is not declared. *)
Definition ex_agent (x1 x3 x5 x6 : nat) : heap nat :=
  [Mixin [10; 11; 12; 13] (fun a => if a =? 10 then ARef 1 else if a =? 11 then ARef 2 else if a =? 12 then ANone else if a =? 13 then ARef 4 else AMissing);
   Leaf x1; Wrap 3; Leaf x3; Mixin [20; 21] (fun a => if a =? 20 then ARef 5 else if a =? 21 then ARef 1 else AMissing); Leaf x5; Leaf x6].
Example C41_ex : exists fs', save (ex_agent 1 3 5 6) [] [7] 0 = Ok fs' /\ exists h', load (ex_agent 100 300 500 600) fs' [7] 0 = Ok h' /\
  map (fun i => nth_error h' i) [1; 3; 5; 6] = [Some (Leaf 1); Some (Leaf 3); Some (Leaf 5); Some (Leaf 600)].
Proof. eexists. split; [vm_compute; reflexivity|]. eexists. split; [vm_compute; reflexivity|]. vm_compute. reflexivity. Qed.
Example C41_ex_shape : same_shape (ex_agent 1 3 5 6) (ex_agent 100 300 500 600) 0 0.
Proof.
  eapply shape; [reflexivity|reflexivity|]. intros a Ha. cbn in Ha. destruct Ha as [<-|[<-|[<-|[<-|[]]]]]; cbn.
  - right. exists 1, 1. repeat split. left. split; exists 1; left; eexists; split; reflexivity.
  - right. exists 2, 2. repeat split. left. split; exists 3; right; (split; [reflexivity|eexists; reflexivity]).
  - left. auto.
  - right. exists 4, 4. repeat split. right. eapply shape; [reflexivity|reflexivity|]. intros a Ha. cbn in Ha. destruct Ha as [<-|[<-|[]]]; cbn; right.
    + exists 5, 5. repeat split. left. split; exists 5; left; eexists; split; reflexivity.
    + exists 1, 1. repeat split. left. split; exists 1; left; eexists; split; reflexivity.
Qed.
(** two agents holding each other *)
Definition ex_cycle : heap nat := [Mixin [1] (fun _ => ARef 1); Mixin [2] (fun _ => ARef 0)].
Example C41_ex_cycle : has_cycle ex_cycle 0 /\ save ex_cycle [] [] 0 = Err AssertionError.
Proof.
  assert (C0 : child ex_cycle 0 1) by (exists [1], (fun _ => ARef 1), 1, [2], (fun _ => ARef 0); repeat split; left; reflexivity).
  assert (C1 : child ex_cycle 1 0) by (exists [2], (fun _ => ARef 0), 2, [1], (fun _ => ARef 1); repeat split; left; reflexivity).
  split; [|vm_compute; reflexivity]. exists 0, 1. split; [constructor|]. split; [exact C0|]. eapply desc_step; [exact C1|constructor].
Qed.

Print Assumptions C41_save.
Print Assumptions C41_roundtrip.
