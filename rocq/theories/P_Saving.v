(** Proofs about saving and loading. *)
From Coq Require Import ZifyBool.
From Verif Require Import Base P_Base M_Saving S_Saving P_PrioritizedProps.

Lemma nth_list_set_eq' {X} (l : list X) i y : i < length l -> nth_error (list_set l i y) i = Some y.
Proof. revert i. induction l as [|x l IH]; intros [|i] H; cbn in *; try lia; [reflexivity|]. apply IH. lia. Qed.
Lemma nth_list_set_neq' {X} (l : list X) i j y : i <> j -> nth_error (list_set l i y) j = nth_error l j.
Proof. revert i j. induction l as [|x l IH]; intros [|i] [|j] H; cbn in *; try reflexivity; try congruence. apply IH. congruence. Qed.

Section P.
  Context {St : Type}.
  Implicit Types (h : heap St) (fs : files St).

  Lemma read_cons p c fs q : read ((p, c) :: fs) q = if path_eqb p q then Ok c else read fs q.
  Proof. unfold read. cbn [find fst]. destruct (path_eqb p q); reflexivity. Qed.
  Lemma path_eqb_spec p q : path_eqb p q = true <-> p = q.
  Proof. unfold path_eqb. destruct (list_eq_dec Nat.eq_dec p q); intuition congruence. Qed.

  (** paths that start with attribute [a] *)
  Definition reach1 h (get : nat -> attr) (a : nat) (p : list nat) (l : nat) : Prop :=
    exists v, get a = ARef v /\ ((p = [a] /\ leaf_of h v l) \/ exists p', p = a :: p' /\ reaches h v p' l).
  Lemma reaches_iff h i saved get p l : nth_error h i = Some (Mixin saved get) -> reaches h i p l <-> exists a, In a saved /\ reach1 h get a p l.
  Proof.
    intros E. split.
    - intros H. destruct H as [i saved' get' a v l E' Ha Hg Hl|i saved' get' a v p l E' Ha Hg Hr]; rewrite E in E'; injection E' as <- <-; exists a; (split; [exact Ha|]); exists v; (split; [exact Hg|]); [left|right]; eauto.
    - intros (a & Ha & v & Hg & [[-> Hl]|(p' & -> & Hr)]); [eapply reach_here|eapply reach_in]; eauto.
  Qed.
  Lemma reach1_head h get a p l : reach1 h get a p l -> exists p', p = a :: p'.
  Proof. intros (v & _ & [[-> _]|(p' & -> & _)]); eauto. Qed.
  Lemma leaf_not_mixin h v l s g : leaf_of h v l -> nth_error h v = Some (Mixin s g) -> False.
  Proof. intros [(c & E & _)|(E & _)] E'; rewrite E in E'; discriminate. Qed.
  Lemma reaches_mixin h i p l : reaches h i p l -> exists s g, nth_error h i = Some (Mixin s g).
  Proof. intros H. destruct H; eauto. Qed.
  Lemma leaf_det h v l l' : leaf_of h v l -> leaf_of h v l' -> l = l'.
  Proof. intros [(c & E & ->)|(E & _)] [(c' & E' & ->)|(E' & _)]; congruence. Qed.
  Lemma reaches_det h i p l : reaches h i p l -> forall l', reaches h i p l' -> l = l'.
  Proof.
    intros H. induction H as [i s g a v l E Ha Hg Hl|i s g a v p l E Ha Hg Hr IH]; intros l' H'; apply (reaches_iff _ _ _ _ _ _ E) in H'; destruct H' as (a' & _ & v' & Hg' & [[Ep Hl']|(p' & Ep & Hr')]); pose proof (f_equal (hd 0) Ep) as Ea; cbn in Ea; subst a'; pose proof (f_equal (@tl _) Ep) as Et; cbn in Et.
    - rewrite Hg in Hg'. injection Hg' as <-. eapply leaf_det; eassumption.
    - subst p'. inversion Hr'.
    - subst p. inversion Hr.
    - subst p'. rewrite Hg in Hg'. injection Hg' as <-. auto.
  Qed.

  (** * save *)
  Definition saved_ok h get (names : list nat) D fs fs' : Prop :=
    (forall a p l c, In a names -> reach1 h get a p l -> content h l c -> read fs' (D ++ p) = Ok c) /\
    (forall k, (forall a p l, In a names -> reach1 h get a p l -> k <> D ++ p) -> read fs' k = read fs k).
  Lemma leaf_content h v l : leaf_of h v l -> exists c, content h l c.
  Proof. intros [(c & E & ->)|(_ & c & E)]; exists c; exact E. Qed.

  Lemma save_attrs_ok h D anc get (rec : files St -> list nat -> nat -> result (files St)) self saved :
    well_formed h -> nth_error h self = Some (Mixin saved get) -> (forall x, In x anc -> descendant h x self) ->
    (forall v fs D, child h self v -> ~ In v anc -> (exists fs', rec fs D v = Ok fs' /\ Acc (fun v i => child h i v) v /\
         (forall p l c, reaches h v p l -> content h l c -> read fs' (D ++ p) = Ok c) /\ (forall k, (forall p l, reaches h v p l -> k <> D ++ p) -> read fs' k = read fs k)) \/
       (rec fs D v = Err AssertionError /\ has_cycle h v)) ->
    forall names fs, incl names saved ->
      (exists fs', save_attrs rec h D anc get names fs = Ok fs' /\ (forall a v, In a names -> get a = ARef v -> child h self v -> Acc (fun v i => child h i v) v) /\ saved_ok h get names D fs fs') \/
      (save_attrs rec h D anc get names fs = Err AssertionError /\ has_cycle h self).
  Proof.
    intros WF E Hanc Hrec names. induction names as [|a names IH]; intros fs Hin.
    { left. exists fs. split; [reflexivity|]. split; [intros a v []|]. split; [intros a p l c []|auto]. }
    cbn [save_attrs]. assert (Ha : In a saved) by (apply Hin; left; reflexivity). assert (Hin' : incl names saved) by (intros x Hx; apply Hin; right; exact Hx).
    (* combining the first attribute with the rest *)
    assert (G : forall fs1, (forall v, get a = ARef v -> child h self v -> Acc (fun v i => child h i v) v) -> saved_ok h get [a] D fs fs1 ->
       (exists fs', save_attrs rec h D anc get names fs1 = Ok fs' /\ (forall b v, In b (a :: names) -> get b = ARef v -> child h self v -> Acc (fun v i => child h i v) v) /\ saved_ok h get (a :: names) D fs fs') \/
       (save_attrs rec h D anc get names fs1 = Err AssertionError /\ has_cycle h self)).
    { intros fs1 HA [S1 S2]. destruct (IH fs1 Hin') as [(fs' & E' & HA' & S1' & S2')|R]; [left|right; exact R]. exists fs'. split; [exact E'|]. split; [intros b v [<-|Hb]; [apply HA|apply HA'; exact Hb]|]. split.
      - intros b p l c [<-|Hb] Hr Hc; [|eapply S1'; eassumption]. destruct (in_dec Nat.eq_dec a names) as [Y|N]; [eapply S1'; eassumption|]. rewrite S2'; [eapply S1; [left; reflexivity|eassumption|eassumption]|].
        intros b p' l' Hb Hr' Ek. apply app_inv_head in Ek. subst p'. destruct (reach1_head _ _ _ _ _ Hr) as (q & ->). destruct (reach1_head _ _ _ _ _ Hr') as (q' & Eq). congruence.
      - intros k Hk. rewrite S2'; [apply S2|]; intros b p l Hb Hr; apply (Hk b p l); try assumption; [destruct Hb as [<-|[]]; left; reflexivity|right; exact Hb]. }
    destruct (WF _ _ _ _ E Ha) as [N|(v & Hv & K)].
    - rewrite N. cbn [rbind]. apply G; [intros v Hv; congruence|]. split; [intros b p l c [<-|[]] (v & Hv & _) _; congruence|auto].
    - rewrite Hv. destruct K as [(s' & g' & Em)|(l & Hl)].
      + unfold deref. rewrite Em. cbn [rbind]. assert (Hc : child h self v) by (exists saved, get, a, s', g'; auto).
        destruct (existsb (Nat.eqb v) anc) eqn:X; cbn [negb passert rbind].
        * right. split; [reflexivity|]. apply existsb_exists in X. destruct X as (x & Hx & Ex). apply Nat.eqb_eq in Ex. subst x. exists self, v. split; [constructor|]. split; [exact Hc|]. apply Hanc. exact Hx.
        * destruct (Hrec v fs (D ++ [a]) Hc) as [(fs1 & E1 & HA & S1 & S2)|[E1 HC]].
          { intros Hx. assert (existsb (Nat.eqb v) anc = true) by (apply existsb_exists; exists v; split; [exact Hx|apply Nat.eqb_refl]). congruence. }
          -- rewrite E1. cbn [rbind]. apply G; [intros v' Hv' _; congruence|]. split.
             ++ intros b p l c [<-|[]] (v' & Hv' & Q) Hco. rewrite Hv in Hv'. injection Hv' as <-. destruct Q as [[-> Hl]|(p' & -> & Hr)]; [exfalso; eapply leaf_not_mixin; eassumption|].
                specialize (S1 _ _ _ Hr Hco). rewrite <- app_assoc in S1. exact S1.
             ++ intros k Hk. apply S2. intros p l Hr. rewrite <- app_assoc. apply (Hk a (a :: p) l); [left; reflexivity|]. exists v. split; [exact Hv|]. right. eauto.
          -- rewrite E1. right. split; [reflexivity|]. destruct HC as (j & k & D1 & C1 & D2). exists j, k. split; [eapply desc_step; eassumption|]. auto.
      + destruct (leaf_content _ _ _ Hl) as (c & Hc). unfold content in Hc.
        assert (EU : match nth_error h v with Some o => match o with Mixin _ _ => False | _ => True end | None => False end /\ unwrap h v = Ok l). { unfold unwrap, deref. destruct Hl as [(c' & Ev & ->)|(Ev & _)]; rewrite Ev; auto. }
        assert (EE : (ov <- deref h v ;; match ov with Mixin _ _ => _ <- passert (negb (existsb (Nat.eqb v) anc)) ;; rec fs (D ++ [a]) v | _ => m <- unwrap h v ;; c <- state_dict h m ;; Ok ((D ++ [a], c) :: fs) end) = Ok ((D ++ [a], c) :: fs)).
        { unfold deref at 1. destruct (nth_error h v) as [o|] eqn:Ev; [|destruct EU as [[] _]]. destruct EU as [Em EU]. cbn [rbind]. destruct o; [| |destruct Em]; rewrite EU; cbn [rbind]; unfold state_dict, deref; rewrite Hc; reflexivity. }
        rewrite EE. cbn [rbind]. apply (G ((D ++ [a], c) :: fs)).
        * intros v' Hv' (s1 & g1 & a1 & s2 & g2 & _ & _ & _ & Em'). exfalso. rewrite Hv in Hv'. injection Hv' as <-. eapply leaf_not_mixin; eassumption.
        * split.
          -- intros b p l' c' [<-|[]] (v' & Hv' & Q) Hco. rewrite Hv in Hv'. injection Hv' as <-. destruct Q as [[-> Hl']|(p' & -> & Hr)].
             ++ rewrite read_cons. assert (Y : path_eqb (D ++ [a]) (D ++ [a]) = true) by (apply path_eqb_spec; reflexivity). rewrite Y. pose proof (leaf_det _ _ _ _ Hl Hl') as <-. unfold content in Hco. congruence.
             ++ exfalso. destruct (reaches_mixin _ _ _ _ Hr) as (s1 & g1 & Em'). eapply leaf_not_mixin; eassumption.
          -- intros k Hk. rewrite read_cons. destruct (path_eqb (D ++ [a]) k) eqn:Y; [|reflexivity]. apply path_eqb_spec in Y. exfalso. apply (Hk a [a] l); [left; reflexivity| |congruence]. exists v. split; [exact Hv|]. left. auto.
  Qed.

  Lemma desc_snoc h i j k : descendant h i j -> child h j k -> descendant h i k.
  Proof. intros H C. induction H as [i|i j' k' C' H IH]; [eapply desc_step; [exact C|constructor]|]. eapply desc_step; [exact C'|auto]. Qed.
  Lemma save_ok h : well_formed h -> forall fuel anc fs D self, is_agent h self -> NoDup (anc ++ [self]) -> (forall x, In x anc -> x < length h /\ descendant h x self) -> length h < fuel + length anc ->
    (exists fs', save_ fuel h anc fs D self = Ok fs' /\ Acc (fun v i => child h i v) self /\
         (forall p l c, reaches h self p l -> content h l c -> read fs' (D ++ p) = Ok c) /\ (forall k, (forall p l, reaches h self p l -> k <> D ++ p) -> read fs' k = read fs k)) \/
       (save_ fuel h anc fs D self = Err AssertionError /\ has_cycle h self).
  Proof.
    intros WF fuel. induction fuel as [|fuel IH]; intros anc fs D self (saved & get & E) ND Hanc Hf.
    { exfalso. assert (L : length (anc ++ [self]) <= length (seq 0 (length h))). { apply NoDup_incl_length; [exact ND|]. intros x Hx. apply in_seq. apply in_app_iff in Hx. destruct Hx as [Hx|[<-|[]]]; [apply Hanc in Hx; lia|]. assert (self < length h) by (apply nth_error_Some; congruence). lia. }
      rewrite app_length, seq_length in L. cbn in L. lia. }
    cbn [save_]. unfold deref. rewrite E. cbn [rbind].
    assert (Hs : self < length h) by (apply nth_error_Some; congruence).
    assert (HancD : forall x, In x (anc ++ [self]) -> descendant h x self) by (intros x Hx; apply in_app_iff in Hx; destruct Hx as [Hx|[<-|[]]]; [apply Hanc; exact Hx|constructor]).
    destruct (save_attrs_ok h D (anc ++ [self]) get (save_ fuel h (anc ++ [self])) self saved WF E HancD) with (names := saved) (fs := fs) as [(fs' & Es & HA & S1 & S2)|R].
    - intros v fs1 D1 Hc Hn. destruct Hc as (s1 & g1 & a1 & s2 & g2 & E1 & Ha1 & Hg1 & Em). apply (IH (anc ++ [self]) fs1 D1 v).
      + exists s2, g2. exact Em.
      + apply NoDup_app_remove_l with (l := []) || idtac. rewrite <- app_assoc. apply (NoDup_Add (a := v) (l := anc ++ [self])). 
        { replace (anc ++ [self] ++ [v]) with ((anc ++ [self]) ++ v :: []) by (now rewrite <- app_assoc). pose proof (Add_app v (anc ++ [self]) []) as AA. rewrite app_nil_r in AA. exact AA. } split; assumption.
      + intros x Hx. split; [apply in_app_iff in Hx; destruct Hx as [Hx|[<-|[]]]; [apply Hanc; exact Hx|exact Hs]|]. eapply desc_snoc; [apply HancD; exact Hx|]. exists s1, g1, a1, s2, g2. auto.
      + rewrite app_length. cbn. lia.
    - intros x Hx; exact Hx.
    - left. exists fs'. split; [exact Es|]. split; [|split].
      + constructor. intros v Hc. destruct Hc as (s1 & g1 & a1 & s2 & g2 & E1 & Ha1 & Hg1 & Em). rewrite E in E1. injection E1 as <- <-. apply (HA a1 v Ha1 Hg1). exists saved, get, a1, s2, g2. auto.
      + intros p l c Hr Hc. apply (reaches_iff _ _ _ _ _ _ E) in Hr. destruct Hr as (a & Ha & Hr). eapply S1; eassumption.
      + intros k Hk. apply S2. intros a p l Ha Hr. apply (Hk p l). apply (reaches_iff _ _ _ _ _ _ E). eauto.
    - right. exact R.
  Qed.
  Lemma acc_no_cycle h i : Acc (fun v i => child h i v) i -> ~ has_cycle h i.
  Proof.
    assert (G : forall j k, child h j k -> descendant h k j -> ~ Acc (fun v i => child h i v) j).
    { intros j k C D A. revert k C D. induction A as [j _ IH]. intros k C D. destruct D as [j|k k' j C' D]; [apply (IH j C j C); constructor|]. apply (IH k C k' C'). eapply desc_snoc; eassumption. }
    assert (M : forall i j, descendant h i j -> Acc (fun v i => child h i v) i -> Acc (fun v i => child h i v) j).
    { intros i' j D. induction D as [|i' j k C D IH]; intros A; [exact A|]. apply IH. destruct A as [A]. apply A. exact C. }
    intros A (j & k & D1 & C & D2). eapply G; [exact C|exact D2|]. exact (M i j D1 A).
  Qed.

  (** * load *)
  Lemma same_refl h : same_nodes h h.
  Proof. split; [reflexivity|]. intros i. destruct (nth_error h i) as [[]|]; auto. Qed.
  Lemma same_trans h1 h2 h3 : same_nodes h1 h2 -> same_nodes h2 h3 -> same_nodes h1 h3.
  Proof.
    intros [L1 H1] [L2 H2]. split; [congruence|]. intros i. specialize (H1 i). specialize (H2 i). destruct (nth_error h1 i) as [[]|], (nth_error h2 i) as [[]|], (nth_error h3 i) as [[]|]; try contradiction; try discriminate; auto; congruence.
  Qed.
  Lemma same_mixin h h' i s g : same_nodes h h' -> nth_error h i = Some (Mixin s g) -> nth_error h' i = Some (Mixin s g).
  Proof. intros [_ H] E. specialize (H i). rewrite E in H. destruct (nth_error h' i) as [[]|]; try contradiction; try discriminate. congruence. Qed.
  Lemma same_leaf h h' v l : same_nodes h h' -> leaf_of h v l -> leaf_of h' v l.
  Proof.
    intros [_ H] [(c & E & ->)|(E & c & E')].
    - left. specialize (H v). rewrite E in H. destruct (nth_error h' v) as [[]|] eqn:X; try contradiction; try discriminate. eauto.
    - right. pose proof (H v) as H1. rewrite E in H1. pose proof (H l) as H2. rewrite E' in H2. destruct (nth_error h' v) as [[]|] eqn:X; try contradiction; try discriminate. destruct (nth_error h' l) as [[]|] eqn:Y; try contradiction; try discriminate. injection H1 as <-. eauto.
  Qed.
  Lemma same_sym h h' : same_nodes h h' -> same_nodes h' h.
  Proof. intros [L H]. split; [congruence|]. intros i. specialize (H i). destruct (nth_error h i) as [[]|], (nth_error h' i) as [[]|]; try contradiction; try discriminate; auto. Qed.
  Lemma same_reaches h h' i p l : same_nodes h h' -> reaches h i p l -> reaches h' i p l.
  Proof. intros HS H. induction H as [i s g a v l E Ha Hg Hl|i s g a v p l E Ha Hg Hr IH]; [eapply reach_here|eapply reach_in]; eauto; [eapply same_mixin|eapply same_leaf|eapply same_mixin]; eassumption. Qed.
  Lemma same_reach1 h h' get a p l : same_nodes h h' -> reach1 h get a p l -> reach1 h' get a p l.
  Proof. intros HS (v & Hv & Q). exists v. split; [exact Hv|]. destruct Q as [[-> Hl]|(p' & -> & Hr)]; [left; split; [reflexivity|eapply same_leaf; eassumption]|right; exists p'; split; [reflexivity|eapply same_reaches; eassumption]]. Qed.

  (** what loading through paths [R] with saved contents [C] does to the heap *)
  Definition loaded_ok (R : list nat -> nat -> Prop) (C : list nat -> St -> Prop) h h' : Prop :=
    same_nodes h h' /\ forall l, (forall p, ~ R p l) /\ nth_error h' l = nth_error h l \/ exists p c, R p l /\ C p c /\ content h' l c.

  Lemma load_attrs_ok fs (rec : heap St -> list nat -> nat -> result (heap St)) D self saved get (C : list nat -> St -> Prop) h0 :
    nth_error h0 self = Some (Mixin saved get) -> (forall p c, C p c -> read fs (D ++ p) = Ok c) ->
    (forall a, In a saved -> get a = ANone \/ exists v, get a = ARef v /\ ((exists l c, leaf_of h0 v l /\ C [a] c) \/ (v <> self /\ (exists s g, nth_error h0 v = Some (Mixin s g)) /\
        forall h, same_nodes h0 h -> exists h', rec h (D ++ [a]) v = Ok h' /\ loaded_ok (reaches h0 v) (fun p c => C (a :: p) c) h h'))) ->
    forall names h, same_nodes h0 h -> incl names saved ->
      exists h', load_attrs rec fs D [self] get names h = Ok h' /\ loaded_ok (fun p l => exists a, In a names /\ reach1 h0 get a p l) C h h'.
  Proof.
    intros E HC Hat names. induction names as [|a names IH]; intros h HS Hin.
    { exists h. split; [reflexivity|]. split; [apply same_refl|]. intros l. left. split; [|reflexivity]. intros p (a & [] & _). }
    assert (Ha : In a saved) by (apply Hin; left; reflexivity). assert (Hin' : incl names saved) by (intros x Hx; apply Hin; right; exact Hx). cbn [load_attrs].
    assert (G : forall h1, loaded_ok (fun p l => reach1 h0 get a p l) C h h1 -> exists h', load_attrs rec fs D [self] get names h1 = Ok h' /\ loaded_ok (fun p l => exists b, In b (a :: names) /\ reach1 h0 get b p l) C h h').
    { intros h1 [S1 K1]. destruct (IH h1 (same_trans _ _ _ HS S1) Hin') as (h' & E' & S2 & K2). exists h'. split; [exact E'|]. split; [eapply same_trans; eassumption|]. intros l.
      destruct (K2 l) as [[N2 Eq2]|(p & c & (b & Hb & Hr) & Hc & Hl)]; [|right; exists p, c; split; [exists b; split; [right; exact Hb|exact Hr]|auto]].
      destruct (K1 l) as [[N1 Eq1]|(p & c & Hr & Hc & Hl)].
      - left. split; [|congruence]. intros p (b & [<-|Hb] & Hr); [exact (N1 p Hr)|apply (N2 p); eauto].
      - right. exists p, c. split; [exists a; split; [left; reflexivity|exact Hr]|]. split; [exact Hc|]. unfold content in *. congruence. }
    destruct (Hat a Ha) as [N|(v & Hv & [(l & c & Hl & Hc)|(Hne & (s' & g' & Em) & Hrec)])].
    - rewrite N. cbn [rbind]. apply G. split; [apply same_refl|]. intros l. left. split; [|reflexivity]. intros p (v & Hv & _). congruence.
    - rewrite Hv. pose proof (same_leaf _ _ _ _ HS Hl) as Hl'. destruct (leaf_content _ _ _ Hl') as (c0 & Hc0). unfold content in Hc0.
      assert (EU : match nth_error h v with Some o => match o with Mixin _ _ => False | _ => True end | None => False end /\ unwrap h v = Ok l). { unfold unwrap, deref. destruct Hl' as [(c' & Ev & ->)|(Ev & _)]; rewrite Ev; auto. }
      unfold deref at 1. destruct (nth_error h v) as [o|] eqn:Ev; [|destruct EU as [[] _]]. destruct EU as [Em EU]. cbn [rbind].
      assert (EE : match o with Mixin _ _ => _ <- passert (negb (existsb (Nat.eqb v) [self])) ;; rec h (D ++ [a]) v | _ => m <- unwrap h v ;; c <- read fs (D ++ [a]) ;; load_state_dict h m c end = Ok (list_set h l (Leaf c))).
      { destruct o; [| |destruct Em]; rewrite EU; cbn [rbind]; rewrite (HC _ _ Hc); cbn [rbind]; unfold load_state_dict, deref; rewrite Hc0; reflexivity. }
      rewrite EE. cbn [rbind]. apply G. assert (Ll : l < length h) by (apply nth_error_Some; congruence). split.
      + split; [symmetry; apply list_set_length|]. intros i. destruct (Nat.eq_dec i l) as [->|Ni]; [rewrite Hc0, (nth_list_set_eq' _ _ _ Ll); exact I|rewrite nth_list_set_neq' by congruence; destruct (nth_error h i) as [[]|]; auto].
      + intros l'. destruct (Nat.eq_dec l' l) as [->|Nl].
        * right. exists [a], c. split; [exists v; split; [exact Hv|]; left; auto|]. split; [exact Hc|]. unfold content. apply nth_list_set_eq'. exact Ll.
        * left. split; [|apply nth_list_set_neq'; congruence]. intros p (v' & Hv' & Q). rewrite Hv in Hv'. injection Hv' as <-. destruct Q as [[_ Hl2]|(p' & _ & Hr)]; [apply Nl; eapply leaf_det; eassumption|].
          destruct (reaches_mixin _ _ _ _ Hr) as (s1 & g1 & Em'). eapply (leaf_not_mixin h0); eassumption.
    - rewrite Hv. unfold deref. rewrite (same_mixin _ _ _ _ _ HS Em). cbn [rbind existsb]. destruct (Nat.eqb_spec v self); [congruence|]. cbn [orb negb passert rbind].
      destruct (Hrec h HS) as (h1 & E1 & S1 & K1). rewrite E1. cbn [rbind]. apply G. split; [exact S1|]. intros l. destruct (K1 l) as [[N1 Eq1]|(p & c & Hr & Hc & Hl)].
      + left. split; [|exact Eq1]. intros p (v' & Hv' & Q). rewrite Hv in Hv'. injection Hv' as <-. destruct Q as [[_ Hl2]|(p' & _ & Hr)]; [eapply leaf_not_mixin; eassumption|exact (N1 p' Hr)].
      + right. exists (a :: p), c. split; [exists v; split; [exact Hv|]; right; eauto|]. auto.
  Qed.

  (** * shapes *)
  Lemma shape_ind' (h1 h2 : heap St) (P : nat -> nat -> Prop) :
    (forall i j saved g1 g2, nth_error h1 i = Some (Mixin saved g1) -> nth_error h2 j = Some (Mixin saved g2) ->
      (forall a, In a saved -> (g1 a = ANone /\ g2 a = ANone) \/
         (exists v w, g1 a = ARef v /\ g2 a = ARef w /\ ((exists l, leaf_of h1 v l) /\ (exists l, leaf_of h2 w l) \/ (same_shape h1 h2 v w /\ P v w)))) -> P i j) ->
    forall i j, same_shape h1 h2 i j -> P i j.
  Proof.
    intros F. fix rec 3. intros i j H. destruct H as [i j saved g1 g2 E1 E2 H]. apply (F i j saved g1 g2 E1 E2). intros a Ha. destruct (H a Ha) as [N|(v & w & G1 & G2 & [L|S])]; [left; exact N| |]; right; exists v, w; (split; [exact G1|]); (split; [exact G2|]); [left; exact L|right; split; [exact S|apply rec; exact S]].
  Qed.
  Lemma shape_acc (h1 h2 : heap St) i j : same_shape h1 h2 i j -> Acc (fun v i => child h1 i v) i /\ Acc (fun v i => child h2 i v) j.
  Proof.
    revert i j. refine (shape_ind' h1 h2 _ _). intros i j saved g1 g2 E1 E2 H. split; constructor; intros v (s & g & a & s' & g' & E & Ha & Hg & Em).
    - rewrite E1 in E. injection E as <- <-. destruct (H a Ha) as [[N _]|(v' & w & G1 & G2 & [[(l & L) _]|[_ [A _]]])]; [congruence| |]; rewrite Hg in G1; injection G1 as <-; [exfalso; eapply leaf_not_mixin; eassumption|exact A].
    - rewrite E2 in E. injection E as <- <-. destruct (H a Ha) as [[_ N]|(v' & w & G1 & G2 & [[_ (l & L)]|[_ [_ A]]])]; [congruence| |]; rewrite Hg in G2; injection G2 as <-; [exfalso; eapply leaf_not_mixin; eassumption|exact A].
  Qed.
  Lemma shape_agent (h1 h2 : heap St) i j : same_shape h1 h2 i j -> is_agent h1 i /\ is_agent h2 j.
  Proof. intros H. destruct H as [i j saved g1 g2 E1 E2 _]. split; eexists; eexists; eassumption. Qed.

  Lemma load_ok (h1 h2 : heap St) fs : forall fuel anc h D i j, same_shape h1 h2 i j -> same_nodes h2 h -> NoDup (anc ++ [j]) ->
    (forall x, In x anc -> x < length h2 /\ descendant h2 x j) -> length h2 < fuel + length anc -> (forall p c, at_path h1 i p c -> read fs (D ++ p) = Ok c) ->
    exists h', load_ fuel fs h D j = Ok h' /\ loaded_ok (reaches h2 j) (at_path h1 i) h h'.
  Proof.
    intros fuel. induction fuel as [|fuel IH]; intros anc h D i j S HS ND Hanc Hf HC.
    { exfalso. destruct (shape_agent _ _ _ _ S) as [_ (s & g & E)]. assert (L : length (anc ++ [j]) <= length (seq 0 (length h2))). { apply NoDup_incl_length; [exact ND|]. intros x Hx. apply in_seq. apply in_app_iff in Hx. destruct Hx as [Hx|[<-|[]]]; [apply Hanc in Hx; lia|]. assert (j < length h2) by (apply nth_error_Some; congruence). lia. }
      rewrite app_length, seq_length in L. cbn in L. lia. }
    pose proof (shape_acc _ _ _ _ S) as [_ AC]. destruct S as [i j saved g1 g2 E1 E2 H]. cbn [load_]. unfold deref. rewrite (same_mixin _ _ _ _ _ HS E2). cbn [rbind].
    assert (Hs : j < length h2) by (apply nth_error_Some; congruence).
    assert (HancD : forall x, In x (anc ++ [j]) -> descendant h2 x j) by (intros x Hx; apply in_app_iff in Hx; destruct Hx as [Hx|[<-|[]]]; [apply Hanc; exact Hx|constructor]).
    destruct (load_attrs_ok fs (load_ fuel fs) D j saved g2 (at_path h1 i) h2 E2 HC) with (names := saved) (h := h) as (h' & E' & S' & K').
    - intros a Ha. destruct (H a Ha) as [[_ N]|(v & w & G1 & G2 & K)]; [left; exact N|]. right. exists w. split; [exact G2|]. destruct K as [[(l1 & L1) (l2 & L2)]|SS].
      + left. destruct (leaf_content _ _ _ L1) as (c & Hc). exists l2, c. split; [exact L2|]. exists l1. split; [eapply reach_here; eassumption|exact Hc].
      + right. pose proof (shape_agent _ _ _ _ SS) as [_ (s' & g' & Em)]. assert (Hch : child h2 j w) by (exists saved, g2, a, s', g'; auto).
        assert (Hn : ~ In w (anc ++ [j])). { intros Hi. apply (acc_no_cycle _ _ AC). exists j, w. split; [constructor|]. split; [exact Hch|apply HancD; exact Hi]. }
        split; [intros ->; apply Hn; apply in_app_iff; right; left; reflexivity|]. split; [eauto|]. intros h0 HS0.
        destruct (IH (anc ++ [j]) h0 (D ++ [a]) v w SS HS0) as (h' & E' & S' & K').
        * apply (NoDup_Add (a := w) (l := anc ++ [j])). { pose proof (Add_app w (anc ++ [j]) []) as AA. rewrite app_nil_r in AA. exact AA. } split; assumption.
        * intros x Hx. split; [apply in_app_iff in Hx; destruct Hx as [Hx|[<-|[]]]; [apply Hanc; exact Hx|exact Hs]|]. eapply desc_snoc; [apply HancD; exact Hx|exact Hch].
        * rewrite app_length. cbn. lia.
        * intros p c (l & Hr & Hc). rewrite <- app_assoc. apply HC. exists l. split; [eapply reach_in; eassumption|exact Hc].
        * exists h'. split; [exact E'|]. split; [exact S'|]. intros l. destruct (K' l) as [N|(p & c & Hr & (l1 & Hr1 & Hc1) & Hl)]; [left; exact N|]. right. exists p, c. split; [exact Hr|]. split; [|exact Hl].
          exists l1. split; [eapply reach_in; eassumption|exact Hc1].
    - exact HS.
    - intros x Hx; exact Hx.
    - exists h'. split; [exact E'|]. split; [exact S'|]. intros l. destruct (K' l) as [[N Eq]|(p & c & Hr & Hc & Hl)].
      + left. split; [|exact Eq]. intros p Hr. apply (N p). apply (reaches_iff _ _ _ _ _ _ E2). exact Hr.
      + right. exists p, c. split; [apply (reaches_iff _ _ _ _ _ _ E2); exact Hr|auto].
  Qed.
  Lemma shape_paths (h1 h2 : heap St) i j : same_shape h1 h2 i j -> forall p l, reaches h2 j p l -> exists c, at_path h1 i p c.
  Proof.
    revert i j. refine (shape_ind' h1 h2 _ _). intros i j saved g1 g2 E1 E2 H. intros p l Hr. apply (reaches_iff _ _ _ _ _ _ E2) in Hr. destruct Hr as (a & Ha & w & Hw & Q).
    destruct (H a Ha) as [[_ N]|(v & w' & G1 & G2 & K)]; [congruence|]. rewrite Hw in G2. injection G2 as <-. destruct Q as [[-> Hl]|(p' & -> & Hr)]; destruct K as [[(l1 & L1) (l2 & L2)]|[SS IH]].
    - destruct (leaf_content _ _ _ L1) as (c & Hc). exists c, l1. split; [eapply reach_here; eassumption|exact Hc].
    - exfalso. destruct (shape_agent _ _ _ _ SS) as [_ (s & g & Em)]. eapply leaf_not_mixin; eassumption.
    - exfalso. destruct (reaches_mixin _ _ _ _ Hr) as (s & g & Em). eapply leaf_not_mixin; eassumption.
    - destruct (IH _ _ Hr) as (c & l1 & Hr1 & Hc). exists c, l1. split; [eapply reach_in; eassumption|exact Hc].
  Qed.
End P.
