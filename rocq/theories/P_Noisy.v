(** Lemmas about the conversion of linear layers to noisy ones. *)
From Verif Require Import Base M_Modules S_Modules P_Modules.

Definition occs (d : nat) (h : heap) (l : list (nat * nat)) : list nat :=
  flat_map (fun p => occurrences d h (snd p)) l.
Definition views (d : nat) (h : heap) (l : list (nat * nat)) : option (list (nat * tree)) :=
  sequence (map (fun p => option_map (pair (fst p)) (view d h (snd p))) l).
Definition mk (p : nat * tree) : nat * tree := (fst p, made_noisy (snd p)).

Lemma view_S : forall d h x n, nth_error h x = Some n ->
  view (S d) h x = option_map (T (n_kind n)) (views d h (n_children n)).
Proof. intros d h x n H. cbn [view]. now rewrite H. Qed.

Lemma occurrences_S : forall d h x n, nth_error h x = Some n ->
  occurrences (S d) h x = x :: occs d h (n_children n).
Proof. intros d h x n H. cbn [occurrences]. now rewrite H. Qed.

Lemma views_app : forall d h a b ta tb, views d h a = Some ta -> views d h b = Some tb ->
  views d h (a ++ b) = Some (ta ++ tb).
Proof.
  intros d h a. induction a as [|[nm c] a IH]; intros b ta tb Ha Hb; unfold views in *; cbn [map sequence app] in *.
  - injection Ha as <-. exact Hb.
  - cbn [fst snd] in *. destruct (view d h c) as [t|]; cbn [option_map] in *; [|discriminate].
    destruct (sequence (map _ a)) as [r|] eqn:E; [|discriminate]. injection Ha as <-.
    rewrite (IH b r tb eq_refl Hb). reflexivity.
Qed.

Lemma occs_app : forall d h a b, occs d h (a ++ b) = occs d h a ++ occs d h b.
Proof. intros. unfold occs. apply flat_map_app. Qed.

(** Heaps that agree on the modules of a network show the same network. *)
Lemma agree : forall d h h' x,
  (forall y, In y (occurrences d h x) -> nth_error h' y = nth_error h y) ->
  occurrences d h' x = occurrences d h x /\ view d h' x = view d h x
  /\ (depth_le h d x -> depth_le h' d x).
Proof.
  induction d as [|d IH]; intros h h' x HA.
  - split; [reflexivity|]. split; [reflexivity|]. intros H. exact H.
  - assert (Hx : nth_error h' x = nth_error h x) by (apply HA; cbn [occurrences]; now left).
    destruct (nth_error h x) as [n|] eqn:E.
    + assert (HA' : forall nm c, In (nm, c) (n_children n) ->
          forall y, In y (occurrences d h c) -> nth_error h' y = nth_error h y).
      { intros nm c Hi y Hy. apply HA. rewrite (occurrences_S _ _ _ _ E). right.
        unfold occs. apply in_flat_map. exists (nm, c). split; assumption. }
      split; [|split].
      * rewrite (occurrences_S _ _ _ _ E), (occurrences_S _ _ _ _ Hx). f_equal. unfold occs.
        rewrite !flat_map_concat_map. f_equal. apply map_ext_in. intros [nm c] Hi. cbn [snd].
        apply (IH h h' c). eapply HA'. exact Hi.
      * rewrite (view_S _ _ _ _ E), (view_S _ _ _ _ Hx). f_equal. unfold views. f_equal.
        apply map_ext_in. intros [nm c] Hi. cbn [fst snd]. f_equal. apply (IH h h' c). eapply HA'. exact Hi.
      * cbn [depth_le]. intros [n' [Hn' Hc]]. rewrite E in Hn'. injection Hn' as <-.
        exists n. split; [exact Hx|]. intros nm c Hi. apply (IH h h' c); [eapply HA'; exact Hi|eauto].
    + split; [|split].
      * cbn [occurrences]. now rewrite Hx, E.
      * cbn [view]. now rewrite Hx, E.
      * cbn [depth_le]. intros [n' [Hn' _]]. congruence.
Qed.

Lemma agree_list : forall d h h' l,
  (forall y, In y (occs d h l) -> nth_error h' y = nth_error h y) ->
  occs d h' l = occs d h l /\ views d h' l = views d h l.
Proof.
  intros d h h' l HA.
  assert (HA' : forall p, In p l -> forall y, In y (occurrences d h (snd p)) -> nth_error h' y = nth_error h y).
  { intros p Hp y Hy. apply HA. unfold occs. apply in_flat_map. exists p. split; assumption. }
  split.
  - unfold occs. rewrite !flat_map_concat_map. f_equal. apply map_ext_in. intros p Hp.
    apply (agree d h h' (snd p)). now apply HA'.
  - unfold views. f_equal. apply map_ext_in. intros p Hp. f_equal. apply (agree d h h' (snd p)). now apply HA'.
Qed.

Lemma depth_view : forall d h x, depth_le h d x -> exists t, view d h x = Some t.
Proof.
  induction d as [|d IH]; intros h x H; [destruct H|].
  cbn [depth_le] in H. destruct H as [n [Hn Hc]]. rewrite (view_S _ _ _ _ Hn).
  assert (G : exists ts, views d h (n_children n) = Some ts).
  { revert Hc. generalize (n_children n). induction l as [|[nm c] l IHl]; intros Hc.
    - exists []. reflexivity.
    - destruct (IH h c) as [t Ht]; [eapply Hc; now left|].
      destruct IHl as [ts Hts]; [intros nm' c' H'; eapply Hc; right; exact H'|].
      exists ((nm, t) :: ts). unfold views in *. cbn [map sequence fst snd]. rewrite Ht. cbn [option_map].
      now rewrite Hts. }
  destruct G as [ts Hts]. rewrite Hts. eexists. reflexivity.
Qed.

Lemma depth_occurs_lt : forall d h x y, depth_le h d x -> In y (occurrences d h x) -> y < length h.
Proof.
  induction d as [|d IH]; intros h x y H Hi; [destruct H|].
  cbn [depth_le] in H. destruct H as [n [Hn Hc]]. rewrite (occurrences_S _ _ _ _ Hn) in Hi.
  destruct Hi as [<-|Hi].
  - apply nth_error_Some. congruence.
  - unfold occs in Hi. apply in_flat_map in Hi. destruct Hi as [[nm c] [Hl Hy]]. eapply IH; eauto.
Qed.

Lemma depth_self : forall d h x, depth_le h d x -> In x (occurrences d h x).
Proof. intros [|d] h x H; [destruct H|]. cbn [occurrences]. now left. Qed.

Lemma named_children_id : forall l seen, NoDup (map snd l) -> (forall c, In c seen -> ~ In c (map snd l)) ->
  named_children seen l = l.
Proof.
  induction l as [|[nm c] l IH]; intros seen HN HD; [reflexivity|].
  cbn [map snd] in HN, HD. inversion HN as [|? ? Hc HN']; subst. cbn [named_children].
  destruct (existsb (Nat.eqb c) seen) eqn:E.
  - apply existsb_exists in E. destruct E as [z [Hz Ez]]. apply Nat.eqb_eq in Ez. subst z.
    exfalso. apply (HD c Hz). now left.
  - f_equal. apply IH; [exact HN'|]. intros z [<-|Hz] Hi; [contradiction|].
    apply (HD z Hz). now right.
Qed.

Lemma NoDup_app_l : forall A (a b : list A), NoDup (a ++ b) -> NoDup a.
Proof.
  induction a as [|z a IH]; intros b H; [constructor|]. cbn in H. inversion H as [|? ? H1 H2]; subst.
  constructor; [|eauto]. intros Hi. apply H1. apply in_or_app. now left.
Qed.
Lemma NoDup_app_r : forall A (a b : list A), NoDup (a ++ b) -> NoDup b.
Proof. induction a as [|z a IH]; intros b H; [exact H|]. inversion H; subst. eauto. Qed.
Lemma NoDup_app_disj : forall A (a b : list A) z, NoDup (a ++ b) -> In z a -> ~ In z b.
Proof.
  induction a as [|w a IH]; intros b z H Ha; [destruct Ha|]. cbn in H. inversion H as [|? ? H1 H2]; subst.
  destruct Ha as [<-|Ha].
  - intros Hb. apply H1. apply in_or_app. now right.
  - eauto.
Qed.

Lemma occs_ids : forall d h l, (forall nm c, In (nm, c) l -> depth_le h d c) -> NoDup (occs d h l) -> NoDup (map snd l).
Proof.
  induction l as [|[nm c] l IH]; intros HD HN; [constructor|].
  unfold occs in HN. cbn [flat_map snd map] in *. constructor.
  - intros Hi. apply in_map_iff in Hi. destruct Hi as [[nm' c'] [Ec Hi]]. cbn [snd] in Ec. subst c'.
    eapply (NoDup_app_disj _ _ _ c HN).
    + apply depth_self. eapply HD. now left.
    + apply in_flat_map. exists (nm', c). split; [exact Hi|]. apply depth_self. eapply HD. right. exact Hi.
  - apply IH; [intros nm' c' H; eapply HD; right; exact H|]. eapply NoDup_app_r. exact HN.
Qed.

Definition noisy_list (f : nat) (x : nat) :=
  fix go (l : list (nat * nat)) (h : heap) : result heap :=
    match l with
    | [] => Ok h
    | (name, c) :: l' =>
        match nth_error h c with
        | None => Err AttributeError
        | Some cn =>
            match n_kind cn with
            | Linear i o b => let (h', c') := new_noisy h i o b in go l' (set_child h' x name c')
            | _ => h' <- map_modules f h c ;; go l' h'
            end
        end
    end.

Lemma map_modules_S : forall f h x,
  map_modules (S f) h x =
  match nth_error h x with
  | None => Err AttributeError
  | Some n => noisy_list f x (named_children [] (n_children n)) h
  end.
Proof. reflexivity. Qed.

Lemma set_child_other : forall h x name c y, x <> y -> nth_error (set_child h x name c) y = nth_error h y.
Proof.
  intros h x name c y N. unfold set_child. destruct (nth_error h x); [|reflexivity].
  now apply nth_list_set_other.
Qed.

Lemma set_child_same : forall h x name c n, nth_error h x = Some n ->
  nth_error (set_child h x name c) x =
  Some {| n_kind := n_kind n; n_training := n_training n;
          n_children := map (fun p => if Nat.eqb (fst p) name then (name, c) else p) (n_children n) |}.
Proof. intros h x name c n H. unfold set_child. rewrite H. eapply nth_list_set_same. exact H. Qed.

Lemma replace_one : forall (a b : list (nat * nat)) name c c', NoDup (map fst (a ++ (name, c) :: b)) ->
  map (fun p => if Nat.eqb (fst p) name then (name, c') else p) (a ++ (name, c) :: b) = a ++ (name, c') :: b.
Proof.
  intros a b name c c' H. rewrite map_app. cbn [map fst]. rewrite Nat.eqb_refl.
  rewrite map_app in H. cbn [map fst] in H.
  assert (Ha : forall p, In p a -> fst p <> name).
  { intros p Hp E. eapply (NoDup_app_disj _ _ _ (fst p) H); [now apply in_map|]. left. now symmetry. }
  assert (Hb : forall p, In p b -> fst p <> name).
  { intros p Hp E. apply NoDup_app_r in H. inversion H as [|? ? H1 _]; subst. apply H1. now apply in_map. }
  f_equal; [|f_equal].
  - rewrite <- (map_id a) at 2. apply map_ext_in. intros p Hp. destruct (Nat.eqb_spec (fst p) name) as [E|E]; [|reflexivity].
    exfalso. now apply (Ha p Hp).
  - rewrite <- (map_id b) at 2. apply map_ext_in. intros p Hp. destruct (Nat.eqb_spec (fst p) name) as [E|E]; [|reflexivity].
    exfalso. now apply (Hb p Hp).
Qed.

(** The conversion of one network. *)
Definition converts (d f : nat) (h : heap) (x : nat) (n : node) : Prop :=
  exists h' ts, map_modules f h x = Ok h' /\ length h <= length h'
  /\ (forall y, y < length h -> ~ In y (occurrences d h x) -> nth_error h' y = nth_error h y)
  /\ view d h x = Some (T (n_kind n) ts)
  /\ view (S d) h' x = Some (T (n_kind n) (map mk ts))
  /\ (forall y, In y (occurrences (S d) h' x) -> In y (occurrences d h x) \/ length h <= y < length h').

Lemma converts_loop : forall d f h x n,
  (forall hc c cn, depth_le hc d c -> d <= f -> NoDup (occurrences d hc c) -> names_ok d hc c ->
     nth_error hc c = Some cn -> converts d f hc c cn) ->
  d <= f -> x < length h ->
  forall l done done' hc ts,
  n_children n = done ++ l ->
  NoDup (x :: occs d h (done ++ l)) ->
  (forall nm c, In (nm, c) (done ++ l) -> depth_le h d c) ->
  (forall nm c, In (nm, c) (done ++ l) -> names_ok d h c) ->
  NoDup (map fst (done ++ l)) ->
  length h <= length hc ->
  (forall y, y < length h -> y <> x -> ~ In y (occs d h done) -> nth_error hc y = nth_error h y) ->
  nth_error hc x = Some {| n_kind := n_kind n; n_training := n_training n; n_children := done' ++ l |} ->
  map fst done' = map fst done ->
  views d h done = Some ts -> views (S d) hc done' = Some (map mk ts) ->
  (forall y, In y (occs (S d) hc done') -> In y (occs d h done) \/ length h <= y < length hc) ->
  exists h' done'' ts', noisy_list f x l hc = Ok h'
    /\ length h <= length h'
    /\ (forall y, y < length h -> y <> x -> ~ In y (occs d h (done ++ l)) -> nth_error h' y = nth_error h y)
    /\ nth_error h' x = Some {| n_kind := n_kind n; n_training := n_training n; n_children := done'' |}
    /\ views d h (done ++ l) = Some ts' /\ views (S d) h' done'' = Some (map mk ts')
    /\ (forall y, In y (occs (S d) h' done'') -> In y (occs d h (done ++ l)) \/ length h <= y < length h').
Proof.
  intros d f h x n IH HF Hx. induction l as [|[name c] l IHl];
    intros done done' hc ts HC HN HD HNM HK HL HFr Hxc HM HV HV' HO.
  - exists hc, done', ts. rewrite !app_nil_r in *. cbn [noisy_list]. repeat split; auto.
  - assert (Dc : depth_le h d c) by (eapply HD; apply in_or_app; right; now left).
    destruct (depth_view _ _ _ Dc) as [tc Hvc].
    pose proof HN as HN0. inversion HN0 as [|? ? Hnx HNo]; subst. clear HN0.
    rewrite occs_app in HNo.
    assert (Hoc : occs d h ((name, c) :: l) = occurrences d h c ++ occs d h l) by reflexivity.
    assert (Hxoc : ~ In x (occurrences d h c)).
    { intros Hi. apply Hnx. rewrite occs_app, Hoc. apply in_or_app. right. apply in_or_app. now left. }
    assert (Hdc : forall y, In y (occurrences d h c) -> ~ In y (occs d h done)).
    { intros y Hy Hd. eapply (NoDup_app_disj _ _ _ y HNo Hd). rewrite Hoc. apply in_or_app. now left. }
    assert (Hag : forall y, In y (occurrences d h c) -> nth_error hc y = nth_error h y).
    { intros y Hy. apply HFr.
      - eapply depth_occurs_lt; eauto.
      - intros ->. contradiction.
      - now apply Hdc. }
    destruct (agree d h hc c Hag) as [Aoc [Avc Adc]]. specialize (Adc Dc).
    assert (Hcc : nth_error hc c = nth_error h c) by (apply Hag; now apply depth_self).
    assert (Hcn : exists cn, nth_error h c = Some cn).
    { destruct d; cbn [depth_le] in Dc; [destruct Dc|]. destruct Dc as [cn [Hcn _]]. now exists cn. }
    destruct Hcn as [cn Hcn]. rewrite Hcn in Hcc.
    assert (Hcx : c <> x).
    { intros ->. apply Hxoc. now apply depth_self. }
    cbn [noisy_list]. rewrite Hcc.
    assert (Hsplit : done ++ (name, c) :: l = (done ++ [(name, c)]) ++ l) by (now rewrite <- app_assoc).
    assert (Hstep : forall h1 c', length hc <= length h1 ->
      (forall y, y < length hc -> y <> x -> ~ In y (occurrences d h c) -> nth_error h1 y = nth_error hc y) ->
      nth_error h1 x = Some {| n_kind := n_kind n; n_training := n_training n; n_children := done' ++ (name, c') :: l |} ->
      view (S d) h1 c' = Some (made_noisy tc) ->
      (forall y, In y (occurrences (S d) h1 c') -> In y (occurrences d h c) \/ length h <= y < length h1) ->
      exists h' done'' ts', noisy_list f x l h1 = Ok h'
        /\ length h <= length h'
        /\ (forall y, y < length h -> y <> x -> ~ In y (occs d h (done ++ (name, c) :: l)) -> nth_error h' y = nth_error h y)
        /\ nth_error h' x = Some {| n_kind := n_kind n; n_training := n_training n; n_children := done'' |}
        /\ views d h (done ++ (name, c) :: l) = Some ts' /\ views (S d) h' done'' = Some (map mk ts')
        /\ (forall y, In y (occs (S d) h' done'') -> In y (occs d h (done ++ (name, c) :: l)) \/ length h <= y < length h')).
    { intros h1 c' L1 F1 X1 V1 O1.
      assert (Hag' : forall y, In y (occs (S d) hc done') -> nth_error h1 y = nth_error hc y).
      { intros y Hy. destruct (HO y Hy) as [Hd|[Hlo Hhi]].
        - apply F1.
          + assert (y < length h); [|lia]. unfold occs in Hd. apply in_flat_map in Hd.
            destruct Hd as [[nm' c''] [Hi Hy']]. eapply depth_occurs_lt; [|exact Hy'].
            eapply HD. apply in_or_app. left. exact Hi.
          + intros ->. apply Hnx. rewrite occs_app. apply in_or_app. now left.
          + intros Hc. now apply (Hdc y Hc).
        - apply F1; [exact Hhi| |].
          + lia.
          + intros Hc. assert (y < length h) by (eapply depth_occurs_lt; eauto). lia. }
      destruct (agree_list (S d) hc h1 done' Hag') as [Ao Av].
      rewrite Hsplit. rewrite Hsplit in HC, HN, HD, HNM, HK.
      eapply (IHl (done ++ [(name, c)]) (done' ++ [(name, c')]) h1 (ts ++ [(name, tc)])); auto.
      - lia.
      - intros y Hy Ny Hno. rewrite occs_app in Hno. rewrite F1.
        + apply HFr; auto. intros Hi. apply Hno. apply in_or_app. now left.
        + lia.
        + exact Ny.
        + intros Hi. apply Hno. apply in_or_app. right. unfold occs. cbn [flat_map snd].
          apply in_or_app. now left.
      - now rewrite <- app_assoc.
      - rewrite !map_app, HM. reflexivity.
      - apply views_app; [exact HV|]. unfold views. cbn [map sequence fst snd]. now rewrite Hvc.
      - rewrite map_app. apply views_app; [rewrite Av; exact HV'|]. unfold views. cbn [map sequence fst snd].
        rewrite V1. reflexivity.
      - intros y Hy. rewrite occs_app in Hy. apply in_app_or in Hy. destruct Hy as [Hy|Hy].
        + rewrite Ao in Hy. destruct (HO y Hy) as [Hd|Hb].
          * left. rewrite occs_app. apply in_or_app. now left.
          * right. lia.
        + unfold occs in Hy. cbn [flat_map snd] in Hy. rewrite app_nil_r in Hy.
          destruct (O1 y Hy) as [Hd|Hb].
          * left. rewrite occs_app. apply in_or_app. right. unfold occs. cbn [flat_map snd].
            apply in_or_app. now left.
          * now right. }
    assert (Hother : (forall i o b, n_kind cn <> Linear i o b) ->
      exists h' done'' ts', (h' <- map_modules f hc c ;; noisy_list f x l h') = Ok h'
        /\ length h <= length h'
        /\ (forall y, y < length h -> y <> x -> ~ In y (occs d h (done ++ (name, c) :: l)) -> nth_error h' y = nth_error h y)
        /\ nth_error h' x = Some {| n_kind := n_kind n; n_training := n_training n; n_children := done'' |}
        /\ views d h (done ++ (name, c) :: l) = Some ts' /\ views (S d) h' done'' = Some (map mk ts')
        /\ (forall y, In y (occs (S d) h' done'') -> In y (occs d h (done ++ (name, c) :: l)) \/ length h <= y < length h')).
    { intros NL.
      assert (NDc : NoDup (occurrences d hc c)).
      { rewrite Aoc. apply NoDup_app_r in HNo. rewrite Hoc in HNo. now apply NoDup_app_l in HNo. }
      assert (NMc : names_ok d hc c).
      { intros y ny Hy Hny. rewrite Aoc in Hy. rewrite (Hag y Hy) in Hny.
        eapply (HNM name c); [apply in_or_app; right; now left | exact Hy | exact Hny]. }
      destruct (IH hc c cn Adc HF NDc NMc Hcc) as [h1 [tsc [E1 [L1 [F1 [V0 [V1 O1]]]]]]].
      rewrite E1. cbn [rbind]. rewrite Avc, Hvc in V0. injection V0 as V0.
      apply (Hstep h1 c L1).
      - intros y Hy _ Hno. apply F1; [exact Hy|]. now rewrite Aoc.
      - rewrite F1; [exact Hxc|lia|]. now rewrite Aoc.
      - rewrite V1, V0. f_equal. destruct (n_kind cn) eqn:Ek; try reflexivity. exfalso. eapply NL. reflexivity.
      - intros y Hy. rewrite <- Aoc. destruct (O1 y Hy) as [Hi|Hb]; [now left|right; lia]. }
    destruct (n_kind cn) as [i o b|i o b|tag] eqn:Ek.
    + (* a linear layer: replaced *)
      unfold new_noisy.
      set (lin := {| n_kind := Linear i o b; n_training := true; n_children := [] |}).
      set (noisy := {| n_kind := Noisy i o b; n_training := true; n_children := [(0, length hc); (1, S (length hc))] |}).
      set (h1 := hc ++ [lin; lin; noisy]). set (h2 := set_child h1 x name (S (S (length hc)))).
      assert (Lx : x < length hc) by lia.
      assert (Lh1 : length h1 = 3 + length hc) by (unfold h1; rewrite app_length; cbn; lia).
      assert (N1 : forall y, y < length hc -> nth_error h1 y = nth_error hc y) by (intros y Hy; unfold h1; now apply nth_error_app1).
      assert (NN : forall k, nth_error h1 (k + length hc) = nth_error [lin; lin; noisy] k).
      { intros k. unfold h1. rewrite nth_error_app2 by lia. f_equal. lia. }
      assert (Lh2 : length h2 = length h1).
      { unfold h2, set_child. destruct (nth_error h1 x); [apply list_set_length | reflexivity]. }
      assert (N2 : forall y, y <> x -> nth_error h2 y = nth_error h1 y) by (intros y Hy; unfold h2; now apply set_child_other, not_eq_sym).
      assert (Hmu : nth_error h2 (length hc) = Some lin) by (rewrite N2 by lia; apply (NN 0)).
      assert (Hsi : nth_error h2 (S (length hc)) = Some lin) by (rewrite N2 by lia; apply (NN 1)).
      assert (Hno : nth_error h2 (S (S (length hc))) = Some noisy) by (rewrite N2 by lia; apply (NN 2)).
      apply (Hstep h2 (S (S (length hc)))).
      * lia.
      * intros y Hy Ny _. rewrite N2 by exact Ny. now apply N1.
      * unfold h2. rewrite <- (N1 x Lx) in Hxc. rewrite (set_child_same _ _ _ _ _ Hxc). cbn [n_kind n_training n_children].
        f_equal. f_equal. apply replace_one. rewrite map_app, HM. rewrite map_app in HK. exact HK.
      * destruct d as [|d']; [destruct Dc|].
        rewrite (view_S _ _ _ _ Hno). unfold views. cbn [n_children noisy map fst snd].
        rewrite (view_S _ _ _ _ Hmu), (view_S _ _ _ _ Hsi). cbn [n_children n_kind lin]. unfold views. cbn [map sequence option_map].
        f_equal. rewrite (view_S _ _ _ _ Hcn) in Hvc. destruct (views d' h (n_children cn)) as [tsc|]; [|discriminate].
        cbn [option_map] in Hvc. injection Hvc as <-. rewrite Ek. reflexivity.
      * intros y Hy. right. destruct d as [|d']; [destruct Dc|].
        rewrite (occurrences_S _ _ _ _ Hno) in Hy. unfold occs in Hy. cbn [n_children noisy flat_map snd] in Hy.
        rewrite (occurrences_S _ _ _ _ Hmu), (occurrences_S _ _ _ _ Hsi) in Hy. cbn in Hy. lia.
    + apply Hother. intros. discriminate.
    + apply Hother. intros. discriminate.
Qed.

Lemma converts_all : forall d f h x n,
  depth_le h d x -> d <= f -> NoDup (occurrences d h x) -> names_ok d h x -> nth_error h x = Some n ->
  converts d f h x n.
Proof.
  induction d as [|d IH]; intros f h x n HD HF HN HK Hn; [destruct HD|].
  destruct f as [|f]; [lia|].
  pose proof HD as HD0. cbn [depth_le] in HD. destruct HD as [n' [Hn' Hc]]. rewrite Hn in Hn'. injection Hn' as <-.
  pose proof HN as HN'. rewrite (occurrences_S _ _ _ _ Hn) in HN'.
  assert (Hx : x < length h) by (apply nth_error_Some; congruence).
  assert (Hid : named_children [] (n_children n) = n_children n).
  { apply named_children_id; [|intros z []]. inversion HN' as [|? ? _ HN'']; subst.
    eapply occs_ids; [|exact HN'']. exact Hc. }
  unfold converts. rewrite map_modules_S, Hn, Hid.
  destruct (converts_loop d f h x n) with (l := n_children n) (done := @nil (nat * nat)) (done' := @nil (nat * nat))
    (hc := h) (ts := @nil (nat * tree)) as [h' [done'' [ts' [E [L [F [X [V [V' O]]]]]]]]]; auto; try lia.
  - cbn [app]. intros nm c Hi y ny Hy Hny. eapply HK; [|exact Hny].
    rewrite (occurrences_S _ _ _ _ Hn). right. unfold occs. apply in_flat_map. exists (nm, c). split; assumption.
  - cbn [app]. eapply HK; [|exact Hn]. now apply depth_self.
  - cbn [app]. destruct n; exact Hn.
  - cbn [app] in *. exists h', ts'. split; [exact E|]. split; [exact L|]. split; [|split; [|split]].
    + intros y Hy Hno. rewrite (occurrences_S _ _ _ _ Hn) in Hno. apply F; [exact Hy| |].
      * intros ->. apply Hno. now left.
      * intros Hi. apply Hno. now right.
    + rewrite (view_S _ _ _ _ Hn), V. reflexivity.
    + rewrite (view_S _ _ _ _ X). cbn [n_children n_kind]. now rewrite V'.
    + intros y Hy. rewrite (occurrences_S _ _ _ _ X) in Hy. cbn [n_children] in Hy.
      rewrite (occurrences_S _ _ _ _ Hn). destruct Hy as [<-|Hy]; [left; now left|].
      destruct (O y Hy) as [Hi|Hb]; [left; now right | now right].
Qed.
