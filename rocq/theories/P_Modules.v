(** Lemmas about module graphs. *)
From Verif Require Import Base M_Modules S_Modules.

Lemma list_set_length : forall A (l : list A) n x, length (list_set l n x) = length l.
Proof. induction l as [|a l IH]; intros [|n] x; cbn [list_set length]; auto. Qed.

Lemma nth_list_set_same : forall A (l : list A) n x a, nth_error l n = Some a -> nth_error (list_set l n x) n = Some x.
Proof. induction l as [|b l IH]; intros [|n] x a H; cbn in *; try discriminate; eauto. Qed.

Lemma nth_list_set_other : forall A (l : list A) n m x, n <> m -> nth_error (list_set l n x) m = nth_error l m.
Proof.
  induction l as [|b l IH]; intros [|n] [|m] x H; cbn; auto; try lia.
Qed.

Lemma named_children_in : forall l seen p, In p (named_children seen l) -> In p l.
Proof.
  induction l as [|[nm c] l IH]; intros seen p H; cbn [named_children] in H; [destruct H|].
  destruct (existsb (Nat.eqb c) seen).
  - right. eauto.
  - destruct H as [H|H]; [now left | right; eauto].
Qed.

Lemma named_children_complete : forall l seen nm c, In (nm, c) l ->
  In c seen \/ exists nm', In (nm', c) (named_children seen l).
Proof.
  induction l as [|[nm0 c0] l IH]; intros seen nm c H; [destruct H|].
  cbn [named_children]. destruct (existsb (Nat.eqb c0) seen) eqn:E.
  - destruct H as [H|H].
    + injection H as -> ->. left. apply existsb_exists in E. destruct E as [z [Hz Ez]].
      apply Nat.eqb_eq in Ez. now subst z.
    + eauto.
  - destruct H as [H|H].
    + injection H as -> ->. right. exists nm. now left.
    + destruct (IH (c0 :: seen) nm c H) as [[->|Hs]|[nm' Hn]].
      * right. exists nm0. now left.
      * now left.
      * right. exists nm'. now right.
Qed.

Definition train_list (f : nat) (mode : bool) :=
  fix go (l : list (nat * nat)) (h : heap) : result heap :=
    match l with
    | [] => Ok h
    | (_, c) :: l' => h' <- train f h c mode ;; go l' h'
    end.

Lemma train_S : forall f h x mode,
  train (S f) h x mode =
  match nth_error h x with
  | None => Err AttributeError
  | Some n => train_list f mode (named_children [] (n_children n)) (set_training h x mode)
  end.
Proof. reflexivity. Qed.

Lemma same_structure_refl : forall h, same_structure h h.
Proof. intros h. split; [reflexivity|]. intros x. now split. Qed.

Lemma same_structure_trans : forall a b c, same_structure a b -> same_structure b c -> same_structure a c.
Proof.
  intros a b c [L1 H1] [L2 H2]. split; [congruence|]. intros x.
  destruct (H1 x), (H2 x). split; congruence.
Qed.

Lemma same_structure_sym : forall a b, same_structure a b -> same_structure b a.
Proof. intros a b [L H]. split; [congruence|]. intros x. destruct (H x). split; congruence. Qed.

Lemma child_same : forall h h' x y, same_structure h h' -> child h x y -> child h' x y.
Proof.
  intros h h' x y [_ H] [n [nm [Hn Hi]]]. destruct (H x) as [_ Hc].
  rewrite Hn in Hc. cbn in Hc. destruct (nth_error h' x) as [n'|] eqn:E; [|discriminate].
  cbn in Hc. injection Hc as Hc. exists n', nm. split; [exact E|]. now rewrite <- Hc.
Qed.

Lemma part_same : forall h h' x y, same_structure h h' -> part_of h x y -> part_of h' x y.
Proof.
  intros h h' x y HS HP. induction HP as [x|x y z HC HP IH]; [constructor|].
  econstructor; [eapply child_same; eauto | exact IH].
Qed.

Lemma depth_same : forall d h h' x, same_structure h h' -> depth_le h d x -> depth_le h' d x.
Proof.
  induction d as [|d IH]; intros h h' x HS H; cbn [depth_le] in *; [exact H|].
  destruct H as [n [Hn Hc]]. destruct (proj2 HS x) as [_ HC]. rewrite Hn in HC. cbn in HC.
  destruct (nth_error h' x) as [n'|] eqn:E; [|discriminate]. cbn in HC. injection HC as HC.
  exists n'. split; [reflexivity|]. intros nm c Hi. rewrite <- HC in Hi. eauto.
Qed.

Lemma set_training_structure : forall h x m, same_structure h (set_training h x m).
Proof.
  intros h x m. unfold set_training. destruct (nth_error h x) as [n|] eqn:E; [|apply same_structure_refl].
  split; [now rewrite list_set_length|]. intros y. destruct (Nat.eq_dec x y) as [<-|N].
  - rewrite (nth_list_set_same _ _ _ _ _ E), E. now split.
  - rewrite nth_list_set_other by exact N. now split.
Qed.

Lemma set_training_mode : forall h x m y n, nth_error h x = Some n ->
  mode_of (set_training h x m) y = if Nat.eqb x y then Some m else mode_of h y.
Proof.
  intros h x m y n E. unfold set_training, mode_of. rewrite E. destruct (Nat.eqb_spec x y) as [<-|N].
  - now rewrite (nth_list_set_same _ _ _ _ _ E).
  - now rewrite nth_list_set_other by exact N.
Qed.

(** What [train] does: it sets the mode of the module and all its descendants and nothing else. *)
Lemma train_spec : forall d fuel h x mode, depth_le h d x -> d <= fuel ->
  exists h', train fuel h x mode = Ok h' /\ same_structure h h'
  /\ (forall y, part_of h x y -> mode_of h' y = Some mode)
  /\ (forall y, mode_of h' y = mode_of h y \/ (part_of h x y /\ mode_of h' y = Some mode)).
Proof.
  induction d as [|d IH]; intros fuel h x mode HD HF; [destruct HD|].
  destruct fuel as [|f]; [lia|]. rewrite train_S. cbn [depth_le] in HD. destruct HD as [n [Hn Hc]].
  rewrite Hn.
  assert (Hloop : forall l h0, same_structure h h0 ->
    (forall nm c, In (nm, c) l -> depth_le h d c) ->
    exists h', train_list f mode l h0 = Ok h' /\ same_structure h h'
    /\ (forall nm c y, In (nm, c) l -> part_of h c y -> mode_of h' y = Some mode)
    /\ (forall y, mode_of h' y = mode_of h0 y
          \/ ((exists nm c, In (nm, c) l /\ part_of h c y) /\ mode_of h' y = Some mode))).
  { induction l as [|[nm c] l IHl]; intros h0 HS HDl.
    - exists h0. cbn [train_list]. split; [reflexivity|]. split; [exact HS|]. split.
      + intros nm c y [].
      + intros y. now left.
    - cbn [train_list].
      assert (Dc : depth_le h0 d c) by (eapply depth_same; [exact HS|]; eapply HDl; now left).
      destruct (IH f h0 c mode Dc ltac:(lia)) as [h1 [E1 [S1 [A1 B1]]]].
      rewrite E1. cbn [rbind].
      destruct (IHl h1) as [h2 [E2 [S2 [A2 B2]]]].
      + eapply same_structure_trans; eauto.
      + intros nm' c' H. eapply HDl. right. exact H.
      + exists h2. split; [exact E2|]. split; [exact S2|]. split.
        * intros nm' c' y [H|H] HP.
          -- injection H as _ <-. destruct (B2 y) as [B|[_ B]]; [|exact B].
             rewrite B. apply A1. eapply part_same; [exact HS | exact HP].
          -- eapply A2; eauto.
        * intros y. destruct (B2 y) as [B|[[nm' [c' [Hi Hp]]] B]].
          -- destruct (B1 y) as [B'|[Hp B']].
             ++ left. congruence.
             ++ right. split; [|congruence]. exists nm, c. split; [now left|].
                eapply part_same; [apply same_structure_sym; exact HS | exact Hp].
          -- right. split; [|exact B]. exists nm', c'. split; [now right | exact Hp]. }
  destruct (Hloop (named_children [] (n_children n)) (set_training h x mode)) as [h' [E [HS [A B]]]].
  - apply set_training_structure.
  - intros nm c H. eapply Hc. eapply named_children_in. exact H.
  - exists h'. split; [exact E|]. split; [exact HS|]. split.
    + intros y HP. destruct (Nat.eq_dec x y) as [Exy|Nxy].
      * subst y. destruct (B x) as [B'|[_ B']]; [|exact B']. rewrite B'.
        rewrite (set_training_mode _ _ _ _ _ Hn). now rewrite Nat.eqb_refl.
      * inversion HP as [z|z c w HC HP']; subst; [contradiction|].
        destruct HC as [n' [nm [Hn' Hi]]]. rewrite Hn in Hn'. injection Hn' as <-.
        destruct (named_children_complete _ [] _ _ Hi) as [[]|[nm' Hi']].
        eapply A; eauto.
    + intros y. destruct (B y) as [B'|[[nm [c [Hi Hp]]] B']].
      * rewrite (set_training_mode _ _ _ _ _ Hn) in B'. destruct (Nat.eqb_spec x y) as [Exy|N]; [subst y|].
        -- right. split; [constructor | exact B'].
        -- left. exact B'.
      * right. split; [|exact B']. econstructor; [|exact Hp].
        exists n, nm. split; [exact Hn|]. eapply named_children_in. exact Hi.
Qed.
