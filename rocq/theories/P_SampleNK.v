From Verif Require Import Base P_Base M_RandomAccessQueue P_RandomAccessQueue M_SampleNK S_SampleNK.
From Coq Require Import ZifyBool ZifyNat.

Lemma memb_In x l : memb x l = true <-> In x l.
Proof.
  unfold memb. rewrite existsb_exists. split.
  - intros (y & Hy & E). apply Nat.eqb_eq in E. now subst.
  - intros H. exists x. split; [exact H|apply Nat.eqb_refl].
Qed.

Lemma memb_notIn x l : memb x l = false <-> ~ In x l.
Proof. rewrite <- memb_In. now rewrite not_true_iff_false. Qed.

Lemma firstn_list_set {A} (l : list A) n i x : n <= i -> firstn n (list_set l i x) = firstn n l.
Proof.
  revert n i; induction l as [|a l IH]; intros n i H; [reflexivity|].
  destruct n; [reflexivity|]. destruct i; [lia|]. simpl. f_equal. apply IH. lia.
Qed.

Lemma firstn_S_nth {A} (l : list A) n x : nth_error l n = Some x -> firstn (S n) l = firstn n l ++ [x].
Proof.
  revert n; induction l as [|a l IH]; intros [|n] H; simpl in *; try discriminate.
  - now injection H as ->.
  - f_equal. now apply IH.
Qed.

Lemma Forall_list_set {A} (P : A -> Prop) l i x : Forall P l -> P x -> Forall P (list_set l i x).
Proof.
  intros H; revert i. induction H as [|a l Ha Hl IH]; intros [|i] Hx; simpl; auto.
Qed.

Lemma Forall_firstn {A} (P : A -> Prop) l n : Forall P l -> Forall P (firstn n l).
Proof. intros H; revert n; induction H; intros [|n]; simpl; auto. Qed.

Section Fix.
Variables (n k : nat) (o : oracle).
Hypothesis HC : numpy_contract n k o.
Hypothesis Hk : 0 < k.

(** Invariant of the outer loop at index i. *)
Definition inv (i : nat) (s : snk) : Prop :=
  length (res s) = 2 * k /\ Forall (fun x => x < n) (res s) /\
  sel s = rev (firstn i (res s)) /\ NoDup (sel s) /\ k <= jj s < 2 * k /\ 1 <= calls s.

Lemma refill_inv i s y :
  i < k -> inv i s -> nth_error (res s) (jj s) = Some y ->
  inv i (mkSnk (list_set (res s) i y) (sel s) (jj s) (calls s)) /\
  nth_error (list_set (res s) i y) i = Some y.
Proof.
  intros Hi (H1 & H2 & H3 & H4 & H5 & H6) Hy. split.
  - split; [cbn; now rewrite list_set_length|].
    split; [cbn; apply Forall_list_set; auto; rewrite Forall_forall in H2; apply H2; eapply nth_error_In; eauto|].
    split; [cbn; now rewrite firstn_list_set|]. auto.
  - rewrite nth_error_list_set, Nat.eqb_refl. replace (i <? length (res s)) with true by lia. reflexivity.
Qed.

Lemma draw_inv i s :
  i < k -> inv i s -> inv i (mkSnk (firstn k (res s) ++ draw o (calls s)) (sel s) k (S (calls s))) /\
  nth_error (firstn k (res s) ++ draw o (calls s)) i = nth_error (res s) i.
Proof.
  intros Hi (H1 & H2 & H3 & H4 & H5 & H6).
  destruct HC as (_ & _ & Hr). destruct (calls s) as [|c] eqn:Ec; [lia|].
  destruct (Hr c) as [Hl Hf].
  assert (Hlf : length (firstn k (res s)) = k) by (rewrite firstn_length; lia).
  split.
  - split; [cbn [res]; rewrite app_length; lia|].
    split; [cbn; apply Forall_app; split; [now apply Forall_firstn|exact Hf]|].
    split.
    { cbn [res sel]. rewrite H3. f_equal. rewrite firstn_app.
      replace (i - length (firstn k (res s))) with 0 by lia. rewrite app_nil_r.
      rewrite firstn_firstn. f_equal. lia. }
    cbn. split; [exact H4|]. lia.
  - rewrite nth_error_app1 by lia. now rewrite nth_error_firstn' by lia.
Qed.

Lemma reject_ok fuel : forall i s x, i < k -> inv i s -> nth_error (res s) i = Some x ->
  match reject fuel o k i s x with
  | Ok (s', x') => inv i s' /\ nth_error (res s') i = Some x' /\ ~ In x' (sel s')
  | Err e => e = OutOfFuel
  end.
Proof.
  induction fuel as [|fuel IH]; intros i s x Hi HI Hx; cbn [reject].
  - destruct (memb x (sel s)) eqn:E; [reflexivity|].
    apply memb_notIn in E. auto.
  - destruct (memb x (sel s)) eqn:E; [|apply memb_notIn in E; auto].
    destruct (nth_error (res s) (jj s)) as [y|] eqn:Ey.
    2:{ apply nth_error_None in Ey. destruct HI as (H1 & _ & _ & _ & H5 & _). lia. }
    destruct (refill_inv i s y Hi HI Ey) as [HI1 Hn1].
    destruct (S (jj s) =? 2 * k) eqn:Ej.
    + destruct (draw_inv i _ Hi HI1) as [HI2 Hn2]. cbn [res sel jj calls] in *.
      apply IH; auto. cbn [res]. now rewrite Hn2.
    + apply IH; auto. destruct HI1 as (H1 & H2 & H3 & H4 & H5 & H6). cbn [res sel jj calls] in *.
      repeat split; cbn [res sel jj calls]; auto; lia.
Qed.

Lemma inv_step i s x : i < k -> inv i s -> nth_error (res s) i = Some x -> ~ In x (sel s) ->
  inv (S i) (mkSnk (res s) (x :: sel s) (jj s) (calls s)).
Proof.
  intros Hi (H1 & H2 & H3 & H4 & H5 & H6) Hx Hn. repeat split; cbn [res sel jj calls]; auto; try lia.
  - rewrite (firstn_S_nth _ _ _ Hx), rev_app_distr. cbn. now rewrite H3.
  - now constructor.
Qed.

Lemma pick_ok fuel : forall m i s, i + m = k -> inv i s ->
  match pick fuel o k (seq i m) s with
  | Ok s' => inv k s'
  | Err e => e = OutOfFuel
  end.
Proof.
  induction m as [|m IH]; intros i s Him HI; cbn [seq pick].
  - now replace k with i by lia.
  - destruct (nth_error (res s) i) as [x|] eqn:Ex.
    2:{ apply nth_error_None in Ex. destruct HI as (H1 & _). lia. }
    pose proof (reject_ok fuel i s x ltac:(lia) HI Ex) as HR.
    destruct (reject fuel o k i s x) as [[s' x']|e]; cbn; [|exact HR].
    destruct HR as (HI' & Hx' & Hn'). apply IH; [lia|]. apply inv_step; auto. lia.
Qed.

Lemma inv_start : inv 0 (mkSnk (draw o 0) [] k 1).
Proof.
  destruct HC as (_ & [Hl Hf] & _). repeat split; cbn; auto; try lia. constructor.
Qed.

Lemma inv_final s : inv k s -> distinct_sample n k (firstn k (res s)).
Proof.
  intros (H1 & H2 & H3 & H4 & _). split; [rewrite firstn_length; lia|]. split.
  - rewrite <- (rev_involutive (firstn k (res s))), <- H3. now apply NoDup_rev.
  - intros x Hx. rewrite Forall_forall in H2. apply H2.
    rewrite <- (firstn_skipn k (res s)). apply in_or_app. now left.
Qed.

(** ** Termination under a fair generator *)
Definition stops (i : nat) (s : snk) (x : nat) : Prop := exists f r, reject f o k i s x = Ok r.

Lemma stops_fresh i s x : ~ In x (sel s) -> stops i s x.
Proof. intros H. exists 0, (s, x). cbn. apply memb_notIn in H. now rewrite H. Qed.

(** One iteration of the while loop. *)
Lemma stops_step i s x y : nth_error (res s) (jj s) = Some y ->
  (let r := list_set (res s) i y in
   if S (jj s) =? 2 * k
   then stops i (mkSnk (firstn k r ++ draw o (calls s)) (sel s) k (S (calls s))) y
   else stops i (mkSnk r (sel s) (S (jj s)) (calls s)) y) ->
  stops i s x.
Proof.
  intros Hy H. destruct (memb x (sel s)) eqn:E.
  - cbn zeta in H. destruct (S (jj s) =? 2 * k) eqn:Ej; destruct H as (f & r & Hf);
      exists (S f), r; cbn [reject]; now rewrite E, Hy, Ej.
  - apply memb_notIn in E. now apply stops_fresh.
Qed.

(** Walk to the end of the current batch. *)
Lemma stops_walk i sl : forall m s x, i < k -> inv i s -> sel s = sl -> 2 * k - jj s = m ->
  (forall s' y, inv i s' -> sel s' = sl -> jj s' = k -> calls s' = S (calls s) ->
      skipn k (res s') = draw o (calls s) -> stops i s' y) ->
  stops i s x.
Proof.
  induction m as [|m IH]; intros s x Hi HI Hsl Hm Hnext.
  - destruct HI as (_ & _ & _ & _ & H5 & _). lia.
  - destruct (nth_error (res s) (jj s)) as [y|] eqn:Ey.
    2:{ apply nth_error_None in Ey. destruct HI as (H1 & _ & _ & _ & H5 & _). lia. }
    apply (stops_step i s x y Ey). cbn zeta.
    destruct (refill_inv i s y Hi HI Ey) as [HI1 Hn1].
    destruct (S (jj s) =? 2 * k) eqn:Ej.
    + destruct (draw_inv i _ Hi HI1) as [HI2 Hn2]. cbn [res sel jj calls] in *.
      apply Hnext; auto. cbn [res]. rewrite skipn_app, skipn_all2; rewrite firstn_length, list_set_length.
      * destruct HI as (H1 & _). replace (k - Nat.min k (length (res s))) with 0 by lia. reflexivity.
      * lia.
    + apply (IH (mkSnk (list_set (res s) i y) (sel s) (S (jj s)) (calls s))); auto; cbn [jj calls]; try lia.
      destruct HI1 as (H1 & H2 & H3 & H4 & H5 & H6). cbn [res sel jj calls] in *.
      repeat split; cbn [res sel jj calls]; auto; lia.
Qed.

Lemma list_set_skipn {A} (l : list A) i x m : i < m -> skipn m (list_set l i x) = skipn m l.
Proof.
  revert i m; induction l as [|a l IH]; intros i m H; [reflexivity|].
  destruct m; [lia|]. destruct i; simpl; auto. apply IH. lia.
Qed.

(** A fresh value in the rest of the current batch ends the loop. *)
Lemma stops_in_batch i : forall m s x, i < k -> inv i s -> 2 * k - jj s = m ->
  (exists z, In z (skipn (jj s) (res s)) /\ ~ In z (sel s)) -> stops i s x.
Proof.
  induction m as [|m IH]; intros s x Hi HI Hm (z & Hz & Hnz).
  - destruct HI as (_ & _ & _ & _ & H5 & _). lia.
  - destruct (nth_error (res s) (jj s)) as [y|] eqn:Ey.
    2:{ apply nth_error_None in Ey. destruct HI as (H1 & _ & _ & _ & H5 & _). lia. }
    destruct (in_dec Nat.eq_dec y (sel s)) as [Hys|Hys].
    + apply (stops_step i s x y Ey). cbn zeta.
      destruct (refill_inv i s y Hi HI Ey) as [HI1 Hn1].
      assert (Hsk : skipn (jj s) (res s) = y :: skipn (S (jj s)) (res s)).
      { clear - Ey. revert Ey. generalize (jj s) as j. induction (res s) as [|a l IH]; intros [|j] E; try discriminate.
        - now injection E as ->.
        - cbn [skipn]. apply IH in E. exact E. }
      rewrite Hsk in Hz. destruct Hz as [->|Hz]; [contradiction|].
      destruct (S (jj s) =? 2 * k) eqn:Ej.
      * rewrite skipn_all2 in Hz; [destruct Hz|]. destruct HI as (H1 & _). lia.
      * apply IH; cbn [res sel jj calls]; auto; try lia.
        -- destruct HI1 as (H1 & H2 & H3 & H4 & H5 & H6). cbn [res sel jj calls] in *.
           repeat split; cbn [res sel jj calls]; auto; lia.
        -- exists z. split; [|exact Hnz]. rewrite list_set_skipn; [exact Hz|].
           destruct HI as (_ & _ & _ & _ & H5 & _). lia.
    + apply (stops_step i s x y Ey). cbn zeta.
      destruct (S (jj s) =? 2 * k); apply stops_fresh; exact Hys.
Qed.

Lemma stops_dist i sl : length sl = i -> forall d s x z, i < k -> inv i s -> sel s = sl ->
  In z (draw o (calls s + d)) -> ~ In z sl -> stops i s x.
Proof.
  intros Hlen. induction d as [|d IH]; intros s x z Hi HI Hsl Hz Hnz.
  - apply (stops_walk i sl (2 * k - jj s)); auto. intros s' y HI' Hs' Hj' Hc' Hd'.
    apply (stops_in_batch i (2 * k - jj s')); auto. exists z. rewrite Hj', Hd', Hs'.
    rewrite Nat.add_0_r in Hz. auto.
  - apply (stops_walk i sl (2 * k - jj s)); auto. intros s' y HI' Hs' Hj' Hc' Hd'.
    apply (IH s' y z); auto. rewrite Hc'. now replace (S (calls s) + d) with (calls s + S d) by lia.
Qed.

Lemma reject_mono i : forall f s x r f', reject f o k i s x = Ok r -> f <= f' -> reject f' o k i s x = Ok r.
Proof.
  induction f as [|f IH]; intros s x r f' H Hf; cbn [reject] in H.
  - destruct (memb x (sel s)) eqn:E; [discriminate|]. destruct f'; cbn [reject]; now rewrite E.
  - destruct f' as [|f']; [lia|]. cbn [reject].
    destruct (memb x (sel s)); [|exact H].
    destruct (nth_error (res s) (jj s)); [|exact H].
    destruct (S (jj s) =? 2 * k); eapply IH; eauto; lia.
Qed.

Lemma pick_mono : forall is f s r f', pick f o k is s = Ok r -> f <= f' -> pick f' o k is s = Ok r.
Proof.
  induction is as [|i is IH]; intros f s r f' H Hf; cbn [pick] in *; [exact H|].
  destruct (nth_error (res s) i) as [x|]; [|exact H].
  destruct (reject f o k i s x) as [[s' x']|e] eqn:E; [|discriminate].
  rewrite (reject_mono _ _ _ _ _ f' E Hf). cbn in *. eapply IH; eauto.
Qed.

Lemma pick_term : fair k o -> forall m i s, i + m = k -> inv i s -> exists f r, pick f o k (seq i m) s = Ok r.
Proof.
  intros Hfair. induction m as [|m IH]; intros i s Him HI; cbn [seq pick].
  - exists 0, s. reflexivity.
  - destruct (nth_error (res s) i) as [x|] eqn:Ex.
    2:{ apply nth_error_None in Ex. destruct HI as (H1 & _). lia. }
    assert (Hlen : length (sel s) = i).
    { destruct HI as (H1 & _ & H3 & _). rewrite H3, rev_length, firstn_length. lia. }
    assert (Hst : stops i s x).
    { destruct (Hfair (sel s) (calls s)) as (r' & z & Hr & Hz & Hnz); [lia|].
      apply (stops_dist i (sel s) Hlen (S r' - calls s) s x z); auto; try lia.
      now replace (calls s + (S r' - calls s)) with (S r') by lia. }
    destruct Hst as (f1 & [s' x'] & Hf1).
    pose proof (reject_ok f1 i s x ltac:(lia) HI Ex) as HR. rewrite Hf1 in HR.
    destruct HR as (HI' & Hx' & Hn').
    destruct (IH (S i) (mkSnk (res s') (x' :: sel s') (jj s') (calls s'))) as (f2 & r & Hf2).
    { lia. } { apply inv_step; auto; lia. }
    exists (Nat.max f1 f2), r.
    rewrite (reject_mono _ _ _ _ _ (Nat.max f1 f2) Hf1) by lia. cbn.
    eapply pick_mono; eauto. lia.
Qed.
End Fix.

Lemma sample_n_k_ok fuel o (n k : nat) : k <= n -> numpy_contract n k o ->
  match sample_n_k fuel o (Z.of_nat n) (Z.of_nat k) with
  | Ok l => distinct_sample n k l
  | Err e => e = OutOfFuel
  end.
Proof.
  intros Hkn HC. unfold sample_n_k.
  replace (negb _) with false by lia.
  destruct (Z.of_nat k =? 0)%Z eqn:E0.
  - replace k with 0 by lia. split; [reflexivity|]. split; [constructor|]. intros x [].
  - destruct (Z.of_nat n <=? 3 * Z.of_nat k)%Z.
    + destruct HC as ([[Hl Hf] Hnd] & _). split; [exact Hl|]. split; [exact Hnd|].
      now apply Forall_forall.
    + rewrite Nat2Z.id.
      pose proof (pick_ok n k o HC ltac:(lia) fuel k 0 _ eq_refl (inv_start n k o HC ltac:(lia))) as H.
      destruct (pick fuel o k (seq 0 k) _) as [s|e]; cbn; [|exact H].
      apply (inv_final n k); [lia|exact H].
Qed.

Lemma sample_n_k_reject fuel o (n k : Z) : ~ (0 <= k <= n)%Z -> sample_n_k fuel o n k = Err ValueError.
Proof. intros H. unfold sample_n_k. now replace (negb _) with true by lia. Qed.

Lemma sample_n_k_terminates o (n k : nat) : k <= n -> numpy_contract n k o -> fair k o ->
  exists fuel0, forall fuel, fuel0 <= fuel ->
  exists l, sample_n_k fuel o (Z.of_nat n) (Z.of_nat k) = Ok l.
Proof.
  intros Hkn HC HF. unfold sample_n_k.
  replace (negb _) with false by lia.
  destruct (Z.of_nat k =? 0)%Z eqn:E0; [exists 0; eauto|].
  destruct (Z.of_nat n <=? 3 * Z.of_nat k)%Z; [exists 0; eauto|].
  rewrite Nat2Z.id.
  destruct (pick_term n k o HC ltac:(lia) HF k 0 _ eq_refl (inv_start n k o HC ltac:(lia))) as (f & s & Hf).
  exists f. intros fuel Hle. eapply pick_mono in Hf; [| lia | exact Hle]. rewrite Hf. cbn. eauto.
Qed.

Lemma raq_sample_ok {A} fuel o (q : raq A) (k : nat) :
  k <= length (raq_iter q) -> numpy_contract (length (raq_iter q)) k o ->
  match raq_sample fuel o q (Z.of_nat k) with
  | Ok xs => exists ixs, distinct_sample (length (raq_iter q)) k ixs /\
               Forall2 (fun i x => nth_error (raq_iter q) i = Some x) ixs xs
  | Err e => e = OutOfFuel
  end.
Proof.
  intros Hk HC. unfold raq_sample. rewrite raq_len_iter.
  pose proof (sample_n_k_ok fuel o _ _ Hk HC) as H.
  destruct (sample_n_k fuel o _ _) as [ixs|e]; cbn; [|exact H].
  destruct (raq_getmany_spec q ixs) as (xs & H1 & H2).
  { destruct H as (_ & _ & H). exact H. }
  rewrite H1. eauto.
Qed.
