From Verif Require Import Base P_Base M_RandomAccessQueue S_RandomAccessQueue.
From Coq Require Import ZifyBool ZifyNat.

Section RAQ.
Context {A : Type}.
Implicit Types (q : raq A) (l : list A).

Lemma raq_len_iter q : raq_len q = length (raq_iter q).
Proof. unfold raq_len, raq_iter. now rewrite app_length, rev_length. Qed.

Lemma raq_popleft_spec q :
  match raq_iter q with
  | [] => raq_popleft q = Err IndexError
  | x :: t => exists q', raq_popleft q = Ok (q', x) /\ raq_iter q' = t /\ maxlen q' = maxlen q
  end.
Proof.
  destruct q as [ml f b]. unfold raq_iter, raq_popleft. cbn [front back maxlen].
  destruct f as [|a f].
  - simpl rev. cbn [app]. destruct b as [|x b]; [reflexivity|].
    replace (rev (x :: b)) with (rev b ++ [x]) by reflexivity.
    rewrite py_pop_app. cbn. eexists. split; [reflexivity|]. cbn.
    rewrite rev_involutive, app_nil_r. auto.
  - destruct (exists_last (l := a :: f) ltac:(discriminate)) as (f' & z & E). rewrite E.
    rewrite rev_app_distr. cbn. rewrite py_pop_app. cbn. eexists. split; [reflexivity|]. auto.
Qed.

Lemma apply_maxlen_loop_spec m : forall fuel q,
  raq_len q <= fuel + m ->
  exists q', apply_maxlen_loop fuel m q = Ok q' /\ raq_iter q' = lastn m (raq_iter q) /\ maxlen q' = maxlen q.
Proof.
  induction fuel as [|fuel IH]; intros q Hf; cbn [apply_maxlen_loop];
    destruct (m <? raq_len q) eqn:E.
  - lia.
  - exists q. rewrite lastn_all; [auto|]. rewrite <- raq_len_iter. lia.
  - pose proof (raq_popleft_spec q) as Hp. rewrite raq_len_iter in *.
    destruct (raq_iter q) as [|x t] eqn:Ei; [simpl in E; lia|].
    destruct Hp as (q' & Hp & Hi & Hm). rewrite Hp. cbn.
    destruct (IH q') as (q'' & H1 & H2 & H3).
    { rewrite raq_len_iter, Hi. simpl in Hf. lia. }
    exists q''. rewrite H1, H2, H3, Hi. split; [reflexivity|]. split; [|auto].
    rewrite lastn_cons; [reflexivity|]. simpl in E. lia.
  - exists q. rewrite lastn_all; [auto|]. rewrite <- raq_len_iter. lia.
Qed.

Lemma raq_apply_maxlen_spec q :
  exists q', raq_apply_maxlen q = Ok q' /\ raq_iter q' = trunc (maxlen q) (raq_iter q) /\ maxlen q' = maxlen q.
Proof.
  unfold raq_apply_maxlen. destruct (maxlen q) as [m|] eqn:E; cbn.
  - destruct (apply_maxlen_loop_spec m (raq_len q) q) as (q' & H1 & H2 & H3); [lia|].
    exists q'. rewrite H3. auto.
  - exists q. auto.
Qed.

Lemma raq_init_spec ml xs :
  exists q, raq_init ml xs = Ok q /\ raq_iter q = trunc ml xs /\ maxlen q = ml.
Proof. exact (raq_apply_maxlen_spec (mkRaq ml [] xs)). Qed.

Lemma raq_extend_spec q xs :
  exists q', raq_extend q xs = Ok q' /\ raq_iter q' = trunc (maxlen q) (raq_iter q ++ xs) /\ maxlen q' = maxlen q.
Proof.
  unfold raq_extend. destruct (raq_apply_maxlen_spec (mkRaq (maxlen q) (front q) (back q ++ xs))) as (q' & H).
  exists q'. unfold raq_iter in *. cbn in *. now rewrite <- app_assoc.
Qed.

Lemma raq_append_spec q x :
  raq_iter q = trunc (maxlen q) (raq_iter q) ->
  exists q', raq_append q x = Ok q' /\ raq_iter q' = trunc (maxlen q) (raq_iter q ++ [x]) /\ maxlen q' = maxlen q.
Proof.
  intros Hinv. unfold raq_append. cbn [maxlen].
  set (q1 := mkRaq (maxlen q) (front q) (back q ++ [x])).
  assert (Hi : raq_iter q1 = raq_iter q ++ [x]).
  { unfold raq_iter, q1. cbn. now rewrite app_assoc. }
  destruct (maxlen q) as [m|] eqn:E.
  - assert (Hl : length (raq_iter q) <= m).
    { rewrite Hinv. simpl. rewrite lastn_length. lia. }
    destruct (m <? raq_len q1) eqn:El.
    + rewrite raq_len_iter, Hi, app_length in El. simpl in El.
      pose proof (raq_popleft_spec q1) as Hp. rewrite Hi in Hp.
      destruct (raq_iter q ++ [x]) as [|y t] eqn:Et.
      { apply app_eq_nil in Et. now destruct Et. }
      destruct Hp as (q' & Hp & Hi' & Hm). rewrite Hp. cbn.
      exists q'. split; [reflexivity|]. rewrite Hi'. unfold q1 in Hm; cbn in Hm. split; [|exact Hm].
      pose proof (f_equal (@length A) Et) as HL. rewrite app_length in HL. simpl in HL.
      rewrite lastn_cons by lia. rewrite lastn_all; [reflexivity|]. lia.
    + exists q1. split; [reflexivity|]. split; [|reflexivity].
      rewrite Hi. simpl. rewrite lastn_all; [reflexivity|].
      rewrite raq_len_iter, Hi in El. lia.
  - exists q1. rewrite Hi. auto.
Qed.

Lemma py_get_nonneg l i :
  (0 <= i)%Z -> py_get l i = match nth_error l (Z.to_nat i) with Some a => Ok a | None => Err IndexError end.
Proof. intros H. unfold py_get. replace (i <? 0)%Z with false by lia. cbn. now replace (i <? 0)%Z with false by lia. Qed.

Lemma py_get_neg l i :
  (- Z.of_nat (length l) <= i < 0)%Z -> py_get l i =
  match nth_error l (Z.to_nat (i + Z.of_nat (length l))) with Some a => Ok a | None => Err IndexError end.
Proof.
  intros H. unfold py_get. replace (i <? 0)%Z with true by lia. cbn.
  now replace (i + Z.of_nat (length l) <? 0)%Z with false by lia.
Qed.

Lemma raq_getitem_spec q i : raq_getitem q i = py_get (raq_iter q) i.
Proof.
  destruct q as [ml f b]. unfold raq_getitem, raq_iter. cbn [front back].
  destruct (0 <=? i)%Z eqn:E0.
  - rewrite (py_get_nonneg (rev f ++ b)) by lia.
    destruct (i <? Z.of_nat (length f))%Z eqn:E1.
    + rewrite nth_error_app1 by (rewrite rev_length; lia).
      rewrite py_get_neg by (unfold Z.lnot; lia).
      rewrite nth_error_rev by lia.
      replace (Z.to_nat (Z.lnot i + Z.of_nat (length f))) with (length f - 1 - Z.to_nat i)
        by (unfold Z.lnot; lia). reflexivity.
    + rewrite nth_error_app2 by (rewrite rev_length; lia). rewrite rev_length.
      destruct (i - Z.of_nat (length f) <? Z.of_nat (length b))%Z eqn:E2.
      * rewrite py_get_nonneg by lia.
        now replace (Z.to_nat (i - Z.of_nat (length f))) with (Z.to_nat i - length f) by lia.
      * rewrite (proj2 (nth_error_None b _)) by lia. reflexivity.
  - destruct (- Z.of_nat (length b) <=? i)%Z eqn:E1.
    + rewrite py_get_neg by lia.
      rewrite py_get_neg by (rewrite app_length, rev_length; lia).
      rewrite nth_error_app2 by (rewrite app_length, !rev_length; lia).
      rewrite app_length, !rev_length.
      now replace (Z.to_nat (i + Z.of_nat (length f + length b)) - length f)
        with (Z.to_nat (i + Z.of_nat (length b))) by lia.
    + destruct (- Z.of_nat (length f) <=? i + Z.of_nat (length b))%Z eqn:E2.
      * rewrite py_get_nonneg by (unfold Z.lnot; lia).
        rewrite py_get_neg by (rewrite app_length, rev_length; lia).
        rewrite nth_error_app1 by (rewrite app_length, !rev_length; lia).
        rewrite app_length, rev_length.
        rewrite nth_error_rev by lia.
        now replace (length f - 1 - Z.to_nat (i + Z.of_nat (length f + length b)))
          with (Z.to_nat (Z.lnot (i + Z.of_nat (length b)))) by (unfold Z.lnot; lia).
      * unfold py_get. replace (i <? 0)%Z with true by lia.
        rewrite app_length, rev_length.
        now replace (i + Z.of_nat (length f + length b) <? 0)%Z with true by lia.
Qed.

Lemma py_set_nonneg l i x :
  (0 <= i < Z.of_nat (length l))%Z -> py_set l i x = Ok (list_set l (Z.to_nat i) x).
Proof.
  intros H. unfold py_set. replace (i <? 0)%Z with false by lia. cbn.
  replace (i <? 0)%Z with false by lia. now replace (i <? Z.of_nat (length l))%Z with true by lia.
Qed.

Lemma py_set_neg l i x :
  (- Z.of_nat (length l) <= i < 0)%Z -> py_set l i x = Ok (list_set l (Z.to_nat (i + Z.of_nat (length l))) x).
Proof.
  intros H. unfold py_set. replace (i <? 0)%Z with true by lia. cbn.
  replace (i + Z.of_nat (length l) <? 0)%Z with false by lia.
  now replace (i + Z.of_nat (length l) <? Z.of_nat (length l))%Z with true by lia.
Qed.

Lemma raq_setitem_spec q i x :
  match raq_setitem q i x, py_set (raq_iter q) i x with
  | Ok q', Ok l' => raq_iter q' = l' /\ maxlen q' = maxlen q
  | Err e, Err e' => e = e'
  | _, _ => False
  end.
Proof.
  destruct q as [ml f b]. unfold raq_setitem, raq_iter. cbn [front back maxlen].
  destruct (0 <=? i)%Z eqn:E0.
  - destruct (i <? Z.of_nat (length f))%Z eqn:E1.
    + rewrite py_set_neg by (unfold Z.lnot; lia). cbn.
      rewrite py_set_nonneg by (rewrite app_length, rev_length; lia). cbn. split; [|reflexivity].
      rewrite list_set_app_l by (rewrite rev_length; lia). f_equal.
      rewrite rev_list_set by (unfold Z.lnot; lia). f_equal. unfold Z.lnot. lia.
    + destruct (i - Z.of_nat (length f) <? Z.of_nat (length b))%Z eqn:E2.
      * rewrite py_set_nonneg by lia. cbn.
        rewrite py_set_nonneg by (rewrite app_length, rev_length; lia). cbn. split; [|reflexivity].
        rewrite list_set_app_r by (rewrite rev_length; lia). rewrite rev_length.
        do 2 f_equal. lia.
      * unfold py_set. replace (i <? 0)%Z with false by lia.
        rewrite app_length, rev_length. replace (i <? 0)%Z with false by lia.
        now replace (i <? Z.of_nat (length f + length b))%Z with false by lia.
  - destruct (- Z.of_nat (length b) <=? i)%Z eqn:E1.
    + rewrite py_set_neg by lia. cbn.
      rewrite py_set_neg by (rewrite app_length, rev_length; lia). cbn. split; [|reflexivity].
      rewrite list_set_app_r by (rewrite app_length, !rev_length; lia).
      rewrite app_length, !rev_length. do 2 f_equal. lia.
    + destruct (- Z.of_nat (length f) <=? i + Z.of_nat (length b))%Z eqn:E2.
      * rewrite py_set_nonneg by (unfold Z.lnot; lia). cbn.
        rewrite py_set_neg by (rewrite app_length, rev_length; lia). cbn. split; [|reflexivity].
        rewrite list_set_app_l by (rewrite app_length, !rev_length; lia).
        rewrite app_length, rev_length. f_equal.
        rewrite rev_list_set by (unfold Z.lnot; lia). f_equal. unfold Z.lnot. lia.
      * unfold py_set. replace (i <? 0)%Z with true by lia.
        rewrite app_length, rev_length.
        now replace (i + Z.of_nat (length f + length b) <? 0)%Z with true by lia.
Qed.

Lemma raq_getmany_spec q ixs :
  (forall i, In i ixs -> i < length (raq_iter q)) ->
  exists xs, raq_getmany q ixs = Ok xs /\
    Forall2 (fun i x => nth_error (raq_iter q) i = Some x) ixs xs.
Proof.
  induction ixs as [|i t IH]; intros H; cbn.
  - exists []. auto.
  - rewrite raq_getitem_spec, py_get_nonneg by lia. rewrite Nat2Z.id.
    destruct (nth_error (raq_iter q) i) as [a|] eqn:E.
    2:{ apply nth_error_None in E. specialize (H i (or_introl eq_refl)). lia. }
    cbn. destruct IH as (xs & H1 & H2); [intros; apply H; now right|].
    rewrite H1. cbn. eexists. split; [reflexivity|]. now constructor.
Qed.
End RAQ.

Section Refine.
Context {A : Type}.
Definition refines (ml : option nat) (q : raq A) (l : list A) : Prop :=
  raq_iter q = l /\ maxlen q = ml /\ match ml with None => True | Some m => length l <= m end.

Lemma trunc_le ml (l : list A) : match ml with None => True | Some m => length (trunc ml l) <= m end.
Proof. destruct ml; cbn; [|exact I]. rewrite lastn_length. lia. Qed.

Lemma spec_step_refines ml q l o :
  refines ml q l ->
  snd (raq_step q o) = snd (spec_step ml l o) /\ refines ml (fst (raq_step q o)) (fst (spec_step ml l o)).
Proof.
  intros (Hi & Hm & Hl). subst l. destruct o as [| |i|i x|x|xs|]; cbn [raq_step spec_step].
  - cbn. rewrite raq_len_iter. repeat split; auto.
  - cbn. repeat split; auto.
  - rewrite raq_getitem_spec. cbn. repeat split; auto.
  - pose proof (raq_setitem_spec q i x) as H.
    destruct (raq_setitem q i x) as [q'|e], (py_set (raq_iter q) i x) as [l'|e'] eqn:E; try easy.
    + destruct H as [H1 H2]. cbn. repeat split; auto; try congruence.
      apply py_set_length in E. destruct ml; auto. now rewrite E.
    + cbn. subst. repeat split; auto.
  - destruct (raq_append_spec q x) as (q' & H1 & H2 & H3).
    { rewrite Hm. destruct ml; [|reflexivity]. cbn. now rewrite lastn_all. }
    rewrite H1. cbn. repeat split; try congruence. apply trunc_le.
  - destruct (raq_extend_spec q xs) as (q' & H1 & H2 & H3).
    rewrite H1. cbn. repeat split; try congruence. apply trunc_le.
  - pose proof (raq_popleft_spec q) as H. destruct (raq_iter q) as [|x t] eqn:E.
    + rewrite H. cbn. repeat split; auto.
    + destruct H as (q' & H1 & H2 & H3). rewrite H1. cbn. repeat split; try congruence.
      destruct ml; auto. cbn in Hl. lia.
Qed.

Lemma raq_refinement ml (xs : list A) ops :
  exists q, raq_init ml xs = Ok q /\
    snd (run raq_step q ops) = snd (run (spec_step ml) (trunc ml xs) ops) /\
    raq_iter (fst (run raq_step q ops)) = fst (run (spec_step ml) (trunc ml xs) ops) /\
    match ml with None => True | Some m => raq_len (fst (run raq_step q ops)) <= m end.
Proof.
  destruct (raq_init_spec ml xs) as (q & H1 & H2 & H3). exists q. split; [exact H1|].
  assert (HR : refines ml q (trunc ml xs)).
  { repeat split; auto. apply trunc_le. }
  destruct (run_refine raq_step (spec_step ml) (refines ml) (fun s t o => spec_step_refines ml s t o) ops _ _ HR)
    as [Ho (Hi & _ & Hl)].
  repeat split; auto. destruct ml; auto. rewrite raq_len_iter, Hi. exact Hl.
Qed.
End Refine.
