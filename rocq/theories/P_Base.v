(** Lemmas about Base. *)
From Verif Require Import Base.
From Coq Require Import ZifyBool ZifyNat.

Lemma unsnoc_app {A} (l : list A) x : unsnoc (l ++ [x]) = Some (l, x).
Proof.
  induction l as [|a l IH]; [reflexivity|].
  simpl. rewrite IH. destruct l; reflexivity.
Qed.

Lemma py_pop_app {A} (l : list A) x : py_pop (l ++ [x]) = Ok (l, x).
Proof. unfold py_pop. now rewrite unsnoc_app. Qed.

Lemma list_set_length {A} (l : list A) n x : length (list_set l n x) = length l.
Proof. revert n; induction l as [|a l IH]; intros [|n]; simpl; auto. Qed.

Lemma list_set_app_l {A} (l1 l2 : list A) n x :
  n < length l1 -> list_set (l1 ++ l2) n x = list_set l1 n x ++ l2.
Proof.
  revert n; induction l1 as [|a l1 IH]; intros n Hn; simpl in *; [lia|].
  destruct n; simpl; [reflexivity|]. f_equal. apply IH. lia.
Qed.

Lemma list_set_app_r {A} (l1 l2 : list A) n x :
  length l1 <= n -> list_set (l1 ++ l2) n x = l1 ++ list_set l2 (n - length l1) x.
Proof.
  revert n; induction l1 as [|a l1 IH]; intros n Hn; simpl in *; [now rewrite Nat.sub_0_r|].
  destruct n; [lia|]. simpl. f_equal. apply IH. lia.
Qed.

Lemma list_set_oob {A} (l : list A) n x : length l <= n -> list_set l n x = l.
Proof.
  revert n; induction l as [|a l IH]; intros [|n] Hn; simpl in *; auto; try lia.
  f_equal. apply IH. lia.
Qed.

Lemma py_set_length {A} (l : list A) i x l' : py_set l i x = Ok l' -> length l' = length l.
Proof.
  unfold py_set. set (j := if (i <? 0)%Z then _ else _). clearbody j.
  destruct (j <? 0)%Z; [discriminate|]. destruct (j <? Z.of_nat (length l))%Z; [|discriminate].
  intros E. injection E as <-. apply list_set_length.
Qed.

Lemma nth_error_list_set {A} (l : list A) n m x :
  nth_error (list_set l n x) m =
  if (m =? n) && (n <? length l) then Some x else nth_error l m.
Proof.
  revert n m; induction l as [|a l IH]; intros [|n] [|m]; simpl; auto.
  - now rewrite andb_false_r.
  - rewrite IH. reflexivity.
Qed.

Lemma nth_error_rev {A} (l : list A) n :
  n < length l -> nth_error (rev l) n = nth_error l (length l - 1 - n).
Proof.
  revert n; induction l as [|a l IH]; intros n Hn; simpl in *; [lia|].
  destruct (Nat.eq_dec n (length l)) as [->|Hne].
  - rewrite nth_error_app2; rewrite rev_length; [|lia].
    replace (length l - length l) with 0 by lia.
    replace (length l - 0 - length l) with 0 by lia. reflexivity.
  - rewrite nth_error_app1; [|rewrite rev_length; lia].
    rewrite IH by lia.
    replace (length l - 0 - n) with (S (length l - 1 - n)) by lia. reflexivity.
Qed.

Lemma nth_error_firstn' {A} (l : list A) n i : i < n -> nth_error (firstn n l) i = nth_error l i.
Proof.
  revert n i; induction l as [|a l IH]; intros [|n] [|i] H; simpl; auto; try lia.
  apply IH. lia.
Qed.

Lemma nth_error_skipn' {A} (l : list A) n i : nth_error (skipn n l) i = nth_error l (n + i).
Proof.
  revert n; induction l as [|a l IH]; intros [|n]; simpl; auto. now destruct i.
Qed.

Lemma list_ext {A} (l1 l2 : list A) :
  (forall n, nth_error l1 n = nth_error l2 n) -> l1 = l2.
Proof.
  revert l2; induction l1 as [|a l1 IH]; intros [|b l2] H; auto.
  - specialize (H 0). discriminate.
  - specialize (H 0). discriminate.
  - pose proof (H 0) as H0. simpl in H0. injection H0 as ->. f_equal.
    apply IH. intros n. exact (H (S n)).
Qed.

Lemma rev_list_set {A} (l : list A) n x :
  n < length l -> rev (list_set l n x) = list_set (rev l) (length l - 1 - n) x.
Proof.
  intros Hn. apply list_ext. intros m.
  rewrite nth_error_list_set, rev_length.
  destruct (le_lt_dec (length l) m) as [Hm|Hm].
  - rewrite (proj2 (nth_error_None _ _)) by (rewrite rev_length, list_set_length; lia).
    replace (m =? length l - 1 - n) with false by lia. cbn.
    symmetry. apply nth_error_None. rewrite rev_length. lia.
  - rewrite nth_error_rev by (rewrite list_set_length; lia).
    rewrite list_set_length, nth_error_list_set.
    rewrite nth_error_rev by lia.
    replace (length l - 1 - m =? n) with (m =? length l - 1 - n) by lia.
    replace (length l - 1 - n <? length l) with true by lia.
    replace (n <? length l) with true by lia. reflexivity.
Qed.

Lemma lastn_length {A} n (l : list A) : length (lastn n l) = Nat.min n (length l).
Proof. unfold lastn. rewrite skipn_length. lia. Qed.

Lemma lastn_all {A} n (l : list A) : length l <= n -> lastn n l = l.
Proof. intros H. unfold lastn. replace (length l - n) with 0 by lia. reflexivity. Qed.

Lemma lastn_cons {A} n a (l : list A) : n <= length l -> lastn n (a :: l) = lastn n l.
Proof. intros H. unfold lastn. simpl length. replace (S (length l) - n) with (S (length l - n)) by lia. reflexivity. Qed.

Lemma lastn_app {A} n (l1 l2 : list A) :
  lastn n (l1 ++ l2) = lastn (n - length l2) l1 ++ lastn n l2.
Proof.
  unfold lastn. rewrite app_length, skipn_app. f_equal.
  - destruct (le_lt_dec n (length l2)).
    + rewrite !skipn_all2 by lia. reflexivity.
    + f_equal. lia.
  - f_equal. lia.
Qed.

Lemma skipn_skipn' {A} p q (l : list A) : skipn p (skipn q l) = skipn (p + q) l.
Proof.
  revert l. induction q as [|q IH]; intros l.
  - now rewrite Nat.add_0_r.
  - destruct l as [|a l]; [now rewrite !skipn_nil|].
    rewrite Nat.add_succ_r. simpl. apply IH.
Qed.

Lemma lastn_lastn {A} n m (l : list A) : n <= m -> lastn n (lastn m l) = lastn n l.
Proof.
  intros H. unfold lastn. rewrite skipn_length, skipn_skipn'. f_equal. lia.
Qed.

Lemma lastn_lastn_app {A} n (l1 l2 : list A) : lastn n (lastn n l1 ++ l2) = lastn n (l1 ++ l2).
Proof.
  rewrite !lastn_app. f_equal. apply lastn_lastn. lia.
Qed.

Lemma trunc_length {A} ml (l : list A) :
  length (trunc ml l) = match ml with None => length l | Some m => Nat.min m (length l) end.
Proof. destruct ml; simpl; auto using lastn_length. Qed.

Lemma trunc_trunc_app {A} ml (l1 l2 : list A) : trunc ml (trunc ml l1 ++ l2) = trunc ml (l1 ++ l2).
Proof. destruct ml; simpl; auto using lastn_lastn_app. Qed.

Lemma trunc_idem {A} ml (l : list A) : trunc ml (trunc ml l) = trunc ml l.
Proof. destruct ml; simpl; auto using lastn_lastn. Qed.

Lemma run_app {S O R} (step : S -> O -> S * R) s o1 o2 :
  run step s (o1 ++ o2) =
  let (s1, r1) := run step s o1 in let (s2, r2) := run step s1 o2 in (s2, r1 ++ r2).
Proof.
  revert s. induction o1 as [|o o1 IH]; intros s; simpl.
  - now destruct (run step s o2).
  - destruct (step s o) as [s1 r]. rewrite IH.
    destruct (run step s1 o1) as [s2 rs]. now destruct (run step s2 o2).
Qed.

(** Refinement of state machines, lifted from one step to runs. *)
Lemma run_refine {S T O R} (cstep : S -> O -> S * R) (astep : T -> O -> T * R) (Rel : S -> T -> Prop) :
  (forall s t o, Rel s t ->
     snd (cstep s o) = snd (astep t o) /\ Rel (fst (cstep s o)) (fst (astep t o))) ->
  forall ops s t, Rel s t ->
     snd (run cstep s ops) = snd (run astep t ops) /\
     Rel (fst (run cstep s ops)) (fst (run astep t ops)).
Proof.
  intros Hstep ops. induction ops as [|o ops IH]; intros s t HR; simpl; [auto|].
  destruct (Hstep s t o HR) as [Ho HR'].
  destruct (cstep s o) as [s1 r1], (astep t o) as [t1 r2]. simpl in *.
  destruct (IH _ _ HR') as [Hr HR''].
  destruct (run cstep s1 ops), (run astep t1 ops). simpl in *. subst. auto.
Qed.

Lemma run_inv {S O R} (step : S -> O -> S * R) (I : S -> Prop) :
  (forall s o, I s -> I (fst (step s o))) ->
  forall ops s, I s -> I (fst (run step s ops)).
Proof.
  intros H ops. induction ops as [|o ops IH]; intros s Hs; simpl; [auto|].
  specialize (H s o Hs). destruct (step s o) as [s1 r]. simpl in H.
  specialize (IH _ H). destruct (run step s1 ops). exact IH.
Qed.

Lemma Forall2_len {A B} (P : A -> B -> Prop) l l' : Forall2 P l l' -> length l = length l'.
Proof. induction 1; cbn; congruence. Qed.
