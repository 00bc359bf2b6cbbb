From Coq Require Import QArith Permutation.
From Verif Require Import Base P_Base M_Batch P_Batch M_Recurrent S_Recurrent P_Recurrent M_PPO M_PPOData S_PPOData.
Close Scope Q_scope.

(** ** Sorting *)
Lemma insert_perm {X} (x : list X) l : Permutation (insert_desc x l) (x :: l).
Proof. induction l as [|y l IH]; [reflexivity|]. cbn. destruct (length y <=? length x); [reflexivity|]. rewrite IH. apply perm_swap. Qed.
Lemma sort_perm {X} (l : list (list X)) : Permutation (sort_desc l) l.
Proof. induction l as [|x l IH]; [reflexivity|]. cbn. rewrite insert_perm. now constructor. Qed.
Lemma insert_sorted {X} (x : list X) l : sorted_desc l = true -> sorted_desc (insert_desc x l) = true.
Proof.
  induction l as [|y l IH]; intros H; [reflexivity|]. cbn [insert_desc]. destruct (length y <=? length x) eqn:E.
  - cbn [sorted_desc]. rewrite E. exact H.
  - assert (H' := H). apply sorted_cons in H'. destruct H' as [H1 H2]. specialize (IH H1).
    destruct l as [|z l]; cbn [insert_desc] in *.
    + cbn. rewrite andb_true_r. apply Nat.leb_le. apply Nat.leb_gt in E. lia.
    + destruct (length z <=? length x) eqn:E2.
      * cbn [sorted_desc] in *. rewrite IH, andb_true_r. apply Nat.leb_le. apply Nat.leb_gt in E. lia.
      * cbn [sorted_desc] in *. rewrite andb_true_iff in H. destruct H as [H _]. rewrite H. exact IH.
Qed.
Lemma sort_sorted {X} (l : list (list X)) : sorted_desc (sort_desc l) = true.
Proof. induction l as [|x l IH]; [reflexivity|]. cbn. now apply insert_sorted. Qed.

(** ** Places depend on lengths only *)
Lemma n_longer_len {X Y} (l : list (list X)) (l' : list (list Y)) t : map (@length _) l = map (@length _) l' -> n_longer l t = n_longer l' t.
Proof.
  unfold n_longer. revert l'. induction l as [|a l IH]; intros [|b l'] H; try discriminate; [reflexivity|]. cbn [map] in H. injection H as H1 H2.
  cbn [filter]. rewrite H1. destruct (t <? length b); cbn [length]; rewrite (IH l' H2); reflexivity.
Qed.
Lemma place_len {X Y} (l : list (list X)) (l' : list (list Y)) t j : map (@length _) l = map (@length _) l' -> place l t j = place l' t j.
Proof.
  intros H. unfold place. f_equal.
  - f_equal. apply map_ext. intros k. now apply n_longer_len.
  - apply n_longer_len. rewrite <- !firstn_map. now rewrite H.
Qed.
Lemma sorted_len {X Y} (l : list (list X)) (l' : list (list Y)) : map (@length _) l = map (@length _) l' -> sorted_desc l = sorted_desc l'.
Proof.
  revert l'. induction l as [|a l IH]; intros [|b l'] H; try discriminate; [reflexivity|]. cbn [map] in H. injection H as H1 H2. specialize (IH l' H2).
  destruct l as [|c l], l' as [|d l']; try discriminate; [reflexivity|]. cbn [sorted_desc] in *. rewrite IH. cbn in H2. injection H2 as H2 _. now rewrite H1, H2.
Qed.

(** ** Writing rows *)
Section Write.
Context {Ob Act HS : Type}.
Lemma write_all_other : forall rows (heap : list (ptr Ob Act HS)) a, ~ In a (map fst rows) -> nth_error (write_all heap rows) a = nth_error heap a.
Proof.
  induction rows as [|[b [lp [v nv]]] rows IH]; intros heap a H; [reflexivity|]. cbn [write_all]. rewrite IH by (intros C; apply H; right; exact C).
  destruct (nth_error heap b) eqn:E; [|reflexivity]. rewrite nth_error_list_set. cbn in H. destruct (a =? b) eqn:E2; [|reflexivity].
  apply Nat.eqb_eq in E2. subst. tauto.
Qed.
Lemma write_all_length : forall rows (heap : list (ptr Ob Act HS)), length (write_all heap rows) = length heap.
Proof.
  induction rows as [|[b [lp [v nv]]] rows IH]; intros heap; [reflexivity|]. cbn [write_all]. rewrite IH.
  destruct (nth_error heap b); [apply list_set_length|reflexivity].
Qed.
Lemma write_all_at : forall rows (heap : list (ptr Ob Act HS)) k a lp v nv x, NoDup (map fst rows) -> nth_error rows k = Some (a, (lp, (v, nv))) ->
  nth_error heap a = Some x -> nth_error (write_all heap rows) a = Some (annotate x lp v nv).
Proof.
  induction rows as [|[b [lp0 [v0 nv0]]] rows IH]; intros heap k a lp v nv x N E H; [destruct k; discriminate|].
  cbn [map fst] in N. inversion N as [|? ? N1 N2]; subst. destruct k as [|k]; cbn in E.
  - injection E as -> -> -> ->. cbn [write_all]. rewrite H. rewrite write_all_other by exact N1. rewrite nth_error_list_set, Nat.eqb_refl.
    assert (a < length heap) by (apply nth_error_Some; congruence). replace (a <? length heap) with true by (symmetry; now apply Nat.ltb_lt). reflexivity.
  - cbn [write_all]. eapply IH; eauto. destruct (nth_error heap b) eqn:E2; [|exact H]. rewrite nth_error_list_set.
    destruct (a =? b) eqn:E3; [|exact H]. apply Nat.eqb_eq in E3. subst b. exfalso. apply N1. 
    apply nth_error_In in E. apply (in_map fst) in E. exact E.
Qed.
Lemma deref_all (heap : list (ptr Ob Act HS)) refs : Forall (fun a => a < length heap) refs -> exists xs, rmapM (deref heap) refs = Ok xs /\ contents heap refs xs.
Proof.
  induction 1 as [|a refs H _ (xs & E & C)]; [exists []; split; [reflexivity|constructor]|].
  destruct (nth_error heap a) as [x|] eqn:N; [|apply nth_error_None in N; lia]. exists (x :: xs). cbn [rmapM]. unfold deref at 1. rewrite N. cbn. rewrite E. split; [reflexivity|].
  constructor; auto.
Qed.
Lemma deref_alls (heap : list (ptr Ob Act HS)) eps : Forall (fun a => a < length heap) (concat eps) ->
  exists xss, rmapM (rmapM (deref heap)) eps = Ok xss /\ Forall2 (contents heap) eps xss.
Proof.
  induction eps as [|refs eps IH]; intros H; [exists []; split; [reflexivity|constructor]|]. cbn [concat] in H. apply Forall_app in H. destruct H as [H1 H2].
  destruct (deref_all heap refs H1) as (xs & E & C). destruct (IH H2) as (xss & E2 & C2). exists (xs :: xss). cbn [rmapM]. rewrite E. cbn. rewrite E2. split; [reflexivity|now constructor].
Qed.
Lemma Forall2_len {A B} (R : A -> B -> Prop) l l' : Forall2 R l l' -> length l = length l'.
Proof. induction 1; cbn; congruence. Qed.
Lemma Forall2_nth {A B} (R : A -> B -> Prop) l l' : Forall2 R l l' -> forall k a, nth_error l k = Some a -> exists b, nth_error l' k = Some b /\ R a b.
Proof.
  induction 1 as [|x y l l' H _ IH]; intros [|k] c E; cbn in E; try discriminate; [injection E as <-; exists y; auto|]. cbn. exact (IH k c E).
Qed.
End Write.

Lemma combine_nth_error {A B} (l : list A) (l' : list B) k a b : nth_error l k = Some a -> nth_error l' k = Some b -> nth_error (combine l l') k = Some (a, b).
Proof. revert l' k. induction l as [|x l IH]; intros [|y l'] [|k] H1 H2; cbn in *; try discriminate; [congruence|auto]. Qed.
Lemma map_fst_combine {A B} (l : list A) (l' : list B) : length l = length l' -> map fst (combine l l') = l.
Proof. revert l'. induction l as [|x l IH]; intros [|y l'] H; try discriminate; [reflexivity|]. cbn. f_equal. apply IH. now injection H. Qed.

(** ** Running the model *)
Section Run.
Context {Ob Act F Dist HS : Type} (step : F -> HS -> (Dist * Q) * HS) (h0 : HS).
Lemma run_length : forall xs h, length (rnn_run step h xs) = length xs.
Proof. induction xs as [|x xs IH]; intros h; [reflexivity|]. cbn. destruct (step x h). cbn. now rewrite IH. Qed.
Lemma run_nth : forall xs h t, nth_error (rnn_run step h xs) t = output_at step h xs t.
Proof.
  induction xs as [|x xs IH]; intros h [|t]; try reflexivity.
  - cbn. unfold output_at. cbn. destruct (step x h). reflexivity.
  - cbn [rnn_run]. destruct (step x h) as [y h'] eqn:E. cbn [nth_error]. rewrite IH. unfold output_at. cbn [nth_error firstn].
    destruct (nth_error xs t); [|reflexivity]. unfold hidden_after. cbn [fold_left]. rewrite E. reflexivity.
Qed.

Lemma forward_ok (seqs : list (list F)) rs : seqs <> [] -> Forall (fun s => s <> []) seqs -> sorted_desc seqs = true -> length rs = length seqs ->
  exists outs, pack_and_forward step h0 seqs rs = Ok outs /\ length outs = length (concat seqs) /\
    forall j t xs r y, nth_error seqs j = Some xs -> nth_error rs j = Some r -> output_at step (hid h0 r) xs t = Some y -> nth_error outs (place seqs t j) = Some y.
Proof.
  intros H1 H2 H3 H4. unfold pack_and_forward. destruct (pack_flatten seqs H1 H2 H3) as (p & E & _). rewrite E. cbn [rbind].
  set (ys := map _ (combine rs seqs)).
  assert (L : map (@length _) ys = map (@length _) seqs).
  { unfold ys. rewrite map_map. clear - H4. revert rs H4. induction seqs as [|s seqs IH]; intros [|r rs] H; try discriminate; [reflexivity|].
    cbn. rewrite run_length. f_equal. apply IH. now injection H. }
  destruct (pack_flatten ys) as (p' & E' & D & _).
  - intros C. rewrite C in L. destruct seqs; [congruence|discriminate].
  - apply Forall_forall. intros s Hs C. subst s. apply In_nth_error in Hs. destruct Hs as (k & Hk).
    assert (X : nth_error (map (@length _) seqs) k = Some 0) by (rewrite <- L; apply (map_nth_error (@length _)) in Hk; exact Hk).
    rewrite nth_error_map in X. destruct (nth_error seqs k) as [s|] eqn:K; [|discriminate]. injection X as X. rewrite Forall_forall in H2.
    apply nth_error_In in K. specialize (H2 s K). destruct s; [congruence|discriminate].
  - rewrite (sorted_len ys seqs L). exact H3.
  - rewrite E'. cbn [rbind]. exists (p_data p'). split; [reflexivity|]. rewrite D. split.
    + rewrite (Permutation_length (flatten_perm_some ys)). 
      assert (G : forall A (l : list (list A)), length (concat l) = list_sum (map (@length _) l)).
      { intros A l. induction l as [|a l IH]; [reflexivity|]. cbn [concat map]. rewrite app_length, IH. reflexivity. }
      rewrite !G, L. reflexivity.
    + intros j t xs r y Hj Hr Hy. rewrite (place_len seqs ys t j) by (symmetry; exact L). eapply flatten_place; [|rewrite run_nth; exact Hy].
      unfold ys. rewrite nth_error_map, (combine_nth_error rs seqs j r xs Hr Hj). reflexivity.
Qed.
End Run.
