(** C96: Boltzmann exploration. *)
From Coq Require Import Reals Lra Lia.
From Verif Require Import Base M_Batch P_Batch M_Boltzmann.
Open Scope R_scope.

(** Specification: action [i] has the weight exp(q_i / T), its probability is the share of its weight. *)
Definition weight (T : R) (q : R) : R := exp (q / T).
Fixpoint total (T : R) (row : list R) : R := match row with [] => 0 | q :: row => weight T q + total T row end.
Definition prob (T : R) (row : list R) (i : nat) : R := weight T (nth i row 0) / total T row.
Fixpoint probs_before (T : R) (row : list R) (i : nat) : R := match i with O => 0 | S i => probs_before T row i + prob T row i end.

Lemma weight_pos T q : 0 < weight T q. Proof. apply exp_pos. Qed.
Lemma total_nonneg T row : 0 <= total T row. Proof. induction row; cbn; [lra|]. pose proof (weight_pos T a). lra. Qed.
Lemma total_pos T row : row <> [] -> 0 < total T row.
Proof. destruct row; [congruence|]. intros _. cbn. pose proof (weight_pos T r). pose proof (total_nonneg T row). lra. Qed.
Lemma total_sum T row : sumR (map exp (map (fun q => q / T) row)) = total T row.
Proof. unfold sumR. induction row; cbn; [reflexivity|]. now rewrite IHrow. Qed.
Lemma prob_pos T row i : row <> [] -> 0 < prob T row i.
Proof. intros N. apply Rdiv_lt_0_compat; [apply weight_pos|now apply total_pos]. Qed.

Lemma softmax_nth T row : softmax (map (fun q => q / T) row) = map (prob T row) (seq 0 (length row)).
Proof.
  unfold softmax. rewrite total_sum, map_map. unfold prob, weight. generalize (total T row) as s. intros s.
  induction row as [|q row IH]; [reflexivity|]. cbn [map length seq nth]. f_equal. rewrite <- seq_shift, map_map. exact IH.
Qed.
Lemma cumsum_spec (g : nat -> R) : forall n k acc (before : nat -> R), (forall i, before (S i) = before i + g i) -> acc = before k ->
  cumsum acc (map g (seq k n)) = map before (seq (S k) n).
Proof. induction n; intros k acc before B E; [reflexivity|]. cbn [seq map cumsum]. rewrite E, <- B. f_equal. now apply IHn. Qed.

Lemma probs_before_S T row i : probs_before T row (S i) = probs_before T row i + prob T row i. Proof. reflexivity. Qed.
Lemma probs_mono T row i j : row <> [] -> (i <= j)%nat -> probs_before T row i <= probs_before T row j.
Proof. intros N H. induction H; [lra|]. cbn. pose proof (prob_pos T row m N). lra. Qed.
Lemma sum_to_total T : forall (row : list R) (s : R) k n (f : nat -> R), f 0%nat = 0 -> (forall i, f (S i) = f i + weight T (nth i row 0) / s) -> s <> 0 -> (k + n = length row)%nat -> f k + total T (skipn k row) / s = f (length row).
Proof.
  intros row s k n f F0 FS S. revert k. induction n; intros k E.
  - replace k with (length row) by lia. rewrite skipn_all. cbn. unfold Rdiv. ring.
  - rewrite <- (IHn (Datatypes.S k)) by lia. rewrite FS.
    assert (H : skipn k row = nth k row 0 :: skipn (Datatypes.S k) row).
    { assert (L : (k < length row)%nat) by lia. clear - L. revert k L. induction row; intros [|k] L; cbn in *; try lia; [reflexivity|]. rewrite IHrow by lia. destruct row; reflexivity. }
    rewrite H. cbn [total]. field. exact S.
Qed.
Lemma probs_total T row : row <> [] -> probs_before T row (length row) = 1.
Proof.
  intros N. pose proof (total_pos T row N) as P.
  rewrite <- (sum_to_total T row (total T row) 0 (length row) (probs_before T row)); [|reflexivity|reflexivity|lra|lia]. cbn. field. lra.
Qed.

Lemma count_interval (before : nat -> R) u n : forall k i,
  (forall a b, (a <= b)%nat -> before a <= before b) -> (k <= i)%nat -> (i < k + n)%nat -> before i <= u < before (S i) ->
  length (filter (fun c => if Rle_dec c u then true else false) (map before (seq (S k) n))) = (i - k)%nat.
Proof.
  induction n; intros k i M K I U; [lia|]. cbn [seq map filter]. destruct (Rle_dec (before (S k)) u) as [H|H].
  - assert (S k <= i)%nat. { destruct (Nat.le_gt_cases (S k) i); [assumption|]. assert (i = k) by lia. subst. lra. }
    cbn [length]. rewrite (IHn (S k) i) by (auto; lia). lia.
  - assert (i = k). { destruct (Nat.eq_dec i k); [assumption|]. assert (before (S k) <= before i) by (apply M; lia). lra. } subst i.
    rewrite Nat.sub_diag. assert (Z : forall m j, (k <= j)%nat -> filter (fun c => if Rle_dec c u then true else false) (map before (seq (S j) m)) = []).
    { induction m; intros j J; [reflexivity|]. cbn [seq map filter]. destruct (Rle_dec (before (S j)) u) as [Q|Q]; [|apply IHm; lia].
      assert (before (S k) <= before (S j)) by (apply M; lia). lra. }
    rewrite (Z n (S k)) by lia. reflexivity.
Qed.
Lemma find_interval (before : nat -> R) u : forall n, before 0%nat <= u -> u < before n -> exists i, (i < n)%nat /\ before i <= u < before (S i).
Proof.
  induction n; intros L H; [lra|]. destruct (Rlt_dec u (before n)) as [Q|Q].
  - destruct (IHn L Q) as (i & I & J). exists i. split; [lia|exact J].
  - exists n. split; [lia|]. lra.
Qed.

Lemma select_count T row u : row <> [] -> T <> 0 ->
  select_action T (Discrete [row]) u = Ok (length (filter (fun c => if Rle_dec c u then true else false) (map (probs_before T row) (seq 1 (length row))))).
Proof.
  intros N TN. unfold select_action. destruct (Req_EM_T T 0) as [|_]; [contradiction|]. cbn [map concat]. rewrite app_nil_r. unfold choice.
  rewrite softmax_nth. rewrite map_length, seq_length, Nat.eqb_refl.
  rewrite (cumsum_spec (prob T row) (length row) 0 0 (probs_before T row) (probs_before_S T row) eq_refl).
  assert (LST : last (map (probs_before T row) (seq 1 (length row))) 0 = 1).
  { rewrite <- (probs_total T row N). destruct row as [|r row]; [congruence|]. cbn [length]. rewrite seq_S, map_app. apply last_last. }
  rewrite LST. unfold searchsorted_right. do 2 f_equal. f_equal. rewrite map_map. apply map_ext. intros i. unfold Rdiv. lra.
Qed.

(** For a uniform sample of [0, 1), action [i] is selected exactly if the sample lies in an interval inside [0, 1] whose length is the Boltzmann
    probability of [i]; the lengths add up to 1, every sample selects one of the actions. *)
Theorem C96_law_partial T row : row <> [] -> T <> 0 ->
  (forall u, 0 <= u < 1 -> exists i, (i < length row)%nat /\ select_action T (Discrete [row]) u = Ok i) /\
  (forall i, (i < length row)%nat -> exists lo, 0 <= lo /\ lo + prob T row i <= 1 /\
     forall u, 0 <= u < 1 -> (select_action T (Discrete [row]) u = Ok i <-> lo <= u < lo + prob T row i)).
Proof.
  intros N TN.
  assert (M : forall a b, (a <= b)%nat -> probs_before T row a <= probs_before T row b) by (intros; now apply probs_mono).
  assert (E : forall u i, (i < length row)%nat -> probs_before T row i <= u < probs_before T row (S i) -> select_action T (Discrete [row]) u = Ok i).
  { intros u i I U. rewrite select_count by assumption. rewrite (count_interval (probs_before T row) u (length row) 0 i M) by (assumption || lia). now rewrite Nat.sub_0_r. }
  assert (F : forall u, 0 <= u < 1 -> exists i, (i < length row)%nat /\ probs_before T row i <= u < probs_before T row (S i)).
  { intros u U. apply find_interval; [cbn; lra|]. rewrite probs_total by assumption. lra. }
  split.
  - intros u U. destruct (F u U) as (i & I & J). exists i. split; [exact I|]. now apply E.
  - intros i I. exists (probs_before T row i). rewrite <- probs_before_S. split; [apply (M 0%nat i); lia|]. split; [rewrite <- (probs_total T row N); apply M; lia|].
    intros u U. split; [|now apply E]. intros S. destruct (F u U) as (j & J & K). rewrite (E u j J K) in S. injection S as ->. exact K.
Qed.

(** What the probabilities mean: actions are weighted by exp of their difference in value over T; for T > 0 a better action is at least as
    likely, an action whose value is lower by [gap] than another has a probability of at most exp(-gap / T), and every action keeps a
    probability of at least exp(-spread / T) / n. *)
Theorem C96_temperature T row i j : (i < length row)%nat -> (j < length row)%nat -> T <> 0 ->
  prob T row i = exp ((nth i row 0 - nth j row 0) / T) * prob T row j /\
  (0 < T -> nth j row 0 <= nth i row 0 -> prob T row j <= prob T row i) /\
  (forall gap, 0 < T -> nth j row 0 + gap <= nth i row 0 -> prob T row j <= exp (- gap / T)) /\
  (forall spread, 0 < T -> (forall k, (k < length row)%nat -> nth k row 0 - nth i row 0 <= spread) -> exp (- spread / T) / INR (length row) <= prob T row i).
Proof.
  intros I J TN. assert (N : row <> []) by (destruct row; [cbn in I; lia|discriminate]). pose proof (total_pos T row N) as P.
  assert (RR : prob T row i = exp ((nth i row 0 - nth j row 0) / T) * prob T row j).
  { unfold prob, weight. replace (nth i row 0 / T) with ((nth i row 0 - nth j row 0) / T + nth j row 0 / T) by (field; exact TN). rewrite exp_plus. field. lra. }
  assert (MON : forall x y, x <= y -> exp x <= exp y).
  { intros x y [H | ->]; [left; now apply exp_increasing|lra]. }
  assert (LE1 : forall k, (k < length row)%nat -> prob T row k <= 1).
  { intros k K. rewrite <- (probs_total T row N). apply Rle_trans with (probs_before T row (S k)); [cbn [probs_before]; pose proof (probs_mono T row 0 k N ltac:(lia)); cbn in *; lra|]. apply probs_mono; [assumption|lia]. }
  split; [exact RR|]. repeat split.
  - intros TP H. unfold prob, Rdiv. apply Rmult_le_compat_r; [left; now apply Rinv_0_lt_compat|]. apply MON. apply Rmult_le_compat_r; [left; now apply Rinv_0_lt_compat|exact H].
  - intros gap TP H. assert (Q : prob T row j = exp ((nth j row 0 - nth i row 0) / T) * prob T row i).
    { rewrite RR, <- Rmult_assoc, <- exp_plus. replace ((nth j row 0 - nth i row 0) / T + (nth i row 0 - nth j row 0) / T) with 0 by (field; exact TN). rewrite exp_0. ring. }
    rewrite Q. apply Rle_trans with (exp ((nth j row 0 - nth i row 0) / T) * 1); [apply Rmult_le_compat_l; [left; apply exp_pos|now apply LE1]|]. rewrite Rmult_1_r. apply MON.
    apply Rmult_le_compat_r; [left; now apply Rinv_0_lt_compat|lra].
  - intros spread TP H.
    assert (B : forall l : list R, (forall q, In q l -> q - nth i row 0 <= spread) -> total T l <= INR (length l) * (weight T (nth i row 0) * exp (spread / T))).
    { induction l as [|q l IH]; intros A; [cbn; lra|]. cbn [total length]. rewrite S_INR.
      assert (weight T q <= weight T (nth i row 0) * exp (spread / T)).
      { unfold weight. rewrite <- exp_plus. apply MON. unfold Rdiv. rewrite <- Rmult_plus_distr_r. apply Rmult_le_compat_r; [left; now apply Rinv_0_lt_compat|]. specialize (A q (or_introl eq_refl)). lra. }
      specialize (IH (fun q' h => A q' (or_intror h))). lra. }
    specialize (B row). assert (A : forall q, In q row -> q - nth i row 0 <= spread). { intros q Q. destruct (In_nth row q 0 Q) as (k & K & <-). now apply H. }
    specialize (B A). assert (LN : 0 < INR (length row)) by (apply lt_0_INR; lia).
    replace (- spread / T) with (- (spread / T)) by (field; exact TN). rewrite exp_Ropp. unfold prob.
    pose proof (exp_pos (spread / T)) as EP. pose proof (weight_pos T (nth i row 0)) as WP.
    apply (Rmult_le_reg_r (total T row)); [exact P|]. replace (weight T (nth i row 0) / total T row * total T row) with (weight T (nth i row 0)) by (field; lra).
    apply (Rmult_le_reg_r (INR (length row) * exp (spread / T))); [now apply Rmult_lt_0_compat|].
    replace (/ exp (spread / T) / INR (length row) * total T row * (INR (length row) * exp (spread / T))) with (total T row) by (field; split; lra). lra.
Qed.

(** In a batch, the action of observation [i] is drawn from the values of observation [i], with its own sample. *)
Theorem C96_batch_partial T rows (us : list R) : length us = length rows -> Forall (fun r => r <> []) rows -> T <> 0 ->
  exists acts, batch_explore T (Discrete rows) us = Ok acts /\ length acts = length rows /\
    forall i row u, nth_error rows i = Some row -> nth_error us i = Some u -> exists a, nth_error acts i = Some a /\ select_action T (Discrete [row]) u = Ok a.
Proof.
  intros L NE TN. unfold batch_explore, av_slice.
  assert (S1 : forall i row, nth_error rows i = Some row -> firstn 1 (skipn i rows) = [row]).
  { clear. induction rows as [|r rows IH]; intros [|i] row H; try discriminate; [injection H as ->; reflexivity|]. cbn [skipn]. now apply IH. }
  assert (OKR : forall row u, row <> [] -> exists a, select_action T (Discrete [row]) u = Ok a) by (intros; rewrite select_count by assumption; eauto).
  assert (G : forall us k, (k + length us = length rows)%nat -> exists acts,
     rmapM (fun p => select_action T (Discrete (firstn 1 (skipn (fst p) rows))) (snd p)) (combine (seq k (length us)) us) = Ok acts /\ length acts = length us /\
     forall i row u, nth_error rows (k + i) = Some row -> nth_error us i = Some u -> exists a, nth_error acts i = Some a /\ select_action T (Discrete [row]) u = Ok a).
  { clear us L. induction us as [|u us IH]; intros k K.
    - exists []. split; [reflexivity|]. split; [reflexivity|]. intros [|i] row u _ H; discriminate.
    - cbn [length] in K. destruct (nth_error rows k) as [row|] eqn:E; [|apply nth_error_None in E; lia].
      assert (NR : row <> []) by (rewrite Forall_forall in NE; apply NE; apply nth_error_In in E; exact E).
      destruct (OKR row u NR) as (a & A). destruct (IH (S k) ltac:(lia)) as (acts & R & LA & SP). exists (a :: acts).
      cbn [length seq combine rmapM fst snd]. rewrite (S1 k row E), A. cbn [rbind]. rewrite R. split; [reflexivity|]. split; [cbn; lia|].
      intros [|i] row' u' H U.
      + rewrite Nat.add_0_r, E in H. injection H as <-. injection U as <-. exists a. split; [reflexivity|exact A].
      + cbn in U. apply (SP i row' u'); [now replace (S k + i)%nat with (k + S i)%nat by lia|exact U]. }
  destruct (G us 0%nat L) as (acts & R & LA & SP). exists acts. split; [exact R|]. split; [lia|]. exact SP.
Qed.

(** False for agents with a distributional value function (CategoricalDQN, CategoricalDoubleDQN): no action is selected at all, although the
    action value has the q_values needed.  The same holds for agents that pass no action value (DDPG, TD3, SoftActorCritic). *)
Theorem C96_every_discrete_agent_refuted : exists T rows, T <> 0 /\ rows <> [] /\ Forall (fun r => r <> []) rows /\
  forall u, select_action T (Distributional rows) u = Err AssertionError /\ batch_explore T (Distributional rows) [u] = Err AssertionError.
Proof. exists 1, [[1; 2]]. repeat split; try lra; try discriminate. repeat constructor. discriminate. Qed.

(** Two actions with values 0 and 1 at temperature 1: the better one has odds e : 1. *)
Example C96_ex : prob 1 [0; 1] 1 = exp 1 * prob 1 [0; 1] 0 /\ select_action 1 (Discrete [[0; 1]]) 0 = Ok 0%nat /\ select_action 0 (Discrete [[0; 1]]) 0 = Err ValueError.
Proof.
  assert (N : [0; 1] <> []) by discriminate. split; [|split].
  - destruct (C96_temperature 1 [0; 1] 1 0) as (H & _); [cbn; lia|cbn; lia|lra|]. rewrite H. cbn [nth]. do 2 f_equal. field.
  - rewrite select_count by (discriminate || lra). f_equal. etransitivity; [apply (count_interval (probs_before 1 [0; 1]) 0 2 0 0)|]; [intros; now apply probs_mono|lia|lia| |reflexivity].
    cbn [probs_before]. pose proof (prob_pos 1 [0; 1] 0 N). lra.
  - unfold select_action. destruct (Req_EM_T 0 0); [reflexivity|congruence].
Qed.
Print Assumptions C96_law_partial.
Print Assumptions C96_temperature.
Print Assumptions C96_batch_partial.
Print Assumptions C96_every_discrete_agent_refuted.
