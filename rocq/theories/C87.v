(** C87: the quadratic Q-function's matrix is positive definite and, with scale_mu, its greedy action is the maximiser. *)
From Coq Require Import QArith Qminmax Lqa Qfield FinFun.
From Verif Require Import Base P_Base Vec M_Quadratic S_Quadratic C44 M_QuadHead.
Open Scope Q_scope.

Lemma NoDup_app_intro {A} (a b : list A) : NoDup a -> NoDup b -> (forall x, In x a -> ~ In x b) -> NoDup (a ++ b).
Proof.
  induction a as [|x a IH]; intros Ha Hb D; [exact Hb|]. inversion Ha as [|? ? H1 H2]; subst. cbn [app]. constructor.
  - intros H. apply in_app_or in H. destruct H as [H|H]; [contradiction|]. apply (D x); [now left|exact H].
  - apply IH; auto. intros y Hy. apply D. now right.
Qed.
Lemma list_set_len {A} (l : list A) n x : length (list_set l n x) = length l.
Proof. revert n. induction l as [|y l IH]; intros [|n]; cbn; auto. Qed.
Lemma nth_list_set_eq {A} (l : list A) n x d : (n < length l)%nat -> nth n (list_set l n x) d = x.
Proof. revert n. induction l as [|y l IH]; intros [|n] H; cbn in *; try lia; [reflexivity|]. apply IH. lia. Qed.
Lemma nth_list_set_neq {A} (l : list A) n m x d : n <> m -> nth m (list_set l n x) d = nth m l d.
Proof. revert n m. induction l as [|y l IH]; intros [|n] [|m] H; cbn; try congruence; try reflexivity. apply IH. congruence. Qed.

(** Where the k-th value of [non_diag] goes: row by row below the diagonal. *)
Definition below (i j : nat) : nat := (i * (i - 1) / 2 + j)%nat.

Lemma tri_S n : (S n * (S n - 1) / 2 = n * (n - 1) / 2 + n)%nat.
Proof.
  replace (S n * (S n - 1))%nat with (n * (n - 1) + n * 2)%nat by (destruct n; cbn; lia). rewrite Nat.div_add by lia. reflexivity.
Qed.
Lemma tril_S n : tril_indices (S n) = tril_indices n ++ map (fun j => (n, j)) (seq 0 n).
Proof. unfold tril_indices. rewrite seq_S, flat_map_app. cbn [flat_map Nat.add]. now rewrite app_nil_r. Qed.
Lemma tril_length n : length (tril_indices n) = (n * (n - 1) / 2)%nat.
Proof. induction n as [|n IH]; [reflexivity|]. rewrite tril_S, app_length, map_length, seq_length, IH. symmetry. apply tri_S. Qed.
Lemma tril_nth n i j : (i < n)%nat -> (j < i)%nat -> nth_error (tril_indices n) (below i j) = Some (i, j).
Proof.
  induction n as [|n IH]; intros Hi Hj; [lia|]. rewrite tril_S. destruct (Nat.eq_dec i n) as [->|N].
  - rewrite nth_error_app2 by (rewrite tril_length; unfold below; lia). rewrite tril_length. unfold below.
    replace (n * (n - 1) / 2 + j - n * (n - 1) / 2)%nat with j by lia.
    apply map_nth_error with (f := fun j => (n, j)). rewrite nth_error_nth' with (d := 0%nat) by (rewrite seq_length; exact Hj).
    rewrite seq_nth by exact Hj. reflexivity.
  - rewrite nth_error_app1; [apply IH; lia|]. apply nth_error_Some. rewrite IH by lia. discriminate.
Qed.
Lemma tril_in n i j : In (i, j) (tril_indices n) <-> (i < n /\ j < i)%nat.
Proof.
  unfold tril_indices. rewrite in_flat_map. split.
  - intros (x & Hx & H). apply in_map_iff in H. destruct H as (y & E & Hy). injection E as <- <-. apply in_seq in Hx, Hy. lia.
  - intros (A & B). exists i. split; [apply in_seq; lia|]. apply in_map. apply in_seq. lia.
Qed.
Lemma tril_nodup n : NoDup (tril_indices n).
Proof.
  induction n as [|n IH]; [constructor|]. rewrite tril_S. apply NoDup_app_intro; [exact IH| |].
  - apply FinFun.Injective_map_NoDup; [|apply seq_NoDup]. intros a b E. now injection E.
  - intros [i j] H K. apply tril_in in H. apply in_map_iff in K. destruct K as (y & E & _). injection E as <- _. lia.
Qed.
Lemma diag_in n i j : In (i, j) (diag_indices n) <-> (i = j /\ i < n)%nat.
Proof.
  unfold diag_indices. rewrite in_map_iff. split.
  - intros (x & E & H). injection E as <- <-. apply in_seq in H. lia.
  - intros (<- & H). exists i. split; [reflexivity|]. apply in_seq. lia.
Qed.
Lemma diag_nodup n : NoDup (diag_indices n).
Proof. apply FinFun.Injective_map_NoDup; [|apply seq_NoDup]. intros a b E. now injection E. Qed.
Lemma diag_nth n i : (i < n)%nat -> nth_error (diag_indices n) i = Some (i, i).
Proof.
  intros H. unfold diag_indices. apply map_nth_error with (f := fun i => (i, i)). rewrite nth_error_nth' with (d := 0%nat) by (rewrite seq_length; exact H).
  rewrite seq_nth by exact H. reflexivity.
Qed.
Lemma diag_length n : length (diag_indices n) = n.
Proof. unfold diag_indices. now rewrite map_length, seq_length. Qed.

Lemma set_at_square n m ij x : square n m -> (fst ij < n)%nat -> square n (set_at m ij x).
Proof.
  intros [L F] H. unfold set_at. split; [now rewrite list_set_len|]. rewrite Forall_forall in *. intros r Hr.
  apply In_nth with (d := []) in Hr. destruct Hr as (k & Hk & <-). rewrite list_set_len in Hk. destruct (Nat.eq_dec (fst ij) k) as [<-|N].
  - rewrite nth_list_set_eq by lia. rewrite list_set_len. apply F. apply nth_In. lia.
  - rewrite nth_list_set_neq by exact N. apply F. apply nth_In. exact Hk.
Qed.
Lemma entry_set n m i j x a b : square n m -> (i < n)%nat -> (j < n)%nat ->
  entry (set_at m (i, j) x) a b = if ((a =? i) && (b =? j))%nat then x else entry m a b.
Proof.
  intros [L F] Hi Hj. unfold entry, set_at. cbn [fst snd].
  assert (Lr : length (nth i m []) = n) by (rewrite Forall_forall in F; apply F, nth_In; lia).
  destruct (Nat.eqb_spec a i) as [->|N].
  - rewrite nth_list_set_eq by lia. cbn [andb]. destruct (Nat.eqb_spec b j) as [->|N].
    + apply nth_list_set_eq. lia.
    + apply nth_list_set_neq. congruence.
  - rewrite nth_list_set_neq by congruence. reflexivity.
Qed.
Lemma entry_set_all n : forall idx vals m, square n m -> length vals = length idx -> NoDup idx ->
  Forall (fun ij => fst ij < n /\ snd ij < n)%nat idx ->
  square n (set_all m idx vals)
  /\ (forall k a b, nth_error idx k = Some (a, b) -> entry (set_all m idx vals) a b = nth k vals 0)
  /\ (forall a b, ~ In (a, b) idx -> entry (set_all m idx vals) a b = entry m a b).
Proof.
  induction idx as [|[i j] idx IH]; intros [|x vals] m S L N F; cbn [length] in L; try discriminate.
  - cbn [set_all]. split; [exact S|]. split; [intros [|k] a b H; discriminate|reflexivity].
  - inversion N as [|? ? N1 N2]; subst. inversion F as [|? ? [F1 F2] F3]; subst. cbn [fst snd] in *. cbn [set_all].
    destruct (IH vals (set_at m (i, j) x)) as (S' & A & B); auto; [now apply set_at_square|].
    split; [exact S'|]. split.
    + intros [|k] a b H; cbn [nth_error nth] in *.
      * injection H as <- <-. rewrite B by exact N1. rewrite (entry_set n) by assumption. now rewrite !Nat.eqb_refl.
      * eapply A. exact H.
    + intros a b H. rewrite B by (intros K; apply H; now right). rewrite (entry_set n) by assumption.
      destruct (Nat.eqb_spec a i) as [->|Na]; [|reflexivity]. destruct (Nat.eqb_spec b j) as [->|Nb]; [|reflexivity].
      exfalso. apply H. now left.
Qed.

(** lower_triangular_matrix puts [diag] on the diagonal, [non_diag] row by row below it and zeros above. *)
Theorem C87_layout : forall diag non_diag, length non_diag = (length diag * (length diag - 1) / 2)%nat ->
  exists m, lower_triangular_matrix diag non_diag = Ok m /\ square (length diag) m
  /\ forall i j, (i < length diag)%nat -> (j < length diag)%nat ->
       entry m i j = match Nat.compare j i with
                     | Eq => nth i diag 0
                     | Lt => nth (below i j) non_diag 0
                     | Gt => 0
                     end.
Proof.
  intros diag nd L. set (n := length diag) in *. unfold lower_triangular_matrix. fold n. unfold assign. rewrite tril_length, L, Nat.eqb_refl. cbn [rbind].
  rewrite diag_length. fold n. rewrite Nat.eqb_refl.
  assert (S0 : square n (repeat (repeat 0 n) n)).
  { split; [apply repeat_length|]. apply Forall_forall. intros r Hr. apply repeat_spec in Hr. subst r. apply repeat_length. }
  assert (E0 : forall i j, entry (repeat (repeat 0 n) n) i j = 0).
  { intros i j. unfold entry, vec in *. destruct (nth_in_or_default i (repeat (repeat 0 n) n) []) as [H|H].
    - apply repeat_spec in H. rewrite H. cbv beta. destruct (nth_in_or_default j (repeat 0 n) 0) as [K|K]; [|exact K]. now apply repeat_spec in K.
    - rewrite H. destruct j; reflexivity. }
  destruct (entry_set_all n (tril_indices n) nd _ S0) as (S1 & A1 & B1).
  { now rewrite tril_length. }
  { apply tril_nodup. }
  { apply Forall_forall. intros [i j] H. apply tril_in in H. cbn. lia. }
  destruct (entry_set_all n (diag_indices n) diag _ S1) as (S2 & A2 & B2).
  { now rewrite diag_length. }
  { apply diag_nodup. }
  { apply Forall_forall. intros [i j] H. apply diag_in in H. cbn. lia. }
  eexists. split; [reflexivity|]. split; [exact S2|]. intros i j Hi Hj. destruct (Nat.compare_spec j i) as [->|H|H].
  - apply A2. apply diag_nth. exact Hi.
  - rewrite B2 by (rewrite diag_in; lia). apply A1. apply tril_nth; lia.
  - rewrite B2 by (rewrite diag_in; lia). rewrite B1 by (rewrite tril_in; lia). apply E0.
Qed.

Lemma times_transpose_square n a : square n a -> square n (times_transpose a).
Proof.
  intros [L F]. unfold times_transpose. split; [now rewrite map_length|]. apply Forall_forall. intros r Hr. apply in_map_iff in Hr. destruct Hr as (s & <- & _). now rewrite map_length.
Qed.
Lemma entry_times n a i j : square n a -> (i < n)%nat -> (j < n)%nat -> entry (times_transpose a) i j == qsum n (fun k => entry a i k * entry a j k).
Proof.
  intros [L F] Hi Hj. rewrite Forall_forall in F. unfold entry at 1, times_transpose.
  rewrite (nth_indep _ [] ((fun r => map (fun s => vdot r s) a) [])) by (rewrite map_length; lia). rewrite (map_nth (fun r => map (fun s => vdot r s) a)).
  rewrite (nth_indep _ 0 (vdot (nth i a []) [])) by (rewrite map_length; lia). rewrite (map_nth (fun s => vdot (nth i a []) s)).
  rewrite (vdot_qsum _ _ n) by (apply F, nth_In; lia). reflexivity.
Qed.

Lemma qsum_nonneg n f : (forall i, (i < n)%nat -> 0 <= f i) -> 0 <= qsum n f.
Proof. intros H. rewrite <- (qsum_zero n (fun _ => 0)) by reflexivity. now apply qsum_le. Qed.
Lemma qsum_zero_inv n f : (forall i, (i < n)%nat -> 0 <= f i) -> qsum n f == 0 -> forall i, (i < n)%nat -> f i == 0.
Proof.
  induction n as [|n IH]; intros H E i Hi; [lia|]. cbn [qsum] in E. assert (0 <= qsum n f) by (apply qsum_nonneg; intros; apply H; lia).
  assert (0 <= f n) by (apply H; lia). destruct (Nat.eq_dec i n) as [->|N]; [lra|]. apply IH; [intros; apply H; lia|lra|lia].
Qed.

(** x^T (L L^T) x is the sum of the squares of the entries of L^T x. *)
Lemma quad_factor n a x : square n a -> quad_form n (times_transpose a) x == qsum n (fun k => qsum n (fun i => nth i x 0 * entry a i k) * qsum n (fun i => nth i x 0 * entry a i k)).
Proof.
  intros S. unfold quad_form.
  transitivity (qsum n (fun i => qsum n (fun j => qsum n (fun k => (nth i x 0 * entry a i k) * (nth j x 0 * entry a j k))))).
  { apply qsum_ext. intros i Hi. apply qsum_ext. intros j Hj. rewrite (entry_times n a i j S Hi Hj).
    transitivity ((nth i x 0 * nth j x 0) * qsum n (fun k => entry a i k * entry a j k)); [ring|]. rewrite <- qsum_scale. apply qsum_ext. intros k _. ring. }
  transitivity (qsum n (fun i => qsum n (fun k => qsum n (fun j => (nth i x 0 * entry a i k) * (nth j x 0 * entry a j k))))).
  { apply qsum_ext. intros i Hi. apply qsum_swap. }
  rewrite qsum_swap. apply qsum_ext. intros k Hk. rewrite <- qsum_scale. apply qsum_ext. intros i Hi. rewrite qsum_scale. ring.
Qed.

Lemma veq_nth_zero n x : length x = n -> (forall i, (i < n)%nat -> nth i x 0 == 0) -> veq x (vzero n).
Proof.
  intros <-. induction x as [|y x IH]; intros H; cbn; constructor.
  - apply (H 0%nat). cbn. lia.
  - apply IH. intros i Hi. apply (H (S i)). cbn. lia.
Qed.

Lemma triangular_pd n a : square n a -> (forall i, (i < n)%nat -> ~ entry a i i == 0) -> (forall i j, (i < j)%nat -> (j < n)%nat -> entry a i j == 0) ->
  positive_definite n (times_transpose a).
Proof.
  intros S D U x Lx. rewrite quad_factor by exact S.
  assert (P : forall k, (k < n)%nat -> 0 <= qsum n (fun i => nth i x 0 * entry a i k) * qsum n (fun i => nth i x 0 * entry a i k)).
  { intros k _. set (y := qsum n _). nra. }
  split; [now apply qsum_nonneg|]. intros E. apply veq_nth_zero; [exact Lx|].
  assert (Z : forall k, (k < n)%nat -> qsum n (fun i => nth i x 0 * entry a i k) == 0).
  { intros k Hk. apply sq_zero. exact (qsum_zero_inv n _ P E k Hk). }
  assert (G : forall d i, (i < n)%nat -> (n - i <= d)%nat -> nth i x 0 == 0).
  { induction d as [|d IH]; intros i Hi Hd; [lia|]. specialize (Z i Hi).
    rewrite (qsum_one n i) in Z; [|exact Hi|].
    - specialize (D i Hi). destruct (Qeq_dec (nth i x 0) 0) as [K|K]; [exact K|]. exfalso. apply Qmult_integral in Z. destruct Z; contradiction.
    - intros j Hj Nj. destruct (Nat.lt_ge_cases j i) as [H|H].
      + rewrite (U j i) by (try exact H; exact Hi). ring.
      + rewrite (IH j) by lia. ring. }
  intros i Hi. apply (G n i Hi). lia.
Qed.

Lemma nth_map_ex (ex : Q -> Q) l i : (i < length l)%nat -> nth i (map ex l) 0 = ex (nth i l 0).
Proof. intros H. rewrite (nth_indep _ 0 (ex 0)) by (rewrite map_length; exact H). apply map_nth. Qed.

(** For all outputs of the layers: the head succeeds, and its matrix is symmetric and positive definite. *)
Theorem C87_positive_definite : forall ex th scale_mu low high vv m d nd, (forall x, 0 < ex x) ->
  (0 < length d)%nat -> length nd = (length d * (length d - 1) / 2)%nat ->
  exists q, quad_head ex th scale_mu low high vv m d nd = Ok q
    /\ square (length d) (mat q) /\ positive_definite (length d) (mat q)
    /\ (forall i j, (i < length d)%nat -> (j < length d)%nat -> entry (mat q) i j == entry (mat q) j i)
    /\ v q = vv /\ mu q = (if scale_mu then scale_by_tanh th m low high else m) /\ min_action q = Some low /\ max_action q = Some high.
Proof.
  intros ex th sm low high vv m d nd He Hd Ln. unfold quad_head. rewrite map_length. destruct (Nat.ltb_spec 1 (length d)) as [H|H].
  - destruct (C87_layout (map ex d) nd) as (t & E & S & N); [rewrite map_length; exact Ln|]. rewrite map_length in S, N. rewrite E. cbn [rbind].
    eexists. split; [reflexivity|]. cbn [mat mu v min_action max_action]. split; [now apply times_transpose_square|]. split; [|split; [|repeat split]].
    + apply triangular_pd; [exact S| |].
      * intros i Hi. rewrite (N i i Hi Hi). rewrite Nat.compare_refl. rewrite nth_map_ex by exact Hi. specialize (He (nth i d 0)). lra.
      * intros i j Hij Hj. rewrite (N i j) by lia. rewrite (proj2 (Nat.compare_gt_iff j i)) by exact Hij. reflexivity.
    + intros i j Hi Hj. rewrite !(entry_times (length d)) by assumption. apply qsum_ext. intros k _. ring.
  - destruct d as [|x [|y d]]; cbn [length] in *; try lia. cbn [map rbind]. eexists. split; [reflexivity|]. cbn [mat mu v min_action max_action].
    split; [split; [reflexivity|repeat constructor]|]. split; [|split; [|repeat split]].
    + intros z Lz. destruct z as [|z [|? ?]]; cbn [length] in Lz; try discriminate. unfold quad_form, entry. cbn [qsum nth map]. specialize (He x). split; [nra|].
      intros E. repeat constructor. assert (P : 0 < ex x * ex x) by nra. assert (H0 : (ex x * ex x) * (z * z) == 0) by (rewrite <- E; ring). apply Qmult_integral in H0. destruct H0 as [H0|H0]; [lra|]. now apply sq_zero.
    + intros i j Hi Hj. destruct i, j; try lia. reflexivity.
Qed.

Lemma tanh_len th m low high n : length m = n -> length low = n -> length high = n -> length (scale_by_tanh th m low high) = n.
Proof.
  intros <-. revert low high. induction m as [|x m IH]; intros [|l low] [|h high] L1 L2; cbn in *; try discriminate; [reflexivity|]. f_equal. apply IH; congruence.
Qed.
Lemma tanh_within th m low high i : (forall x, - (1) <= th x <= 1) -> length low = length m -> length high = length m ->
  (forall i, (i < length m)%nat -> nth i low 0 <= nth i high 0) -> (i < length m)%nat ->
  nth i low 0 <= nth i (scale_by_tanh th m low high) 0 <= nth i high 0.
Proof.
  intros Ht. revert low high i. induction m as [|x m IH]; intros [|l low] [|h high] i L1 L2 B Hi; cbn [length] in *; try discriminate; try lia.
  destruct i as [|i]; cbn [scale_by_tanh nth].
  - specialize (B 0%nat ltac:(lia)). cbn [nth] in B. specialize (Ht x).
    assert (E1 : th x * ((h - l) / 2) + (h + l) / 2 - l == (1 # 2) * ((th x + 1) * (h - l))) by field.
    assert (E2 : h - (th x * ((h - l) / 2) + (h + l) / 2) == (1 # 2) * ((1 - th x) * (h - l))) by field.
    assert (0 <= (th x + 1) * (h - l)) by nra. assert (0 <= (1 - th x) * (h - l)) by nra. lra.
  - apply IH; try congruence; [|lia]. intros k Hk. apply (B (S k)). lia.
Qed.

Lemma bound_at_nth b i n : length b = n -> (i < n)%nat -> bound_at b i = nth i b 0.
Proof. intros <- H. destruct b as [|x [|y b]]; cbn in *; try lia; [|reflexivity]. destruct i; [reflexivity|lia]. Qed.

(** With scale_mu (the default): for all outputs of the layers and all bounded action spaces, the greedy action lies
    within the action space and is the action [mu], [max] is the state value [v], no action has a larger value and
    every other action has a smaller one, and advantages of all actions within the bounds are not positive. *)
Theorem C87_greedy : forall ex th low high vv m d nd, (forall x, 0 < ex x) -> (forall x, - (1) <= th x <= 1) ->
  (0 < length d)%nat -> length nd = (length d * (length d - 1) / 2)%nat -> length m = length d -> length low = length d -> length high = length d ->
  (forall i, (i < length d)%nat -> nth i low 0 <= nth i high 0) ->
  exists q g mx, quad_head ex th true low high vv m d nd = Ok q
    /\ greedy_actions q = Ok g /\ max q = Ok mx /\ in_bounds q g /\ mx == vv /\ value q g == vv
    /\ (forall a, length a = length d -> value q a <= vv /\ (value q a == vv -> veq a g))
    /\ (forall a, in_bounds q a -> exists ad, compute_advantage q a = Ok ad /\ ad <= 0).
Proof.
  intros ex th low high vv m d nd He Ht Hd Ln Lm Ll Lh B.
  destruct (C87_positive_definite ex th true low high vv m d nd He Hd Ln) as (q & E & S & PD & _ & Ev & Em & E1 & E2).
  assert (Lq : length (mu q) = length d) by (rewrite Em; apply tanh_len; assumption).
  assert (GB : good_bounds q).
  { unfold good_bounds. rewrite E1, E2, Lq. split; [intros b Hb; injection Hb as <-; now right|]. split; [intros b Hb; injection Hb as <-; now right|].
    intros b b' Hb Hb'. injection Hb as <-. injection Hb' as <-. intros i Hi. rewrite !(bound_at_nth _ i (length d)) by assumption. apply B. exact Hi. }
  assert (IB : in_bounds q (mu q)).
  { unfold in_bounds. rewrite E1, E2, Lq. split; [reflexivity|]. intros i Hi.
    assert (W : nth i low 0 <= nth i (mu q) 0 <= nth i high 0) by (rewrite Em; apply tanh_within; try assumption; try congruence; rewrite Lm; assumption).
    split; intros b Hb; injection Hb as <-; rewrite (bound_at_nth _ i (length d)) by assumption; apply W. }
  assert (S' := S). assert (PD' := PD). rewrite <- Lq in S', PD'.
  destruct (C44_max_partial q S' PD' GB (or_intror (or_introl IB))) as (g & mx & G1 & G2 & G3 & G4 & G5).
  destruct (greedy_spec q GB) as (g' & G1' & Lg & Ng). rewrite G1 in G1'. injection G1' as <-.
  destruct (C44_greedy_in_bounds q GB) as (g' & G1' & Gb). rewrite G1 in G1'. injection G1' as <-.
  assert (Hg : forall i, (i < length d)%nat -> nth i g 0 == nth i (mu q) 0).
  { intros i Hi. rewrite <- Lq in Hi. rewrite (Ng i Hi). rewrite E1, E2. destruct IB as [_ IB]. destruct (IB i Hi) as [I1 I2]. specialize (I1 low E1). specialize (I2 high E2).
    rewrite (Q.max_r _ _ I1). apply Q.min_r. exact I2. }
  assert (Hv : forall a, length a = length d -> value q a <= vv /\ (value q a == vv -> veq a (mu q))).
  { intros a La. unfold value. rewrite Ev, Lq. assert (Ls : length (vsub a (mu q)) = length d) by (apply vsub_len; assumption). destruct (PD (vsub a (mu q)) Ls) as [P1 P2].
    set (f := quad_form _ _ _) in *. assert (Ef : f / 2 == (1 # 2) * f) by field. split; [lra|]. intros H. apply vsub_zero; [congruence|]. rewrite La. apply P2. lra. }
  assert (Vg : value q g == vv).
  { unfold value. rewrite Ev. rewrite quad_zero; [field|]. intros i Hi. rewrite (nth_vsub g (mu q) i (length d)) by (congruence || lia). rewrite Hg by lia. ring. }
  assert (Veq : veq (mu q) g).
  { clear - Hg Lg Lq. assert (L : length (mu q) = length g) by congruence. rewrite Lq in Lg. revert Lg Hg L. generalize (mu q). generalize (length d). clear. intros n l Lg Hg L.
    revert g n Lg Hg L. induction l as [|x l IH]; intros [|y g] n Lg Hg L; cbn [length] in *; try discriminate; constructor.
    - symmetry. apply (Hg 0%nat). lia.
    - apply (IH g (length g)); [reflexivity| |congruence]. intros i Hi. apply (Hg (S i)). lia. }
  exists q, g, mx. split; [exact E|]. split; [exact G1|]. split; [exact G2|]. split; [exact Gb|]. split; [rewrite <- G3; exact Vg|]. split; [exact Vg|]. split; [|exact G5].
  intros a La. destruct (Hv a La) as [V1 V2]. split; [exact V1|]. intros H. rewrite (V2 H). exact Veq.
Qed.

(** Non-trivial instance: two action dimensions, bounds [-1, 1] x [0, 4]; stand-ins for exp and tanh. *)
Definition ex_exp (x : Q) : Q := 1 + x * x.
Definition ex_tanh (x : Q) : Q := x / (1 + x * x).
Example C87_example :
  match quad_head ex_exp ex_tanh true [-(1); 0] [1; 4] 5 [1; 1] [1; 2] [3] with
  | Ok q => mat q = [[4; 6]; [6; 34]] /\ map Qred (mu q) = [1 # 2; 3] /\ rmap (map Qred) (greedy_actions q) = Ok [1 # 2; 3] /\ rmap Qred (max q) = Ok 5
  | Err _ => False
  end.
Proof. vm_compute. repeat split; reflexivity. Qed.
Example C87_layout_example : lower_triangular_matrix [1; 2; 3] [4; 5; 6] = Ok [[1; 0; 0]; [4; 2; 0]; [5; 6; 3]].
Proof. vm_compute. reflexivity. Qed.

Print Assumptions C87_layout.
Print Assumptions C87_positive_definite.
Print Assumptions C87_greedy.
