From Coq Require Import Qabs Qpower Qround Lqa.
From Verif Require Import Base P_Base M_Explorers.
Open Scope Q_scope.

Lemma Qltb_iff a b : Qltb a b = true <-> a < b.
Proof. unfold Qltb. rewrite negb_true_iff. split; intros H; [apply Qnot_le_lt; intros E; apply Qle_bool_iff in E; congruence|]. destruct (Qle_bool b a) eqn:E; [|reflexivity]. apply Qle_bool_iff in E. exfalso. lra. Qed.
Lemma Qltb_false a b : Qltb a b = false <-> b <= a.
Proof. unfold Qltb. rewrite negb_false_iff. apply Qle_bool_iff. Qed.

Definition frac (t n : nat) : Q := inject_Z (Z.of_nat t) / inject_Z (Z.of_nat n).
Lemma pos_Z n : (1 <= n)%nat -> 0 < inject_Z (Z.of_nat n).
Proof. intros H. change 0 with (inject_Z 0). rewrite <- Zlt_Qlt. lia. Qed.
Lemma frac_le t t' n : (1 <= n)%nat -> (t <= t')%nat -> frac t n <= frac t' n.
Proof. intros Hn H. unfold frac. apply Qmult_le_compat_r; [rewrite <- Zle_Qle; lia|]. apply Qlt_le_weak, Qinv_lt_0_compat, pos_Z, Hn. Qed.
Lemma frac_0 n : frac 0 n == 0.
Proof. unfold frac, Qdiv. apply Qmult_0_l. Qed.
Lemma frac_1 n : (1 <= n)%nat -> frac n n == 1.
Proof. intros Hn. unfold frac. apply Qmult_inv_r. pose proof (pos_Z n Hn). lra. Qed.

Lemma pow_pos d t : 0 < d -> 0 < Qpower d (Z.of_nat t).
Proof. intros H. apply Qpower_0_lt. exact H. Qed.
Lemma pow_succ d t : ~ d == 0 -> Qpower d (Z.of_nat (S t)) == d * Qpower d (Z.of_nat t).
Proof. intros H. rewrite Nat2Z.inj_succ, <- Z.add_1_l, Qpower_plus by exact H. reflexivity. Qed.
Lemma pow_mono d t t' : 0 < d < 1 -> (t <= t')%nat -> Qpower d (Z.of_nat t') <= Qpower d (Z.of_nat t).
Proof. intros Hd H. induction H as [|m H IH]; [lra|]. rewrite pow_succ by lra. pose proof (pow_pos d m (proj1 Hd)). nra. Qed.
(** Bernoulli *)
Lemma pow_small d t : 0 < d < 1 -> Qpower d (Z.of_nat t) * (1 + inject_Z (Z.of_nat t) * (1 - d)) <= 1.
Proof.
  intros Hd. induction t as [|t IH]; [change (1 * (1 + 0 * (1 - d)) <= 1); lra|]. rewrite pow_succ by lra. rewrite Nat2Z.inj_succ. unfold Z.succ. rewrite inject_Z_plus. change (inject_Z 1) with 1.
  pose proof (pow_pos d t (proj1 Hd)) as Hp. assert (Hn : 0 <= inject_Z (Z.of_nat t)) by (change 0 with (inject_Z 0); rewrite <- Zle_Qle; lia).
  set (n := inject_Z (Z.of_nat t)) in *. set (p := Qpower d (Z.of_nat t)) in *.
  assert (H : d * p * (1 + (n + 1) * (1 - d)) == p * (1 + n * (1 - d)) - p * ((1 - d) * (1 - d) * (n + 1))) by ring. rewrite H.
  assert (0 <= p * ((1 - d) * (1 - d) * (n + 1))); [|lra]. apply Qmult_le_0_compat; [lra|]. apply Qmult_le_0_compat; [|lra]. apply Qmult_le_0_compat; lra.
Qed.
Lemma pow_to_0 s e d : 0 < d < 1 -> 0 <= s <= 1 -> 0 < e -> exists T, forall t, (T <= t)%nat -> s * Qpower d (Z.of_nat t) <= e.
Proof.
  intros Hd Hs He. set (x := / (e * (1 - d))). assert (Hx : 0 < e * (1 - d)) by nra.
  exists (Z.to_nat (Qceiling x)). intros t Ht.
  assert (Hn : x <= inject_Z (Z.of_nat t)). { pose proof (Qle_ceiling x) as H. eapply Qle_trans; [exact H|]. rewrite <- Zle_Qle. lia. }
  pose proof (pow_small d t Hd) as Hb. pose proof (pow_pos d t (proj1 Hd)) as Hp. set (n := inject_Z (Z.of_nat t)) in *. set (p := Qpower d (Z.of_nat t)) in *.
  assert (H1 : x * (e * (1 - d)) == 1) by (unfold x; rewrite Qmult_comm; apply Qmult_inv_r; lra).
  assert (H2 : 1 <= n * (e * (1 - d))). { eapply Qle_trans; [apply Qle_lteq; right; symmetry; exact H1|]. apply Qmult_le_compat_r; lra. }
  assert (H3 : p <= e). { assert (p * 1 <= p * (n * (e * (1 - d)))) by (apply Qmult_le_l; auto).
    assert (e * (p * (1 + n * (1 - d))) <= e * 1) by (apply Qmult_le_l; auto). nra. }
  nra.
Qed.
Lemma max_ge_l a b : a <= Qmax a b. Proof. apply Q.le_max_l. Qed.
Lemma max_ge_r a b : b <= Qmax a b. Proof. apply Q.le_max_r. Qed.

Lemma clip_ok low high x : (forall l h, low = Some l -> high = Some h -> l <= h) ->
  (forall l, low = Some l -> l <= clip low high x) /\ (forall h, high = Some h -> clip low high x <= h) /\
  ((forall l, low = Some l -> l <= x) -> (forall h, high = Some h -> x <= h) -> clip low high x == x).
Proof.
  intros H. unfold clip. destruct low as [l|], high as [h|].
  - specialize (H l h eq_refl eq_refl). split; [|split].
    + intros l' E. injection E as <-. apply Q.min_glb; [apply max_ge_r|exact H].
    + intros h' E. injection E as <-. apply Q.le_min_r.
    + intros H1 H2. specialize (H1 l eq_refl). specialize (H2 h eq_refl). rewrite (Q.max_l x l H1). apply Q.min_l. exact H2.
  - split; [|split]; [intros l' E; injection E as <-; apply max_ge_r|discriminate|]. intros H1 _. apply Q.max_l. exact (H1 l eq_refl).
  - split; [|split]; [discriminate|intros h' E; injection E as <-; apply Q.le_min_r|]. intros _ H2. apply Q.min_l. exact (H2 h eq_refl).
  - split; [|split]; [discriminate|discriminate|]. reflexivity.
Qed.
Lemma gaussian_nth low high : forall a noise i x z, nth_error a i = Some x -> nth_error noise i = Some z -> nth_error (additive_gaussian low high a noise) i =
  Some (match low, high with None, None => x + z | _, _ => clip low high (x + z) end).
Proof.
  unfold additive_gaussian. induction a as [|a0 a IH]; intros [|n0 noise] [|i] x z H1 H2; cbn [nth_error combine map] in *; try discriminate; [|eauto].
  injection H1 as ->. injection H2 as ->. reflexivity.
Qed.
