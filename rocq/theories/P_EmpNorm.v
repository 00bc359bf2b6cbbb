(** Proofs about empirical normalization. *)
From Coq Require Import Reals Lra.
From Verif Require Import Base P_Base M_EmpNorm S_EmpNorm.
Open Scope R_scope.

Lemma rsum_over l : rsum l = sum_over l.
Proof. induction l as [|x l IH]; cbn; [reflexivity|]. now rewrite IH. Qed.
Lemma sum_app l l' : sum_over (l ++ l') = sum_over l + sum_over l'.
Proof. unfold sum_over. induction l as [|x l IH]; [change (fold_right Rplus 0 []) with 0; cbn [app]; lra|]. cbn [fold_right app]. rewrite IH. lra. Qed.
Definition sumsq (l : list R) : R := sum_over (map (fun x => x * x) l).
Lemma sumsq_app l l' : sumsq (l ++ l') = sumsq l + sumsq l'.
Proof. unfold sumsq. rewrite map_app. apply sum_app. Qed.
Lemma sum_dev l m : sum_over (map (fun x => (x - m)²) l) = sumsq l - 2 * m * sum_over l + INR (length l) * (m * m).
Proof.
  unfold sumsq. induction l as [|x l IH]; [cbn; lra|]. unfold sum_over in *. cbn [map length fold_right]. rewrite S_INR, IH. unfold Rsqr. ring.
Qed.
Lemma sum_dev' l m : rsum (map (fun x => (x - m) * (x - m)) l) = sumsq l - 2 * m * sum_over l + INR (length l) * (m * m).
Proof. rewrite rsum_over. exact (sum_dev l m). Qed.
Lemma len_pos (l : list R) : l <> [] -> 0 < INR (length l).
Proof. destruct l; [congruence|]. intros _. apply lt_0_INR. cbn. lia. Qed.

(** the statistics in terms of the sums *)
Definition stats (d : list R) (m v : R) : Prop := let n := INR (length d) in m = sum_over d / n /\ v = sumsq d / n - (sum_over d / n) * (sum_over d / n).
Lemma stats_spec d m v : d <> [] -> stats d m v <-> is_mean d m /\ is_variance d v.
Proof.
  intros Hd. pose proof (len_pos d Hd) as P. unfold stats, is_mean, is_variance. split.
  - intros [-> ->]. split; [field; lra|]. intros m Hm. rewrite sum_dev. rewrite <- Hm. field. lra.
  - intros [Hm Hv]. assert (E : m = sum_over d / INR (length d)) by (rewrite <- Hm; field; lra). split; [exact E|]. specialize (Hv m Hm). rewrite sum_dev in Hv. rewrite <- Hm in Hv.
    rewrite <- E. apply (Rmult_eq_reg_r (INR (length d))); [|lra]. rewrite Hv. field. lra.
Qed.

Lemma update_stats d x m v : d <> [] -> x <> [] -> stats d m v ->
  let rate := INR (length x) / INR (length d + length x) in
  let delta := t_mean x - m in
  let m' := m + rate * delta in
  stats (d ++ x) m' (v + rate * (t_var x - v + delta * (t_mean x - m'))).
Proof.
  intros Hd Hx [Em Ev]. cbn zeta. pose proof (len_pos d Hd) as P1. pose proof (len_pos x Hx) as P2. unfold stats, t_var. rewrite sum_dev'. unfold t_mean. rewrite rsum_over.
  rewrite app_length, sum_app, sumsq_app, plus_INR. rewrite Em, Ev. set (n := INR (length d)) in *. set (k := INR (length x)) in *. split; field; lra.
Qed.
Lemma first_stats x m v : x <> [] ->
  let rate := INR (length x) / INR (0 + length x) in
  let delta := t_mean x - m in
  let m' := m + rate * delta in
  stats x m' (v + rate * (t_var x - v + delta * (t_mean x - m'))).
Proof.
  intros Hx. cbn zeta. pose proof (len_pos x Hx) as P2. unfold stats, t_var. rewrite sum_dev'. unfold t_mean. rewrite rsum_over. cbn [Nat.add]. split; field; lra.
Qed.

Definition inv (eps : R) (s : norm) (d : list R) : Prop :=
  count s = length d /\ (d = [] -> mean s = 0 /\ var s = 1) /\ (d <> [] -> stats d (mean s) (var s)) /\
  (forall c, cached_std_inverse s = Some c -> c = / sqrt (var s + eps)).

Lemma inv_init eps : inv eps init [].
Proof. repeat split; try congruence; intros; try discriminate. Qed.

Definition stopped (until : option nat) (d : list R) : bool := match until with Some u => (u <=? length d)%nat | None => false end.
Definition after (until : option nat) (d x : list R) : list R := if stopped until d then d else d ++ x.
Lemma experience_inv eps until s d x : inv eps s d -> inv eps (experience until s x) (after until d x).
Proof.
  intros (C & E0 & E1 & K). unfold experience, after, stopped. rewrite C. destruct (match until with Some u => (u <=? length d)%nat | None => false end) eqn:U; [repeat split; auto; try apply E0; try apply E1; auto|].
  destruct (Nat.eqb_spec (length x) 0) as [Z|Z].
  - destruct x; [|discriminate]. rewrite app_nil_r. split; [exact C|]. split; [exact E0|]. split; [exact E1|exact K].
  - assert (Hx : x <> []) by (destruct x; cbn in Z; congruence). split; [cbn; rewrite app_length; reflexivity|]. split; [intros A; apply app_eq_nil in A; destruct A; congruence|]. split; [|intros c Hc; discriminate Hc].
    intros _. cbn [mean var]. destruct d as [|a d].
    + cbn [length app]. apply first_stats. exact Hx.
    + apply update_stats; [congruence|exact Hx|]. apply E1. congruence.
Qed.
Lemma std_inverse_inv eps s d : inv eps s d -> inv eps (fst (std_inverse eps s)) d /\ snd (std_inverse eps s) = / sqrt (var s + eps) /\ mean (fst (std_inverse eps s)) = mean s /\ var (fst (std_inverse eps s)) = var s.
Proof.
  intros (C & E0 & E1 & K). unfold std_inverse. destruct (cached_std_inverse s) as [c|] eqn:E; cbn [fst snd mean var].
  - split; [split; [exact C|split; [exact E0|split; [exact E1|rewrite E; intros c' Hc'; apply K; congruence]]]|]. split; [apply K; reflexivity|]. auto.
  - split; [|auto]. split; [exact C|split; [exact E0|split; [exact E1|]]]. cbn. intros c Hc. congruence.
Qed.
Lemma stats_var_nonneg d m v : d <> [] -> stats d m v -> 0 <= v.
Proof.
  intros Hd HS. pose proof (proj1 (stats_spec d m v Hd) HS) as [Hm Hv]. specialize (Hv m Hm). pose proof (len_pos d Hd).
  assert (G : 0 <= sum_over (map (fun x => (x - m)²) d)). { clear. induction d as [|x d IH]; cbn; [lra|]. pose proof (Rle_0_sqr (x - m)). unfold sum_over in IH. lra. }
  rewrite <- Hv in G. destruct (Rle_lt_dec 0 v); [assumption|]. exfalso. nra.
Qed.
Lemma inv_var eps s d : inv eps s d -> 0 <= var s.
Proof. intros (_ & E0 & E1 & _). destruct d as [|a d]; [destruct (E0 eq_refl) as [_ ->]; lra|]. eapply stats_var_nonneg; [|apply E1]; congruence. Qed.
