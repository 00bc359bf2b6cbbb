(** C84: reward filters. *)
From Coq Require Import Reals Lra Lia Psatz.
From Verif Require Import Base M_RewardFilter S_PPOLoss P_PPOLoss S_RewardFilter.
Open Scope R_scope.

Lemma total_app {A} (f : A -> R) a b : total f (a ++ b) = total f a + total f b.
Proof. induction a; cbn; [ring|]. rewrite IHa. ring. Qed.

Lemma weighted_snoc tau f rs r : weighted tau f (rs ++ [r]) = (1 - tau) * weighted tau f rs + tau * f r.
Proof.
  unfold weighted. rewrite app_length. cbn [length]. rewrite Nat.add_1_r, seq_S, total_app. cbn [total Nat.add].
  rewrite app_nth2 by lia. rewrite Nat.sub_diag. cbn [nth].
  replace (weight tau (S (length rs)) (length rs)) with tau by (unfold weight; replace (S (length rs) - 1 - length rs)%nat with 0%nat by lia; cbn; ring).
  rewrite <- total_scale. rewrite Rplus_0_r. f_equal. apply total_ext. intros i Hi. apply in_seq in Hi.
  rewrite app_nth1 by lia. unfold weight. replace (S (length rs) - 1 - i)%nat with (S (length rs - 1 - i)) by lia. cbn [pow]. ring.
Qed.

Lemma weighted_one tau rs : weighted tau (fun _ => 1) rs = 1 - (1 - tau) ^ length rs.
Proof.
  induction rs as [|r rs IH] using rev_ind; [cbn; unfold weighted; cbn; ring|].
  rewrite weighted_snoc, IH, app_length, Nat.add_comm. cbn [Nat.add length pow]. ring.
Qed.

Lemma weighted_quadratic tau a b c rs :
  weighted tau (fun r => a * (r * r) + b * r + c) rs
  = a * weighted tau (fun r => r * r) rs + b * weighted tau (fun r => r) rs + c * weighted tau (fun _ => 1) rs.
Proof.
  induction rs as [|r rs IH] using rev_ind; [unfold weighted; cbn; ring|]. rewrite !weighted_snoc, IH. ring.
Qed.

Lemma weighted_ext tau f g rs : (forall r, f r = g r) -> weighted tau f rs = weighted tau g rs.
Proof. intros H. unfold weighted. apply total_ext. intros i _. now rewrite H. Qed.

Lemma evar_moments tau rs : evar tau rs = weighted tau (fun r => r * r) rs - ema tau rs * ema tau rs.
Proof.
  unfold evar. set (m := ema tau rs).
  rewrite (weighted_ext tau _ (fun r => 1 * (r * r) + (- 2 * m) * r + m * m)) by (intros; ring).
  rewrite weighted_quadratic, weighted_one. fold (ema tau rs). fold m. ring.
Qed.

Lemma weighted_nonneg tau f rs : 0 <= tau <= 1 -> (forall r, 0 <= f r) -> 0 <= weighted tau f rs.
Proof.
  intros Ht Hf. induction rs as [|r rs IH] using rev_ind; [unfold weighted; cbn; lra|].
  rewrite weighted_snoc. specialize (Hf r). nra.
Qed.

Lemma weighted_pos tau f rs : 0 < tau < 1 -> (forall r, 0 <= f r) -> (exists r, In r rs /\ 0 < f r) -> 0 < weighted tau f rs.
Proof.
  intros Ht Hf. induction rs as [|r rs IH] using rev_ind; intros (x & Hx & Hp); [destruct Hx|].
  rewrite weighted_snoc. pose proof (Hf r). pose proof (weighted_nonneg tau f rs ltac:(lra) Hf).
  apply in_app_or in Hx. destruct Hx as [Hx|[<-|[]]].
  - assert (0 < weighted tau f rs) by eauto. nra.
  - nra.
Qed.

Lemma evar_nonneg tau rs : 0 < tau < 1 -> 0 <= evar tau rs.
Proof.
  intros Ht. unfold evar. apply Rplus_le_le_0_compat.
  - apply weighted_nonneg; [lra|]. intros r. apply Rle_0_sqr.
  - apply Rmult_le_pos; [apply pow_le; lra|apply Rle_0_sqr].
Qed.

Lemma evar_zero tau rs : Forall (fun r => r = 0) rs -> evar tau rs = 0 /\ ema tau rs = 0.
Proof.
  intros H. assert (G : weighted tau (fun r => r * r) rs = 0 /\ ema tau rs = 0).
  { unfold ema. induction rs as [|r rs IH] using rev_ind; [unfold weighted; cbn; lra|].
    apply Forall_app in H. destruct H as [H Hr]. inversion Hr; subst. destruct (IH H) as [E1 E2].
    rewrite !weighted_snoc, E1, E2. lra. }
  destruct G as [G1 G2]. rewrite evar_moments, G1, G2. lra.
Qed.

Lemma evar_pos tau rs : 0 < tau < 1 -> Exists (fun r => r <> 0) rs -> 0 < evar tau rs.
Proof.
  intros Ht H. destruct (Req_dec (ema tau rs) 0) as [E|E].
  - rewrite evar_moments, E. assert (0 < weighted tau (fun r => r * r) rs); [|lra].
    apply weighted_pos; [exact Ht|intros; apply Rle_0_sqr|]. apply Exists_exists in H. destruct H as (r & Hr & Nr).
    exists r. split; [exact Hr|]. now apply Rsqr_pos_lt.
  - unfold evar. apply Rplus_le_lt_0_compat.
    + apply weighted_nonneg; [lra|]. intros r. apply Rle_0_sqr.
    + apply Rmult_lt_0_compat; [apply pow_lt; lra|]. now apply Rsqr_pos_lt.
Qed.

Lemma nf_state tau scale eps rs :
  nf_feed (nf_init tau scale eps) rs
  = {| nf_tau := tau; nf_scale := scale; nf_avg := ema tau rs; nf_avg_sq := weighted tau (fun r => r * r) rs; nf_eps := eps |}.
Proof.
  assert (G : forall a b s, nf_feed s (a ++ b) = nf_feed (nf_feed s a) b).
  { induction a as [|x a IH]; intros b s; [reflexivity|]. cbn [app nf_feed]. apply IH. }
  unfold ema. induction rs as [|r rs IH] using rev_ind; [unfold weighted; reflexivity|].
  rewrite G, IH. cbn [nf_feed nf_call fst nf_tau nf_scale nf_avg nf_avg_sq nf_eps].
  rewrite !weighted_snoc. f_equal; ring.
Qed.

Lemma af_state tau rs : af_feed (af_init tau) rs = {| af_tau := tau; af_avg := ema tau rs |}.
Proof.
  assert (G : forall a b s, af_feed s (a ++ b) = af_feed (af_feed s a) b).
  { induction a as [|x a IH]; intros b s; [reflexivity|]. cbn [app af_feed]. apply IH. }
  unfold ema. induction rs as [|r rs IH] using rev_ind; [unfold weighted; reflexivity|].
  rewrite G, IH. cbn [af_feed af_call fst af_tau af_avg]. rewrite !weighted_snoc. f_equal; ring.
Qed.

(** AverageRewardFilter: after any rewards, the next one comes back minus the weighted average including it. *)
Theorem C84_average : forall tau rs r,
  snd (af_call (af_feed (af_init tau) rs) r) = r - ema tau (rs ++ [r]).
Proof.
  intros tau rs r. rewrite af_state. unfold af_call. cbn [snd af_tau af_avg]. unfold ema. rewrite weighted_snoc. f_equal. ring.
Qed.

Definition call_after (tau scale eps : R) (rs : list R) (r : R) : result R :=
  snd (nf_call (nf_feed (nf_init tau scale eps) rs) r).

(** The whole claim for NormalizedRewardFilter: every call returns a number, and numbers stay within the range
    of normalised values: the last reward counts tau in the variance, so no more than scale / sqrt tau. *)
Definition normalizes : Prop :=
  forall tau scale eps rs r, 0 < tau < 1 -> 0 < scale -> 0 < eps ->
  exists out, call_after tau scale eps rs r = Ok out /\ Rabs out <= scale / sqrt tau.

(** What a call returns: the deviation from the weighted average over the square root of the smaller of the
    weighted variance and eps.  It fails exactly as long as all rewards are zero. *)
Theorem C84_normalized_partial : forall tau scale eps rs r, 0 < tau < 1 -> 0 < eps ->
  (Exists (fun x => x <> 0) (rs ++ [r]) ->
     0 < evar tau (rs ++ [r])
     /\ call_after tau scale eps rs r
        = Ok (scale * (r - ema tau (rs ++ [r])) / sqrt (Rmin (evar tau (rs ++ [r])) eps)))
  /\ (Forall (fun x => x = 0) (rs ++ [r]) -> call_after tau scale eps rs r = Err ZeroDivisionError).
Proof.
  intros tau scale eps rs r Ht He. unfold call_after. rewrite nf_state. unfold nf_call. cbn [snd nf_tau nf_scale nf_avg nf_avg_sq nf_eps].
  replace (weighted tau (fun r0 => r0 * r0) rs * (1 - tau) + tau * (r * r)) with (weighted tau (fun r0 => r0 * r0) (rs ++ [r])) by (rewrite weighted_snoc; ring).
  replace (ema tau rs * (1 - tau) + tau * r) with (ema tau (rs ++ [r])) by (unfold ema; rewrite weighted_snoc; ring).
  rewrite <- evar_moments. split; intros H.
  - pose proof (evar_pos tau _ Ht H) as Hp. split; [exact Hp|].
    assert (Hm : 0 < Rmin (evar tau (rs ++ [r])) eps) by (apply Rmin_glb_lt; assumption).
    destruct (Rlt_dec _ 0) as [L|L]; [lra|]. destruct (Req_EM_T _ 0) as [E|E]; [|reflexivity].
    pose proof (sqrt_lt_R0 _ Hm). lra.
  - destruct (evar_zero tau _ H) as [E _]. rewrite E. rewrite Rmin_left by lra.
    destruct (Rlt_dec 0 0) as [L|L]; [lra|]. rewrite sqrt_0. destruct (Req_EM_T 0 0) as [_|N]; [reflexivity|contradiction].
Qed.

(** As long as the variance is at most eps, the values stay within scale / sqrt tau. *)
Theorem C84_bounded_partial : forall tau scale eps rs r out, 0 < tau < 1 -> 0 < scale -> 0 < eps ->
  call_after tau scale eps rs r = Ok out -> evar tau (rs ++ [r]) <= eps -> Rabs out <= scale / sqrt tau.
Proof.
  intros tau scale eps rs r out Ht Hs He Hc Hv.
  destruct (C84_normalized_partial tau scale eps rs r Ht He) as [H1 H2].
  destruct (Exists_dec (fun x => x <> 0) (rs ++ [r])) as [E|E].
  { intros x. destruct (Req_EM_T x 0) as [->|N]; [right; intros F; now apply F|left; exact N]. }
  - destruct (H1 E) as [Hp Hf]. rewrite Hf in Hc. injection Hc as <-. rewrite Rmin_left by exact Hv.
    set (m := ema tau (rs ++ [r])) in *. set (v := evar tau (rs ++ [r])) in *.
    assert (Hdev : tau * ((r - m) * (r - m)) <= v).
    { unfold v, evar. fold m. rewrite weighted_snoc.
      assert (0 <= weighted tau (fun r0 => (r0 - m) * (r0 - m)) rs) by (apply weighted_nonneg; [lra|intros; apply Rle_0_sqr]).
      assert (0 <= (1 - tau) ^ length (rs ++ [r]) * (m * m)) by (apply Rmult_le_pos; [apply pow_le; lra|apply Rle_0_sqr]). nra. }
    assert (Sv : 0 < sqrt v) by now apply sqrt_lt_R0. assert (St : 0 < sqrt tau) by (apply sqrt_lt_R0; lra).
    unfold Rdiv. rewrite !Rabs_mult, Rabs_inv, (Rabs_right scale), (Rabs_right (sqrt v)) by lra.
    rewrite Rmult_assoc. apply Rmult_le_compat_l; [lra|].
    assert (Hq : sqrt tau * Rabs (r - m) <= sqrt v).
    { rewrite <- (sqrt_Rsqr_abs (r - m)). rewrite <- sqrt_mult_alt by lra. apply sqrt_le_1_alt. exact Hdev. }
    apply (Rmult_le_reg_l (sqrt tau)); [exact St|]. rewrite Rinv_r by lra.
    apply (Rmult_le_reg_r (sqrt v)); [exact Sv|]. rewrite Rmult_1_l.
    replace (sqrt tau * (Rabs (r - m) * / sqrt v) * sqrt v) with (sqrt tau * Rabs (r - m)) by (field; lra). exact Hq.
  - assert (F : Forall (fun x => x = 0) (rs ++ [r])).
    { apply Forall_forall. intros x Hx. destruct (Req_dec x 0) as [Ex|Nx]; [exact Ex|]. exfalso. apply E. apply Exists_exists. exists x. split; assumption. }
    rewrite (H2 F) in Hc. discriminate.
Qed.

(** The claim is false twice over, for all settings: a first reward of zero raises ZeroDivisionError, and the
    value of a first reward grows beyond every bound with the reward. *)
Theorem C84_normalizes_refuted :
  ~ normalizes
  /\ (forall tau scale eps, 0 < tau < 1 -> 0 < eps -> call_after tau scale eps [] 0 = Err ZeroDivisionError)
  /\ (forall tau scale eps bound, 0 < tau < 1 -> 0 < scale -> 0 < eps ->
        exists r out, call_after tau scale eps [] r = Ok out /\ bound < out).
Proof.
  assert (Z : forall tau scale eps, 0 < tau < 1 -> 0 < eps -> call_after tau scale eps [] 0 = Err ZeroDivisionError).
  { intros tau scale eps Ht He. apply (C84_normalized_partial tau scale eps [] 0 Ht He). constructor; [reflexivity|constructor]. }
  split; [|split; [exact Z|]].
  - intros H. destruct (H (/ 2) 1 1 [] 0 ltac:(lra) ltac:(lra) ltac:(lra)) as (out & E & _).
    rewrite Z in E by lra. discriminate.
  - intros tau scale eps bound Ht Hs He.
    assert (Se : 0 < sqrt eps) by now apply sqrt_lt_R0.
    set (k := scale * (1 - tau) / sqrt eps).
    assert (Hk : 0 < k) by (unfold k; apply Rmult_lt_0_compat; [nra|now apply Rinv_0_lt_compat]).
    set (r := (Rabs bound + 1) / k + eps / (tau * (1 - tau)) + 1).
    assert (Hq : 0 < eps / (tau * (1 - tau))) by (apply Rmult_lt_0_compat; [lra|apply Rinv_0_lt_compat; nra]).
    assert (Hb : 0 < (Rabs bound + 1) / k) by (apply Rmult_lt_0_compat; [pose proof (Rabs_pos bound); lra|now apply Rinv_0_lt_compat]).
    assert (Hr : 1 <= r) by (unfold r; lra).
    destruct (C84_normalized_partial tau scale eps [] r Ht He) as [H1 _].
    destruct H1 as [Hp Hc]; [apply Exists_cons_hd; lra|]. exists r. eexists. split; [exact Hc|].
    cbn [app] in *.
    assert (Em : ema tau [r] = tau * r) by (unfold ema, weighted, weight; cbn; ring).
    assert (Ev : evar tau [r] = tau * (1 - tau) * (r * r)) by (unfold evar; rewrite Em; unfold weighted, weight; cbn; ring).
    assert (Hbig : eps <= evar tau [r]).
    { rewrite Ev. assert (eps / (tau * (1 - tau)) <= r * r).
      { apply Rle_trans with r; [unfold r; lra|]. nra. }
      replace eps with (tau * (1 - tau) * (eps / (tau * (1 - tau)))) by (field; lra).
      apply Rmult_le_compat_l; [nra|exact H]. }
    rewrite Rmin_right by exact Hbig. rewrite Em.
    replace (scale * (r - tau * r) / sqrt eps) with (k * r) by (unfold k; field; lra).
    apply Rle_lt_trans with (Rabs bound); [apply Rle_abs|].
    apply Rlt_le_trans with (k * ((Rabs bound + 1) / k)); [|apply Rmult_le_compat_l; unfold r; lra].
    replace (k * ((Rabs bound + 1) / k)) with (Rabs bound + 1) by (field; lra). lra.
Qed.

(** Non-trivial instance: tau = 1/2, eps = 10, rewards 0, 4 and then 2. *)
Example C84_example : ema (/ 2) [0; 4; 2] = 2 /\ evar (/ 2) [0; 4; 2] = 2
  /\ call_after (/ 2) 1 10 [0; 4] 2 = Ok 0 /\ call_after (/ 2) 1 10 [0; 0] 0 = Err ZeroDivisionError.
Proof.
  assert (Em : ema (/ 2) [0; 4; 2] = 2) by (unfold ema, weighted, weight; cbn; lra).
  assert (Ev : evar (/ 2) [0; 4; 2] = 2) by (unfold evar; rewrite Em; unfold weighted, weight; cbn; lra).
  split; [exact Em|]. split; [exact Ev|]. split.
  - destruct (C84_normalized_partial (/ 2) 1 10 [0; 4] 2 ltac:(lra) ltac:(lra)) as [H _].
    destruct H as [_ H]; [cbn; apply Exists_cons_tl, Exists_cons_hd; lra|]. cbn [app] in H. rewrite H, Em, Ev. f_equal. lra.
  - apply (C84_normalized_partial (/ 2) 1 10 [0; 0] 0 ltac:(lra) ltac:(lra)). cbn. repeat constructor.
Qed.

Print Assumptions C84_average.
Print Assumptions C84_normalized_partial.
Print Assumptions C84_bounded_partial.
Print Assumptions C84_normalizes_refuted.
