(** Lemmas for C146. *)
From Coq Require Import Reals Lra Lia ZArith.
From Flocq Require Import Core BinarySingleNaN Relative Plus_error.
From Verif Require Import Base M_FloatAction P_FloatAction M_FloatCategorical P_FloatCategorical M_FloatNorm S_FloatNorm.
Open Scope R_scope.

Notation two e := (bpow radix2 e).
Lemma two_fmt e : (-126 <= e)%Z -> fmt32 (two e).
Proof. intros H. apply (fmt_bpow 24 128 P24). exact H. Qed.
Lemma fmt_zero : fmt32 0. Proof. apply generic_format_0. Qed.
Lemma rel_err x : two (-126) <= Rabs x -> Rabs (rnd32 x - x) <= uu * Rabs x.
Proof. intros H. replace uu with (/ 2 * bpow radix2 (- (24) + 1)) by (change (- (24) + 1)%Z with (-24 + 1)%Z; rewrite bpow_plus; change (bpow radix2 1) with 2; field). exact (relative_error_N_FLT radix2 (-149) 24 prec24 _ x H). Qed.
Lemma rnd_opp x : rnd32 (- x) = - rnd32 x. Proof. apply round_NE_opp. Qed.
Definition tiny : binary32 := binary_normalize 24 128 prec24 emax128 mode_NE 1 (-24) false.
Lemma rnd_1u : rnd32 (1 + uu) = 1.
Proof.
  assert (E : B2SF tiny = SpecFloat.S754_finite false 8388608 (-47)) by (vm_compute; reflexivity). assert (V : B2R tiny = uu). { rewrite <- (SF2R_B2SF 24 128 tiny), E. unfold SF2R, F2R. cbn. lra. }
  destruct (int_ok 1 (conj (ltac:(discriminate) : (0 <= 1)%Z) eq_refl)) as [F1 E1]. assert (Ft : fin tiny) by (vm_compute; reflexivity). pose proof uu_pos. assert (Us : uu = / 16777216) by (rewrite uu_val; reflexivity). pose proof big_large.
  destruct (plus_ok 24 128 P24 (int32 1) tiny F1 Ft) as [_ Es]; [rewrite E1, V; apply Rabs_le; lra|]. rewrite E1, V in Es. rewrite <- Es.
  assert (S : B2SF (Bplus mode_NE (int32 1) tiny) = SpecFloat.S754_finite false 8388608 (-23)) by (vm_compute; reflexivity). rewrite <- (SF2R_B2SF 24 128 (Bplus mode_NE (int32 1) tiny)), S. unfold SF2R, F2R. cbn. lra.
Qed.

(** ** The rate *)
Lemma count_ok C : (1 <= C < 2 ^ 63)%Z -> fin (int32 C) /\ B2R (int32 C) = rnd32 (IZR C) /\ 1 <= B2R (int32 C) <= two 63.
Proof.
  intros H. assert (R1 : 1 <= IZR C) by (apply IZR_le; lia). assert (R2 : IZR C <= two 63). { change (two 63) with (IZR (2 ^ 63)). apply IZR_le. lia. }
  pose proof (binary_normalize_correct 24 128 prec24 emax128 mode_NE C 0 false) as K. cbn [round_mode] in K. replace (F2R (Float radix2 C 0)) with (IZR C) in K by (unfold F2R; cbn; lra).
  rewrite (small 24 128 P24) in K by (rewrite Rabs_pos_eq by lra; apply Rle_trans with (two 63); [exact R2|apply bpow_le; discriminate]). destruct K as (K1 & K2 & _). split; [exact K2|]. split; [exact K1|]. unfold num. rewrite K1.
  split; [apply (rnd_lb 24 128); [apply (fmt_1 24 128 P24)|exact R1]|apply (rnd_ub 24 128); [apply two_fmt; discriminate|exact R2]].
Qed.
Definition rate_of (count count_x : Z) : binary32 := Bmult mode_NE (Bdiv mode_NE (int32 1) (int32 count)) (int32 count_x).
Lemma rate_ok C X : (1 <= X <= 2 ^ 20)%Z -> (X <= C < 2 ^ 63)%Z -> fin (rate_of C X) /\ 0 < B2R (rate_of C X) <= 1 /\ ((X < C)%Z -> B2R (rate_of C X) <= 1 - two (-22)).
Proof.
  intros HX HC. destruct (count_ok C ltac:(lia)) as (Fc & Ec & Rc). destruct (int_ok X ltac:(lia)) as [Fx Ex]. destruct (int_ok 1 (conj (ltac:(discriminate) : (0 <= 1)%Z) eq_refl)) as [F1 E1].
  assert (X1 : 1 <= IZR X <= two 20). { split; [apply IZR_le; lia|]. change (two 20) with (IZR (2 ^ 20)). apply IZR_le. lia. }
  set (c := B2R (int32 C)) in *. assert (Xc : IZR X <= c). { rewrite Ec. apply (rnd_lb 24 128); [rewrite <- Ex; apply (fmt_float 24 128)|]. apply IZR_le. lia. }
  pose proof uu_pos as Pu. assert (Us : uu = / 16777216) by (rewrite uu_val; reflexivity). pose proof big_large as Bg.
  assert (I : two (-63) <= 1 / c <= 1). { split; [|apply Rmult_le_reg_r with c; [lra|]; field_simplify; lra]. change (-63)%Z with (- (63))%Z. rewrite bpow_opp. unfold Rdiv. rewrite Rmult_1_l. apply Rinv_le; lra. }
  assert (Nc : c <> 0) by (apply Rgt_not_eq; lra). destruct (div_ok 24 128 P24 (int32 1) (int32 C) F1 Nc) as [Fi Ei]; [rewrite E1; fold c; apply Rabs_le; pose proof (bpow_gt_0 radix2 (-63)); lra|]. rewrite E1 in Ei. fold c in Ei. set (i := Bdiv mode_NE (int32 1) (int32 C)) in *.
  assert (I2 : two (-63) <= B2R i <= 1) by (rewrite Ei; split; [apply (rnd_lb 24 128); [apply two_fmt; discriminate|lra]|apply (rnd_ub 24 128); [apply (fmt_1 24 128 P24)|lra]]).
  pose proof (bpow_gt_0 radix2 (-63)) as P63. assert (Re : B2R i <= (1 + uu) * (1 / c)). { pose proof (rel_err (1 / c)) as R. rewrite <- Ei, (Rabs_pos_eq (1 / c)) in R by lra. assert (H : two (-126) <= 1 / c) by (apply Rle_trans with (two (-63)); [apply bpow_le; discriminate|lra]). specialize (R H). apply Rabs_le_inv in R. lra. }
  assert (q0 : 0 <= IZR X / c <= 1). { split; [apply Rmult_le_pos; [lra|left; apply Rinv_0_lt_compat; lra]|]. apply Rmult_le_reg_r with c; [lra|]. unfold Rdiv. rewrite Rmult_assoc, Rinv_l by lra. lra. }
  assert (Pr : two (-63) <= B2R i * IZR X <= (1 + uu) * (IZR X / c)). { split; [rewrite <- (Rmult_1_r (two (-63))); apply Rmult_le_compat; lra|]. replace ((1 + uu) * (IZR X / c)) with ((1 + uu) * (1 / c) * IZR X) by (unfold Rdiv; ring). apply Rmult_le_compat_r; lra. }
  assert (Pr2 : (1 + uu) * (IZR X / c) <= 1 + uu). { rewrite <- (Rmult_1_r (1 + uu)) at 2. apply Rmult_le_compat_l; lra. }
  unfold rate_of. fold i. destruct (mult_ok 24 128 P24 i (int32 X) Fi Fx) as [Fr Er]; [rewrite Ex; apply Rabs_le; lra|]. rewrite Ex in Er. split; [exact Fr|]. rewrite Er. split; [split|].
  - apply Rlt_le_trans with (two (-63)); [exact P63|]. apply (rnd_lb 24 128); [apply two_fmt; discriminate|lra].
  - rewrite <- rnd_1u. apply (rnd_mono 24 128). lra.
  - intros Hlt. assert (E22 : two (-22) = / 4194304) by reflexivity. assert (E20 : two 20 = 1048576) by (cbn; lra).
    assert (Q : IZR X / c <= 1 - / 2097152).
    { destruct (Z_lt_le_dec C (2 ^ 24)) as [Hs|Hb].
      - destruct (int_ok C ltac:(lia)) as [_ Ec']. assert (Cx : IZR X + 1 <= c) by (unfold c; rewrite Ec', <- plus_IZR; apply IZR_le; lia). apply Rmult_le_reg_r with c; [lra|]. unfold Rdiv. rewrite Rmult_assoc, Rinv_l by lra. lra.
      - assert (Cb : two 24 <= c). { rewrite Ec. apply (rnd_lb 24 128); [apply two_fmt; discriminate|]. change (two 24) with (IZR (2 ^ 24)). apply IZR_le. lia. } assert (E24 : two 24 = 16777216) by (cbn; lra). apply Rmult_le_reg_r with c; [lra|]. unfold Rdiv. rewrite Rmult_assoc, Rinv_l by lra. lra. }
    apply (rnd_ub 24 128).
    + apply (generic_format_FLT radix2 (-149) 24). exists (Float radix2 4194303 (-22)); [unfold F2R; cbn; lra|cbn; lia|cbn; lia].
    + assert ((1 + uu) * (IZR X / c) <= (1 + uu) * (1 - / 2097152)) by (apply Rmult_le_compat_l; lra). rewrite Us in *. lra.
Qed.

(** ** The mean moves towards the mean of the batch, not beyond it *)
Lemma towards m x r : fmt32 m -> fmt32 x -> 0 <= r <= 1 -> m = 0 \/ r <= 1 - two (-22) -> m <= x -> m <= rnd32 (m + rnd32 (r * rnd32 (x - m))) <= x.
Proof.
  intros Fm Fx Hr Hc Hx. pose proof uu_pos as Pu. assert (Us : uu = / 16777216) by (rewrite uu_val; reflexivity). assert (E22 : two (-22) = / 4194304) by reflexivity. pose proof eta_pos as Pe.
  set (d := rnd32 (x - m)). assert (D0 : 0 <= d) by (apply (rnd_lb 24 128); [apply fmt_zero|lra]). assert (rd : 0 <= r * d) by (apply Rmult_le_pos; lra). assert (R0 : 0 <= rnd32 (r * d)) by (apply (rnd_lb 24 128); [apply fmt_zero|exact rd]).
  split; [apply (rnd_lb 24 128); [exact Fm|lra]|]. apply (rnd_ub 24 128); [exact Fx|]. enough (rnd32 (r * d) <= x - m) by lra.
  assert (Ex : d = x - m -> rnd32 (r * d) <= x - m). { intros E. rewrite <- E. apply (rnd_ub 24 128); [apply (rnd_fmt 24 128)|]. rewrite <- (Rmult_1_l d) at 2. apply Rmult_le_compat_r; lra. }
  destruct Hc as [->|Hc]; [apply Ex; unfold d; rewrite Rminus_0_r; now apply (rnd_id 24 128)|].
  destruct (Rle_or_lt (two (-126)) (x - m)) as [Hn|Hs].
  - pose proof (rel_err (x - m)) as Er. rewrite (Rabs_pos_eq (x - m)) in Er by lra. specialize (Er Hn). fold d in Er. apply Rabs_le_inv in Er. pose proof (mult_err (r * d)) as Em. rewrite (Rabs_pos_eq (r * d) rd) in Em. apply Rabs_le_inv in Em.
    set (D := x - m) in *. assert (H1 : r * d <= (1 - / 4194304) * ((1 + uu) * D)) by (apply Rmult_le_compat; lra). assert (H2 : (1 + uu) * (r * d) <= (1 + uu) * ((1 - / 4194304) * ((1 + uu) * D))) by (apply Rmult_le_compat_l; lra).
    assert (He : eta <= / 16777216 * D). { replace eta with (two (-24) * two (-126)) by (rewrite <- bpow_plus; reflexivity). change (two (-24)) with uu. rewrite Us. apply Rmult_le_compat_l; lra. } rewrite Us in *. lra.
  - apply Ex. apply (rnd_id 24 128). apply (FLT_format_plus_small radix2 (-149) 24 x (- m)); [exact Fx|now apply (fmt_opp 24 128)|]. fold (x - m). rewrite Rabs_pos_eq by lra. apply Rlt_le. eapply Rlt_le_trans; [exact Hs|]. apply bpow_le. discriminate.
Qed.
Lemma between m x r : fmt32 m -> fmt32 x -> 0 <= r <= 1 -> m = 0 \/ r <= 1 - two (-22) -> let m' := rnd32 (m + rnd32 (r * rnd32 (x - m))) in m <= m' <= x \/ x <= m' <= m.
Proof.
  intros Fm Fx Hr Hc. cbv zeta. destruct (Rle_or_lt m x) as [H|H]; [left; now apply towards|right].
  pose proof (towards (- m) (- x) r (fmt_opp 24 128 _ Fm) (fmt_opp 24 128 _ Fx) Hr ltac:(destruct Hc as [-> |Hc]; [left; ring|now right]) ltac:(lra)) as T. replace (- x - - m) with (- (x - m)) in T by ring. rewrite rnd_opp in T. replace (r * - rnd32 (x - m)) with (- (r * rnd32 (x - m))) in T by ring. rewrite rnd_opp in T. replace (- m + - rnd32 (r * rnd32 (x - m))) with (- (m + rnd32 (r * rnd32 (x - m)))) in T by ring. rewrite rnd_opp in T. lra.
Qed.

(** ** One batch *)
Definition state_ok (s : norm) : Prop :=
  (0 <= n_count s < 2 ^ 62)%Z /\ (n_count s = 0%Z -> B2R (n_mean s) = 0) /\ fin (n_mean s) /\ Rabs (B2R (n_mean s)) <= two 40 /\ fin (n_var s) /\ 0 <= B2R (n_var s) <= two 85.
Definition is_between (a b c : R) : Prop := a <= b <= c \/ c <= b <= a.
Lemma experience_ok until s n mean var : state_ok s -> batch_ok (n, mean, var) -> (n_count s + n < 2 ^ 62)%Z ->
  exists s', experience until s (n, mean, var) = Ok s' /\ state_ok s' /\ is_between (B2R (n_mean s)) (B2R (n_mean s')) (B2R mean) /\ (n_count s' <= n_count s + n)%Z.
Proof.
  intros (Hc & Hz & Fm & Bm & Fv & Bv) (Hn & Fx & Bx & Fw & Bw) Ht. unfold experience.
  assert (Same : exists s', Ok s = Ok s' /\ state_ok s' /\ is_between (B2R (n_mean s)) (B2R (n_mean s')) (B2R mean) /\ (n_count s' <= n_count s + n)%Z).
  { exists s. split; [reflexivity|]. split; [repeat split; tauto|]. split; [unfold is_between; destruct (Rle_or_lt (B2R (n_mean s)) (B2R mean)); [left|right]; lra|lia]. }
  destruct (match until with Some k => (k <=? n_count s)%Z | None => false end); [exact Same|]. destruct (Z.eqb_spec n 0) as [E0|E0]; [exact Same|]. clear Same.
  fold (rate_of (n_count s + n) n). destruct (rate_ok (n_count s + n) n ltac:(clear - Hn E0; lia) ltac:(clear - Hc Hn Ht E0; lia)) as (Fr & Rr & Rl). set (rate := rate_of (n_count s + n) n) in *.
  destruct (int_ok 0 (conj (Z.le_refl 0) eq_refl)) as [F0 E0']. destruct (int_ok 1 (conj (ltac:(discriminate) : (0 <= 1)%Z) eq_refl)) as [F1 E1].
  rewrite (Bltb_correct 24 128 _ _ F0 Fr), E0', Rlt_bool_true by lra. cbn [passert rbind]. rewrite (Bleb_correct 24 128 _ _ Fr F1), E1, Rle_bool_true by lra. cbn [passert rbind].
  set (m := B2R (n_mean s)) in *. set (x := B2R mean) in *. set (v := B2R (n_var s)) in *. set (w := B2R var) in *. set (r := B2R rate) in *.
  assert (Cm : m = 0 \/ r <= 1 - two (-22)) by (destruct (Z.eq_dec (n_count s) 0) as [Ez|Ez]; [left; now apply Hz|right; apply Rl; clear - Hc Ez; lia]). clear Rl Hz.
  assert (T41 : two 41 = 2 * two 40) by (change 41%Z with (1 + 40)%Z; rewrite bpow_plus; reflexivity). assert (T82 : two 82 = two 41 * two 41) by (rewrite <- bpow_plus; reflexivity). assert (T85 : two 85 = 8 * two 82) by (change 85%Z with (3 + 82)%Z; rewrite bpow_plus; f_equal; cbn; lra). assert (T127 : 4 * two 85 <= big32). { replace (4 * two 85) with (two 87) by (change 87%Z with (2 + 85)%Z; rewrite bpow_plus; f_equal; cbn; lra). apply bpow_le. discriminate. }
  pose proof (bpow_gt_0 radix2 40) as P40. pose proof (bpow_gt_0 radix2 82) as P82. pose proof (bpow_le radix2 41 82 ltac:(discriminate)) as L41. apply Rabs_le_inv in Bm, Bx.
  assert (B41 : forall a, Rabs a <= two 41 -> Rabs (rnd32 a) <= two 41). { intros a Ha. apply Rabs_le_inv in Ha. apply Rabs_le. split; [apply (rnd_lb 24 128); [apply (fmt_opp 24 128), two_fmt; discriminate|lra]|apply (rnd_ub 24 128); [apply two_fmt; discriminate|lra]]. }
  destruct (minus_ok 24 128 P24 mean (n_mean s) Fx Fm) as [Fd Ed]; [fold m x; apply Rabs_le; lra|]. fold m x in Ed. set (delta := Bminus mode_NE mean (n_mean s)) in *.
  assert (Bd : Rabs (B2R delta) <= two 41) by (rewrite Ed; apply B41, Rabs_le; lra).
  assert (Brd : Rabs (r * B2R delta) <= two 41). { rewrite Rabs_mult, (Rabs_pos_eq r) by lra. rewrite <- (Rmult_1_l (two 41)). apply Rmult_le_compat; try lra. apply Rabs_pos. }
  destruct (mult_ok 24 128 P24 rate delta Fr Fd) as [Frd Erd]; [fold r; lra|]. fold r in Erd. pose proof (B41 _ Brd) as Brd'. rewrite <- Erd in Brd'. apply Rabs_le_inv in Brd'.
  destruct (plus_ok 24 128 P24 (n_mean s) (Bmult mode_NE rate delta) Fm Frd) as [Fm' Em']; [fold m; apply Rabs_le; lra|]. fold m in Em'. rewrite Erd, Ed in Em'. set (mean' := Bplus mode_NE (n_mean s) (Bmult mode_NE rate delta)) in *.
  pose proof (between m x r (fmt_float 24 128 _) (fmt_float 24 128 _) ltac:(lra) Cm) as Bt. cbv zeta in Bt. rewrite <- Em' in Bt. set (m' := B2R mean') in *.
  destruct (minus_ok 24 128 P24 mean mean' Fx Fm') as [Fe Ee]; [fold x m'; apply Rabs_le; lra|]. fold x m' in Ee. set (e := Bminus mode_NE mean mean') in *. assert (Be : Rabs (B2R e) <= two 41) by (rewrite Ee; apply B41, Rabs_le; lra).
  assert (Pde : 0 <= B2R delta * B2R e <= two 82).
  { split.
    - rewrite Ed, Ee. destruct Bt as [Bt|Bt].
      + apply Rmult_le_pos; apply (rnd_lb 24 128); try apply fmt_zero; lra.
      + replace (rnd32 (x - m) * rnd32 (x - m')) with (- rnd32 (x - m) * - rnd32 (x - m')) by ring. rewrite <- !rnd_opp. apply Rmult_le_pos; apply (rnd_lb 24 128); try apply fmt_zero; lra.
    - rewrite T82. eapply Rle_trans; [apply Rle_abs|]. rewrite Rabs_mult. apply Rmult_le_compat; try apply Rabs_pos; lra. }
  destruct (mult_ok 24 128 P24 delta e Fd Fe) as [Fp Ep]; [apply Rabs_le; lra|]. assert (Bp : 0 <= B2R (Bmult mode_NE delta e) <= two 82) by (rewrite Ep; split; [apply (rnd_lb 24 128); [apply fmt_zero|lra]|apply (rnd_ub 24 128); [apply two_fmt; discriminate|lra]]). set (p := B2R (Bmult mode_NE delta e)) in *.
  destruct (minus_ok 24 128 P24 var (n_var s) Fw Fv) as [Fg Eg]; [fold v w; apply Rabs_le; lra|]. fold v w in Eg. assert (Fv' : fmt32 v) by apply (fmt_float 24 128). assert (Fw' : fmt32 w) by apply (fmt_float 24 128).
  assert (Bg : - v <= B2R (Bminus mode_NE var (n_var s)) <= w) by (rewrite Eg; split; [apply (rnd_lb 24 128); [now apply (fmt_opp 24 128)|lra]|apply (rnd_ub 24 128); [exact Fw'|lra]]).
  assert (Bg2 : 4 * two 82 <= v -> B2R (Bminus mode_NE var (n_var s)) <= - (2 * two 82)). { intros H4. rewrite Eg. apply (rnd_ub 24 128); [|lra]. apply (fmt_opp 24 128). replace (2 * two 82) with (two 83) by (change 83%Z with (1 + 82)%Z; rewrite bpow_plus; reflexivity). apply two_fmt. discriminate. }
  set (g := B2R (Bminus mode_NE var (n_var s))) in *.
  destruct (plus_ok 24 128 P24 (Bminus mode_NE var (n_var s)) (Bmult mode_NE delta e) Fg Fp) as [Fi Ei]; [fold g p; apply Rabs_le; lra|]. fold g p in Ei.
  assert (Bi : - v <= B2R (Bplus mode_NE (Bminus mode_NE var (n_var s)) (Bmult mode_NE delta e)) <= 4 * two 82).
  { rewrite Ei. split; [apply (rnd_lb 24 128); [now apply (fmt_opp 24 128)|lra]|]. replace (4 * two 82) with (two 84) by (change 84%Z with (2 + 82)%Z; rewrite bpow_plus; f_equal; cbn; lra). apply (rnd_ub 24 128); [apply two_fmt; discriminate|]. change 84%Z with (2 + 82)%Z. rewrite bpow_plus. change (two 2) with 4. lra. }
  assert (Bi2 : 4 * two 82 <= v -> B2R (Bplus mode_NE (Bminus mode_NE var (n_var s)) (Bmult mode_NE delta e)) <= 0). { intros H4. rewrite Ei. apply (rnd_ub 24 128); [apply fmt_zero|]. specialize (Bg2 H4). lra. }
  set (inner := Bplus mode_NE (Bminus mode_NE var (n_var s)) (Bmult mode_NE delta e)) in *. set (i := B2R inner) in *.
  assert (ri : - v <= r * i <= 4 * two 82). { split; [destruct (Rle_or_lt 0 i) as [H|H]; [assert (0 <= r * i) by (apply Rmult_le_pos; lra); lra|]; assert (0 <= (1 - r) * - i) by (apply Rmult_le_pos; lra); lra|]. destruct (Rle_or_lt 0 i) as [H|H]; [assert (r * i <= 1 * i) by (apply Rmult_le_compat_r; lra); lra|]. assert (r * i <= 0) by (rewrite <- (Rmult_0_r r); apply Rmult_le_compat_l; lra). lra. }
  destruct (mult_ok 24 128 P24 rate inner Fr Fi) as [Fri Eri]; [fold r i; apply Rabs_le; lra|]. fold r i in Eri.
  assert (Bri : - v <= B2R (Bmult mode_NE rate inner) <= 4 * two 82). { rewrite Eri. split; [apply (rnd_lb 24 128); [now apply (fmt_opp 24 128)|lra]|]. apply (rnd_ub 24 128); [|lra]. replace (4 * two 82) with (two 84) by (change 84%Z with (2 + 82)%Z; rewrite bpow_plus; f_equal; cbn; lra). apply two_fmt. discriminate. }
  assert (Bri2 : 4 * two 82 <= v -> B2R (Bmult mode_NE rate inner) <= 0). { intros H4. rewrite Eri. apply (rnd_ub 24 128); [apply fmt_zero|]. specialize (Bi2 H4). rewrite <- (Rmult_0_r r). apply Rmult_le_compat_l; lra. }
  destruct (plus_ok 24 128 P24 (n_var s) (Bmult mode_NE rate inner) Fv Fri) as [Fn En]; [fold v; apply Rabs_le; lra|]. fold v in En.
  eexists. split; [reflexivity|]. cbn [n_mean n_count n_var]. fold m'. split; [|split; [exact Bt|apply Z.le_refl]]. unfold state_ok. cbn [n_mean n_count n_var]. fold m'. split; [clear - Hc Hn Ht E0; lia|]. split; [clear - Hc Hn E0; lia|]. split; [exact Fm'|]. split; [apply Rabs_le; destruct Bt; lra|]. split; [exact Fn|]. rewrite En. split; [apply (rnd_lb 24 128); [apply fmt_zero|lra]|].
  apply (rnd_ub 24 128); [apply two_fmt; discriminate|]. destruct (Rle_or_lt (4 * two 82) v) as [H4|H4]; [specialize (Bri2 H4); lra|lra].
Qed.

Lemma experiences_ok until batches : forall s, state_ok s -> Forall batch_ok batches -> (n_count s + values_seen batches < 2 ^ 62)%Z ->
  exists s', experiences until s batches = Ok s' /\ state_ok s' /\
    (forall lo hi, lo <= B2R (n_mean s) <= hi -> Forall (mean_within lo hi) batches -> lo <= B2R (n_mean s') <= hi).
Proof.
  induction batches as [|[[n mean] var] batches IH]; intros s Hs Hb Ht; cbn [experiences]; [exists s; split; [reflexivity|]; split; [exact Hs|tauto]|].
  inversion Hb as [|? ? Hb1 Hb2]; subst. unfold values_seen in Ht. cbn [map fold_right fst] in Ht. fold (values_seen batches) in Ht.
  assert (V0 : (0 <= values_seen batches)%Z). { clear - Hb2. induction Hb2 as [|[[k ?] ?] l [H _] _ IH]; unfold values_seen in *; cbn [map fold_right fst] in *; [apply Z.le_refl|clear - H IH; lia]. }
  destruct (experience_ok until s n mean var Hs Hb1 ltac:(clear - Ht V0; lia)) as (s1 & E1 & S1 & B1 & C1). rewrite E1. cbn [rbind].
  destruct (IH s1 S1 Hb2 ltac:(clear - Ht C1; lia)) as (s2 & E2 & S2 & B2). exists s2. split; [exact E2|]. split; [exact S2|]. intros lo hi Hm Hl. inversion Hl as [|? ? Hl1 Hl2]; subst. apply B2; [|exact Hl2]. unfold mean_within in Hl1. cbn [fst snd] in Hl1. destruct B1; lra.
Qed.
Lemma init_ok : state_ok norm_init.
Proof.
  destruct (int_ok 0 (conj (Z.le_refl 0) eq_refl)) as [F0 E0]. destruct (int_ok 1 (conj (ltac:(discriminate) : (0 <= 1)%Z) eq_refl)) as [F1 E1]. unfold state_ok, norm_init. cbn [n_count n_mean n_var]. rewrite E0, E1, Rabs_R0. split; [split; [apply Z.le_refl|reflexivity]|]. split; [reflexivity|]. split; [exact F0|]. split; [apply bpow_ge_0|]. split; [exact F1|]. split; [lra|]. change 1 with (two 0). apply bpow_le. discriminate.
Qed.
Lemma base_ok eps s : state_ok s -> fin eps -> 0 < B2R eps <= 1 -> fin (std_base eps s) /\ B2R eps <= B2R (std_base eps s).
Proof.
  intros (_ & _ & _ & _ & Fv & Bv) Fe He. unfold std_base. assert (T : 2 * two 85 <= big32). { replace (2 * two 85) with (two 86) by (change 86%Z with (1 + 85)%Z; rewrite bpow_plus; reflexivity). apply bpow_le. discriminate. } assert (O : 1 <= two 85) by (change 1 with (two 0); apply bpow_le; discriminate).
  destruct (plus_ok 24 128 P24 (n_var s) eps Fv Fe) as [F E]; [apply Rabs_le; lra|]. split; [exact F|]. rewrite E. apply (rnd_lb 24 128); [apply (fmt_float 24 128)|lra].
Qed.
