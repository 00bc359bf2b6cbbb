(** Lemmas for C145. *)
From Coq Require Import Reals Lra Lia Psatz ZArith Sorted.
From Flocq Require Import Core BinarySingleNaN Relative.
From Verif Require Import Base P_Base M_FloatAction P_FloatAction M_FloatCategorical S_FloatCategorical.
Open Scope R_scope.

Notation fin x := (is_finite x = true).
Notation fexp32 := (SpecFloat.fexp 24 128).
Notation fmt32 := (generic_format radix2 fexp32).
Notation rnd32 := (round radix2 fexp32 ZnearestE).
Notation big32 := (bpow radix2 (128 - 1)).
Notation uu := (bpow radix2 (- 24)).
Notation eta := (bpow radix2 (- 150)).
Lemma P24 : (1 < 24)%Z. Proof. lia. Qed.
Lemma uu_pos : 0 < uu. Proof. apply bpow_gt_0. Qed.
Lemma eta_pos : 0 < eta. Proof. apply bpow_gt_0. Qed.
Lemma uu_val : uu = / IZR (2 ^ 24). Proof. reflexivity. Qed.
Lemma eta_small : eta <= uu. Proof. apply bpow_le. lia. Qed.
Lemma eta_one : eta <= 1. Proof. change 1 with (bpow radix2 0). apply bpow_le. lia. Qed.
Lemma big_large : 16 <= big32. Proof. replace 16 with (bpow radix2 4) by (cbn; lra). apply bpow_le. lia. Qed.
Lemma pow100 : 2 ^ 100 = bpow radix2 100.
Proof. rewrite <- (IZR_Zpower radix2) by lia. rewrite pow_IZR. reflexivity. Qed.
Lemma big100 : 2 * 2 ^ 100 <= big32.
Proof. rewrite pow100. change 2 with (bpow radix2 1). rewrite <- bpow_plus. apply bpow_le. lia. Qed.

Lemma mult_err x : Rabs (rnd32 x - x) <= uu * Rabs x + eta.
Proof.
  destruct (error_N_FLT radix2 (-149) 24 ltac:(lia) (fun t => negb (Z.even t)) x) as (e & h & He & Hh & _ & E). change (FLT_exp (-149) 24) with fexp32 in E. rewrite E. replace (x * (1 + e) + h - x) with (x * e + h) by ring.
  eapply Rle_trans; [apply Rabs_triang|]. rewrite Rabs_mult. replace (/ 2 * bpow radix2 (- (24) + 1)) with uu in He by (change (- (24) + 1)%Z with (-24 + 1)%Z; rewrite bpow_plus; change (bpow radix2 1) with 2; field). replace (/ 2 * bpow radix2 (-149)) with eta in Hh by (change (-149)%Z with (-150 + 1)%Z; rewrite bpow_plus; change (bpow radix2 1) with 2; field).
  rewrite (Rmult_comm uu). apply Rplus_le_compat; [|exact Hh]. apply Rmult_le_compat_l; [apply Rabs_pos|exact He].
Qed.
Lemma int_ok z : (0 <= z < 2 ^ 24)%Z -> fin (int32 z) /\ B2R (int32 z) = IZR z.
Proof.
  intros Hz. assert (F : fmt32 (IZR z)). { apply (generic_format_FLT radix2 (-149) 24). exists (Float radix2 z 0); [unfold F2R; cbn; lra|cbn; lia|cbn; lia]. }
  pose proof (binary_normalize_correct 24 128 prec24 emax128 mode_NE z 0 false) as C. cbn [round_mode] in C. replace (F2R (Float radix2 z 0)) with (IZR z) in C by (unfold F2R; cbn; lra).
  rewrite (small 24 128 P24) in C. { destruct C as (C1 & C2 & _). split; [exact C2|]. unfold num. rewrite C1. now apply (rnd_id 24 128). }
  assert (0 <= IZR z <= IZR (2 ^ 24)) by (split; apply IZR_le; lia). rewrite Rabs_pos_eq by lra. eapply Rle_trans; [apply H|]. change (2 ^ 24)%Z with (Zpower radix2 24). rewrite IZR_Zpower by lia. apply bpow_le. lia.
Qed.

(** ** Clamping *)
Lemma fmax_ok a b : fin a -> fin b -> fin (fmax a b) /\ B2R (fmax a b) = Rmax (B2R a) (B2R b).
Proof. intros Fa Fb. unfold fmax. rewrite (Bltb_correct 24 128 a b Fa Fb). case Rlt_bool_spec; intros H; split; auto; [rewrite Rmax_right|rewrite Rmax_left]; lra. Qed.
Lemma fmin_ok a b : fin a -> fin b -> fin (fmin a b) /\ B2R (fmin a b) = Rmin (B2R a) (B2R b).
Proof. intros Fa Fb. unfold fmin. rewrite (Bltb_correct 24 128 b a Fb Fa). case Rlt_bool_spec; intros H; split; auto; [rewrite Rmin_right|rewrite Rmin_left]; lra. Qed.
Lemma clamp_ok x lo hi : fin x -> fin lo -> fin hi -> B2R lo <= B2R hi -> fin (clamp x lo hi) /\ B2R lo <= B2R (clamp x lo hi) <= B2R hi.
Proof.
  intros Fx Fl Fh H. destruct (fmax_ok x lo Fx Fl) as [F1 E1]. destruct (fmin_ok (fmax x lo) hi F1 Fh) as [F2 E2]. unfold clamp. split; [exact F2|]. rewrite E2, E1. split; [apply Rmin_glb; [apply Rmax_r|exact H]|apply Rmin_r].
Qed.
Lemma clamp_inf x lo hi : B2SF x = SpecFloat.S754_infinity false -> fin lo -> fin hi -> clamp x lo hi = hi.
Proof.
  intros E Fl Fh. destruct x as [s|s| |s m e B]; cbn in E; try discriminate. injection E as ->. unfold clamp, fmax. replace (Bltb (B754_infinity false) lo) with false by (destruct lo as [s|[]| |[] m e B]; try discriminate; reflexivity).
  unfold fmin. now replace (Bltb hi (B754_infinity false)) with true by (destruct hi as [s|[]| |[] m e B]; try discriminate; reflexivity).
Qed.
Lemma sign_pos (x : binary32) : 0 < B2R x -> Bsign x = false.
Proof. destruct x as [s|s| |[] m e B]; cbn; intros H; try reflexivity; exfalso; try lra. unfold F2R in H. cbn in H. pose proof (bpow_gt_0 radix2 e). assert (IZR (Z.neg m) < 0) by (apply IZR_lt; lia). nra. Qed.

(** ** Positions *)
Section Row.
  Context (z0 z1 zl : binary32) (n : nat) (Hn : (2 <= Z.of_nat n <= 65536)%Z) (F0 : fin z0) (F1 : fin z1) (Fl : fin zl) (L1 : B2R z0 < B2R z1) (Ll : B2R z0 <= B2R zl)
    (B0 : Rabs (B2R z0) <= 2 ^ 100) (B1 : Rabs (B2R z1) <= 2 ^ 100) (Bl : Rabs (B2R zl) <= 2 ^ 100).
  Lemma n_int : (0 <= Z.of_nat n - 1 < 2 ^ 24)%Z.
  Proof. lia. Qed.
  Lemma position_ok y : fin y -> fin (position z0 z1 zl n y) /\ 0 <= B2R (position z0 z1 zl n y) <= INR n - 1.
  Proof.
    intros Fy. pose proof n_int as Ni. destruct (int_ok (Z.of_nat n - 1) Ni) as [Fn En]. destruct (int_ok 0 (conj (Z.le_refl 0) eq_refl)) as [Fz Ez]. assert (En' : B2R (int32 (Z.of_nat n - 1)) = INR n - 1) by (rewrite En, minus_IZR, <- INR_IZR_INZ; reflexivity).
    pose proof (Rabs_le_inv _ _ B0). pose proof (Rabs_le_inv _ _ B1). pose proof (Rabs_le_inv _ _ Bl). pose proof big100. assert (P : 0 < 2 ^ 100) by (apply pow_lt; lra).
    destruct (clamp_ok y z0 zl Fy F0 Fl Ll) as [Fc Rc]. destruct (minus_ok 24 128 P24 (clamp y z0 zl) z0 Fc F0) as [Fm Em]; [apply Rabs_le; lra|]. destruct (minus_ok 24 128 P24 z1 z0 F1 F0) as [Fd Ed]; [apply Rabs_le; lra|].
    assert (Pm : 0 <= B2R (Bminus mode_NE (clamp y z0 zl) z0)) by (rewrite Em; apply (rnd_lb 24 128); [apply generic_format_0|lra]).
    assert (Pd : 0 < B2R (Bminus mode_NE z1 z0)).
    { rewrite Ed. assert (H9 : 0 <= rnd32 (B2R z1 - B2R z0)) by (apply (rnd_lb 24 128); [apply generic_format_0|lra]). destruct H9 as [H9|H9]; [exact H9|]. exfalso.
      assert (E : Rabs (rnd32 (B2R z1 + - B2R z0) - (B2R z1 + - B2R z0)) <= uu * Rabs (B2R z1 + - B2R z0)) by (apply (plus_error 24 128); [apply (fmt_float 24 128)|apply (fmt_opp 24 128), (fmt_float 24 128)]).
      replace (B2R z1 + - B2R z0) with (B2R z1 - B2R z0) in E by ring. rewrite <- H9 in E. rewrite (Rabs_pos_eq (B2R z1 - B2R z0)) in E by lra. apply Rabs_le_inv in E. rewrite uu_val in E. change (2 ^ 24)%Z with 16777216%Z in E. lra. }
    unfold position. rewrite <- Ez, <- En'. assert (Hz : B2R (int32 0) <= B2R (int32 (Z.of_nat n - 1))) by (rewrite Ez, En; apply IZR_le; exact (proj1 Ni)).
    pose proof (Bdiv_correct 24 128 prec24 emax128 mode_NE (Bminus mode_NE (clamp y z0 zl) z0) (Bminus mode_NE z1 z0) (Rgt_not_eq _ _ Pd)) as C. destruct (Rlt_bool _ _) eqn:Ro in C.
    - destruct C as (_ & C & _). rewrite Fm in C. now apply clamp_ok.
    - rewrite clamp_inf; [split; [exact Fn|lra]| |exact Fz|exact Fn]. rewrite C. rewrite (sign_pos _ Pd). destruct Pm as [Pm|Pm]; [rewrite (sign_pos _ Pm); reflexivity|].
      exfalso. rewrite <- Pm in Ro. unfold Rdiv in Ro. rewrite Rmult_0_l, round_0, Rabs_R0, Rlt_bool_true in Ro by (try apply valid_rnd_round_mode; apply bpow_gt_0). discriminate.
  Qed.

  (** The position is near the exact one. *)
  Lemma clamp_val x lo hi : fin x -> fin lo -> fin hi -> B2R (clamp x lo hi) = Rmin (Rmax (B2R x) (B2R lo)) (B2R hi).
  Proof. intros Fx Fo Fh. destruct (fmax_ok x lo Fx Fo) as [G1 E1]. destruct (fmin_ok (fmax x lo) hi G1 Fh) as [_ E2]. unfold clamp. now rewrite E2, E1. Qed.
  Definition exact_pos (y : binary32) : R := Rmin ((Rmin (Rmax (B2R y) (B2R z0)) (B2R zl) - B2R z0) / (B2R z1 - B2R z0)) (INR n - 1).
  Lemma sub_err (a b : binary32) : Rabs (rnd32 (B2R a - B2R b) - (B2R a - B2R b)) <= uu * Rabs (B2R a - B2R b).
  Proof. apply (plus_error 24 128 (B2R a) (- B2R b)); [apply (fmt_float 24 128)|apply (fmt_opp 24 128), (fmt_float 24 128)]. Qed.
  Lemma quotient_err a d a' d' : 0 <= a -> 0 < d -> (1 - uu) * a <= a' <= (1 + uu) * a -> (1 - uu) * d <= d' <= (1 + uu) * d ->
    (1 - 3 * uu) * (a / d) <= a' / d' - uu * (a' / d') /\ a' / d' + uu * (a' / d') <= (1 + 4 * uu) * (a / d).
  Proof.
    intros Ha Hd Ra Rd. assert (Us : uu = / 16777216) by (rewrite uu_val; reflexivity). rewrite Us in *. assert (D' : 0 < d') by lra.
    set (q := a / d). assert (Eq : a = q * d) by (unfold q; field; lra). assert (Q : 0 <= q) by (unfold q; apply Rmult_le_pos; [exact Ha|left; now apply Rinv_0_lt_compat]). clearbody q. subst a.
    set (q' := a' / d'). assert (Eq' : a' = q' * d') by (unfold q'; field; lra). clearbody q'. subst a'. set (e := / 16777216) in *. assert (He : 0 < e < / 1000) by (unfold e; lra). clearbody e.
    assert (qd : 0 <= q * d) by (apply Rmult_le_pos; lra). assert (Q' : 0 <= q'). { destruct (Rle_or_lt 0 q') as [H|H]; [exact H|]. exfalso. assert (0 <= (1 - e) * (q * d)) by (apply Rmult_le_pos; lra). nra. }
    assert (U1 : q' * ((1 - e) * d) <= q' * d') by (apply Rmult_le_compat_l; lra). assert (U2 : q' * d' <= q' * ((1 + e) * d)) by (apply Rmult_le_compat_l; lra).
    assert (A : q' * (1 - e) <= (1 + e) * q) by (apply Rmult_le_reg_r with d; [exact Hd|]; lra). assert (B : (1 - e) * q <= q' * (1 + e)) by (apply Rmult_le_reg_r with d; [exact Hd|]; lra).
    split.
    - apply Rmult_le_reg_r with (1 + e); [lra|]. replace ((q' - e * q') * (1 + e)) with ((1 - e) * (q' * (1 + e))) by ring. apply Rle_trans with ((1 - e) * ((1 - e) * q)); [|apply Rmult_le_compat_l; lra].
      assert (0 <= e * e * q) by (apply Rmult_le_pos; [apply Rmult_le_pos; lra|lra]). lra.
    - apply Rmult_le_reg_r with (1 - e); [lra|]. replace ((q' + e * q') * (1 - e)) with ((1 + e) * (q' * (1 - e))) by ring. apply Rle_trans with ((1 + e) * ((1 + e) * q)); [apply Rmult_le_compat_l; lra|].
      assert (0 <= e * q) by (apply Rmult_le_pos; lra). assert (5 * e * (e * q) <= 1 * (e * q)) by (apply Rmult_le_compat_r; lra). lra.
  Qed.
  Lemma position_near y : fin y -> 0 <= exact_pos y <= INR n - 1 /\ (1 - 4 * uu) * exact_pos y - eta <= B2R (position z0 z1 zl n y) <= (1 + 4 * uu) * exact_pos y + eta.
  Proof.
    intros Fy. pose proof n_int as Ni. destruct (int_ok (Z.of_nat n - 1) Ni) as [Fn En]. destruct (int_ok 0 (conj (Z.le_refl 0) eq_refl)) as [Fz Ez]. assert (En' : B2R (int32 (Z.of_nat n - 1)) = INR n - 1) by (rewrite En, minus_IZR, <- INR_IZR_INZ; reflexivity).
    pose proof (Rabs_le_inv _ _ B0). pose proof (Rabs_le_inv _ _ B1). pose proof (Rabs_le_inv _ _ Bl). pose proof big100. assert (P : 0 < 2 ^ 100) by (apply pow_lt; lra). pose proof uu_pos as Pu. pose proof eta_pos as Pe. assert (Us : uu = / 16777216) by (rewrite uu_val; reflexivity).
    assert (Nb : 1 <= INR n - 1 <= 65535). { split; [assert (N2 : INR 2 <= INR n) by (apply le_INR; clear - Hn; lia); change (INR 2) with (1 + 1) in N2; lra|]. assert (INR n <= 65536); [|lra]. rewrite INR_IZR_INZ. apply IZR_le. exact (proj2 Hn). }
    destruct (clamp_ok y z0 zl Fy F0 Fl Ll) as [Fc Rc]. destruct (minus_ok 24 128 P24 (clamp y z0 zl) z0 Fc F0) as [Fm Em]; [apply Rabs_le; lra|]. destruct (minus_ok 24 128 P24 z1 z0 F1 F0) as [Fd Ed]; [apply Rabs_le; lra|].
    pose proof (sub_err (clamp y z0 zl) z0) as Sm. pose proof (sub_err z1 z0) as Sd. rewrite <- Em in Sm. rewrite <- Ed in Sd. rewrite (Rabs_pos_eq (B2R (clamp y z0 zl) - B2R z0)) in Sm by lra. rewrite (Rabs_pos_eq (B2R z1 - B2R z0)) in Sd by lra. apply Rabs_le_inv in Sm, Sd.
    unfold exact_pos. rewrite <- (clamp_val y z0 zl Fy F0 Fl). unfold position. set (a' := Bminus mode_NE (clamp y z0 zl) z0) in *. set (d' := Bminus mode_NE z1 z0) in *. set (a := B2R (clamp y z0 zl) - B2R z0) in *. set (d := B2R z1 - B2R z0) in *. assert (Ha : 0 <= a) by (unfold a; lra). assert (Hd : 0 < d) by (unfold d; lra).
    destruct (quotient_err a d (B2R a') (B2R d') Ha Hd ltac:(lra) ltac:(lra)) as [Q1 Q2]. set (e := a / d) in *. set (q := B2R a' / B2R d') in *. assert (He : 0 <= e) by (unfold e; apply Rmult_le_pos; [exact Ha|left; now apply Rinv_0_lt_compat]).
    assert (Dp : 0 < B2R d') by (rewrite Us in Sd; lra). assert (Ap : 0 <= B2R a') by (rewrite Us in Sm; lra). assert (Hq : 0 <= q) by (unfold q; apply Rmult_le_pos; [exact Ap|left; now apply Rinv_0_lt_compat]).
    pose proof (mult_err q) as Eq. rewrite (Rabs_pos_eq q Hq) in Eq. apply Rabs_le_inv in Eq.
    assert (X0 : 0 <= Rmin e (INR n - 1) <= INR n - 1) by (split; [apply Rmin_glb; lra|apply Rmin_r]). split; [exact X0|].
    assert (ue : 0 <= uu * e) by (apply Rmult_le_pos; lra). assert (uX : 0 <= uu * Rmin e (INR n - 1)) by (apply Rmult_le_pos; lra). assert (Xe : Rmin e (INR n - 1) <= e) by apply Rmin_l.
    assert (XL : (1 - 4 * uu) * Rmin e (INR n - 1) <= (1 - 4 * uu) * e) by (apply Rmult_le_compat_l; [rewrite Us; lra|exact Xe]).
    pose proof (Bdiv_correct 24 128 prec24 emax128 mode_NE a' d' (Rgt_not_eq _ _ Dp)) as C. cbn [round_mode] in C. fold q in C. destruct (Rlt_bool _ _) eqn:Ro in C.
    - destruct C as (Ev & Fv & _). rewrite Fm in Fv. rewrite (clamp_val _ _ _ Fv Fz Fn), Ev, Ez, En'. change (rnd32 q) with (rnd32 q) in *. set (v := rnd32 q) in *. change (round radix2 fexp32 ZnearestE q) with v.
      assert (V : (1 - 4 * uu) * e - eta <= v <= (1 + 4 * uu) * e + eta) by lra. split.
      + apply Rmin_glb; [apply Rle_trans with v; [lra|apply Rmax_l]|lra].
      + destruct (Rle_or_lt e (INR n - 1)) as [Hl|Hl].
        * rewrite (Rmin_left e) by lra. eapply Rle_trans; [apply Rmin_l|]. apply Rmax_lub; [lra|]. assert (0 <= 4 * uu * e) by lra. lra.
        * rewrite (Rmin_right e) in * by lra. eapply Rle_trans; [apply Rmin_r|]. lra.
    - assert (Sg : SpecFloat.S754_infinity (xorb (Bsign a') (Bsign d')) = SpecFloat.S754_infinity false).
      { rewrite (sign_pos _ Dp). destruct Ap as [Ap|Ap]; [rewrite (sign_pos _ Ap); reflexivity|]. exfalso. unfold q in Ro. rewrite <- Ap in Ro. unfold Rdiv in Ro. rewrite Rmult_0_l, round_0, Rabs_R0, Rlt_bool_true in Ro by (first [apply bpow_gt_0|apply valid_rnd_N]). discriminate. }
      rewrite clamp_inf; [|rewrite C; exact Sg|exact Fz|exact Fn]. rewrite En'.
      assert (Big : bpow radix2 128 <= rnd32 q). { destruct (Rlt_bool_spec (Rabs (rnd32 q)) (bpow radix2 128)) as [Hl|Hl]; [discriminate|]. rewrite Rabs_pos_eq in Hl; [exact Hl|]. apply (rnd_lb 24 128); [apply generic_format_0|exact Hq]. }
      assert (Big2 : 2 * 65536 <= bpow radix2 128). { replace (2 * 65536) with (bpow radix2 17) by (cbn; lra). apply bpow_le. discriminate. }
      assert (e1 : INR n - 1 <= e). { assert (4 * uu * e <= 1 * e) by (apply Rmult_le_compat_r; [exact He|rewrite Us; lra]). pose proof eta_one. pose proof (Rmult_le_pos uu q (Rlt_le _ _ Pu) Hq). lra. }
      rewrite (Rmin_right e) in * by lra. assert (0 <= 4 * uu * (INR n - 1)) by lra. lra.
  Qed.

  Lemma floor_round x : round radix2 (FIX_exp 0) Zfloor x = IZR (Zfloor x).
  Proof. unfold round, scaled_mantissa, cexp, FIX_exp, F2R. cbn [Fnum Fexp]. change (bpow radix2 (- 0)) with 1. change (bpow radix2 0) with 1. now rewrite !Rmult_1_r. Qed.
  Lemma ceil_round x : round radix2 (FIX_exp 0) Zceil x = IZR (Zceil x).
  Proof. unfold round, scaled_mantissa, cexp, FIX_exp, F2R. cbn [Fnum Fexp]. change (bpow radix2 (- 0)) with 1. change (bpow radix2 0) with 1. now rewrite !Rmult_1_r. Qed.
  Lemma trunc_round x : round radix2 (FIX_exp 0) Ztrunc x = IZR (Ztrunc x).
  Proof. unfold round, scaled_mantissa, cexp, FIX_exp, F2R. cbn [Fnum Fexp]. change (bpow radix2 (- 0)) with 1. change (bpow radix2 0) with 1. now rewrite !Rmult_1_r. Qed.
  Lemma trunc_val (x : binary32) k : B2R x = IZR k -> Btrunc x = k.
  Proof. intros E. apply eq_IZR. rewrite (Btrunc_correct 24 128 emax128 x), trunc_round, E, Ztrunc_IZR. reflexivity. Qed.

  Definition in_row (iv : Z * binary32) : Prop := (0 <= fst iv < Z.of_nat n)%Z /\ finite_nonneg (snd iv).
  Lemma shares_ok y p : fin y -> finite_nonneg p -> B2R p <= 2 -> let s := shares z0 z1 zl n (y, p) in in_row (fst s) /\ in_row (snd s) /\
    (1 - uu) ^ 2 * B2R p - 2 * eta <= B2R (snd (fst s)) + B2R (snd (snd s)) <= (1 + uu) ^ 2 * B2R p + 2 * eta /\
    (1 - uu) ^ 2 * (B2R p * B2R (position z0 z1 zl n y)) - 2 * INR n * eta <= IZR (fst (fst s)) * B2R (snd (fst s)) + IZR (fst (snd s)) * B2R (snd (snd s)) <= (1 + uu) ^ 2 * (B2R p * B2R (position z0 z1 zl n y)) + 2 * INR n * eta.
  Proof.
    intros Fy [Fp Pp] P2. cbv zeta. unfold shares. destruct (position_ok y Fy) as [Fb Rb]. set (b := position z0 z1 zl n y) in *. cbn [fst snd].
    destruct (Bnearbyint_correct 24 128 emax128 mode_DN b) as (El & Fl' & _). destruct (Bnearbyint_correct 24 128 emax128 mode_UP b) as (Eu & Fu & _). cbn [round_mode] in El, Eu. rewrite floor_round in El. rewrite ceil_round in Eu. rewrite Fb in Fl', Fu.
    pose proof (Zfloor_lb (B2R b)) as Lb. pose proof (Zfloor_ub (B2R b)) as Ub. pose proof (Zceil_ub (B2R b)) as Cb.
    assert (Il : (0 <= Zfloor (B2R b) < Z.of_nat n)%Z) by (split; [apply Zfloor_lub; cbn; lra|apply lt_IZR; rewrite <- INR_IZR_INZ; lra]).
    assert (Iu : (0 <= Zceil (B2R b) < Z.of_nat n)%Z). { split; [apply le_IZR; lra|]. assert (Hc : (Zceil (B2R b) <= Z.of_nat n - 1)%Z); [|clear - Hc; lia]. apply Zceil_glb. rewrite minus_IZR, <- INR_IZR_INZ. lra. }
    pose proof big_large as Bg. pose proof uu_pos as Pu. pose proof eta_pos as Pe. assert (Us : uu < / 1000) by (rewrite uu_val; change (2 ^ 24)%Z with 16777216%Z; lra).
    destruct (minus_ok 24 128 P24 b (Bnearbyint mode_DN b) Fb Fl') as [Ff Ef]; [rewrite El; apply Rabs_le; lra|]. rewrite El in Ef. set (f := Bminus mode_NE b (Bnearbyint mode_DN b)) in *.
    assert (Rf : 0 <= B2R f <= 1) by (rewrite Ef; split; [apply (rnd_lb 24 128); [apply generic_format_0|lra]|apply (rnd_ub 24 128); [now apply (fmt_1 24 128 P24)|lra]]).
    destruct (int_ok 1 (conj (ltac:(discriminate) : (0 <= 1)%Z) eq_refl)) as [F1' E1']. destruct (minus_ok 24 128 P24 (int32 1) f F1' Ff) as [Fg Eg]; [rewrite E1'; apply Rabs_le; lra|]. rewrite E1' in Eg. set (g := Bminus mode_NE (int32 1) f) in *.
    assert (Rg : 0 <= B2R g <= 1) by (rewrite Eg; split; [apply (rnd_lb 24 128); [apply generic_format_0|lra]|apply (rnd_ub 24 128); [now apply (fmt_1 24 128 P24)|lra]]).
    assert (Er : Rabs (B2R g - (1 - B2R f)) <= uu * (1 - B2R f)). { rewrite Eg. pose proof (plus_error 24 128 1 (- B2R f) (fmt_1 24 128 P24) (fmt_opp 24 128 _ (fmt_float 24 128 f))) as E. fold (1 - B2R f) in E. rewrite (Rabs_pos_eq (1 - B2R f)) in E by lra. exact E. }
    assert (Pg : 0 <= B2R p * B2R g <= 2) by (split; [apply Rmult_le_pos; lra|nra]). assert (Pf : 0 <= B2R p * B2R f <= 2) by (split; [apply Rmult_le_pos; lra|nra]).
    destruct (mult_ok 24 128 P24 p g Fp Fg) as [Fml Eml]; [apply Rabs_le; lra|]. destruct (mult_ok 24 128 P24 p f Fp Ff) as [Fmu Emu]; [apply Rabs_le; lra|].
    pose proof (mult_err (B2R p * B2R g)) as M1. pose proof (mult_err (B2R p * B2R f)) as M2. rewrite <- Eml, Rabs_pos_eq with (x := B2R p * B2R g) in M1 by lra. rewrite <- Emu, Rabs_pos_eq with (x := B2R p * B2R f) in M2 by lra.
    assert (Tot : (1 - uu) ^ 2 * B2R p - 2 * eta <= B2R (Bmult mode_NE p g) + B2R (Bmult mode_NE p f) <= (1 + uu) ^ 2 * B2R p + 2 * eta).
    { clear - M1 M2 Er Pp Rf Rg Pu Us Pe. apply Rabs_le_inv in M1, M2, Er. set (ml := B2R (Bmult mode_NE p g)) in *. set (mu := B2R (Bmult mode_NE p f)) in *. set (pp := B2R p) in *. set (ff := B2R f) in *. set (gg := B2R g) in *. clearbody ml mu pp ff gg. clear - M1 M2 Er Pp Rf Rg Pu Us Pe.
      assert (G1 : pp * gg <= pp * ((1 - ff) * (1 + uu))) by (apply Rmult_le_compat_l; lra). assert (G2 : pp * ((1 - ff) * (1 - uu)) <= pp * gg) by (apply Rmult_le_compat_l; lra).
      assert (Q : 0 <= pp * ff) by (apply Rmult_le_pos; lra). assert (Q' : 0 <= pp * (1 - ff)) by (apply Rmult_le_pos; lra). set (a := pp * gg) in *. set (c := pp * ff) in *.
      assert (H1 : (1 + uu) * a <= (1 + uu) * (pp * ((1 - ff) * (1 + uu)))) by (apply Rmult_le_compat_l; lra). assert (H2 : (1 - uu) * (pp * ((1 - ff) * (1 - uu))) <= (1 - uu) * a) by (apply Rmult_le_compat_l; lra).
      assert (H3 : 0 <= uu * c) by (apply Rmult_le_pos; lra). assert (H4 : 0 <= uu * (uu * c)) by (apply Rmult_le_pos; lra). assert (H5 : 0 <= (1 - uu) * (uu * c)) by (apply Rmult_le_pos; lra).
      replace ((1 + uu) ^ 2 * pp) with ((1 + uu) * (pp * ((1 - ff) * (1 + uu))) + (c + 2 * (uu * c) + uu * (uu * c))) by (unfold c; ring). replace ((1 - uu) ^ 2 * pp) with ((1 - uu) * (pp * ((1 - ff) * (1 - uu))) + (c - uu * c - (1 - uu) * (uu * c))) by (unfold c; ring). split; lra. }
    split; [|split; [|split]].
    - split; cbn [fst snd]; [rewrite (trunc_val _ _ El); exact Il|]. split; [exact Fml|]. rewrite Eml. apply (rnd_lb 24 128); [apply generic_format_0|lra].
    - split; cbn [fst snd]; [rewrite (trunc_val _ _ Eu); exact Iu|]. split; [exact Fmu|]. rewrite Emu. apply (rnd_lb 24 128); [apply generic_format_0|lra].
    - exact Tot.
    - rewrite (trunc_val _ _ El), (trunc_val _ _ Eu). apply Rabs_le_inv in M2.
      assert (Ef2 : Rabs (B2R f - (B2R b - IZR (Zfloor (B2R b)))) <= uu * (B2R b - IZR (Zfloor (B2R b)))). { pose proof (sub_err b (Bnearbyint mode_DN b)) as E. rewrite El in E. rewrite <- Ef in E. rewrite (Rabs_pos_eq (B2R b - IZR (Zfloor (B2R b)))) in E by lra. exact E. } apply Rabs_le_inv in Ef2.
      assert (Hl : 0 <= IZR (Zfloor (B2R b)) <= INR n - 1). { clear - Il. split; [apply IZR_le; lia|]. rewrite INR_IZR_INZ, <- minus_IZR. apply IZR_le. lia. }
      assert (Hu : IZR (Zceil (B2R b)) = IZR (Zfloor (B2R b)) /\ B2R b = IZR (Zfloor (B2R b)) \/ IZR (Zceil (B2R b)) = IZR (Zfloor (B2R b)) + 1).
      { destruct (Req_dec (IZR (Zfloor (B2R b))) (B2R b)) as [E|E]; [left|right; rewrite (Zceil_floor_neq _ E), plus_IZR; reflexivity]. split; [|now symmetry]. rewrite <- E. now rewrite Zceil_IZR, Zfloor_IZR. }
      set (ml := B2R (Bmult mode_NE p g)) in *. set (mu := B2R (Bmult mode_NE p f)) in *. set (pp := B2R p) in *. set (ff := B2R f) in *. set (bb := B2R b) in *. set (l := IZR (Zfloor bb)) in *. set (u := IZR (Zceil bb)) in *. set (nn := INR n) in *. clearbody ml mu pp ff bb l u nn.
      clear - Tot M2 Pp Rf Pu Us Pe Lb Ef2 Hl Hu. assert (T1 : l * ((1 - uu) ^ 2 * pp - 2 * eta) <= l * (ml + mu)) by (apply Rmult_le_compat_l; lra). assert (T2 : l * (ml + mu) <= l * ((1 + uu) ^ 2 * pp + 2 * eta)) by (apply Rmult_le_compat_l; lra).
      assert (le : l * eta <= (nn - 1) * eta) by (apply Rmult_le_compat_r; lra). assert (ne : 0 <= l * eta) by (apply Rmult_le_pos; lra).
      destruct Hu as [[-> Hb] | -> ]; [subst bb; split; lra|].
      assert (F1 : pp * ff <= pp * ((1 + uu) * (bb - l))) by (apply Rmult_le_compat_l; lra). assert (F2 : pp * ((1 - uu) * (bb - l)) <= pp * ff) by (apply Rmult_le_compat_l; lra).
      assert (G1 : (1 + uu) * (pp * ff) <= (1 + uu) * (pp * ((1 + uu) * (bb - l)))) by (apply Rmult_le_compat_l; lra). assert (G2 : (1 - uu) * (pp * ((1 - uu) * (bb - l))) <= (1 - uu) * (pp * ff)) by (apply Rmult_le_compat_l; lra).
      replace ((1 - uu) ^ 2 * (pp * bb)) with (l * ((1 - uu) ^ 2 * pp) + (1 - uu) * (pp * ((1 - uu) * (bb - l)))) by ring. replace ((1 + uu) ^ 2 * (pp * bb)) with (l * ((1 + uu) ^ 2 * pp) + (1 + uu) * (pp * ((1 + uu) * (bb - l)))) by ring. split; lra.
  Qed.
End Row.

(** ** Adding up *)
Lemma total_app a b : total (a ++ b) = total a + total b.
Proof. induction a as [|x a IH]; cbn; [ring|]. rewrite IH. ring. Qed.
Lemma total_nonneg l : Forall finite_nonneg l -> 0 <= total l.
Proof. induction 1 as [|x l [_ H] F IH]; cbn; lra. Qed.
Lemma total_set l : forall i x y, nth_error l i = Some x -> total (list_set l i y) = total l - B2R x + B2R y.
Proof. induction l as [|a l IH]; intros [|i] x y E; cbn in E; try discriminate; cbn [list_set total]; [injection E as ->; ring|]. rewrite (IH i x y E). ring. Qed.
Lemma total_elem l : forall i x, Forall finite_nonneg l -> nth_error l i = Some x -> B2R x <= total l.
Proof. induction l as [|a l IH]; intros [|i] x F E; cbn in E; try discriminate; inversion F as [|? ? [_ Ha] F']; subst; cbn [total]; [injection E as <-; pose proof (total_nonneg l F'); lra|]. specialize (IH i x F' E). lra. Qed.
(** The first moment: position times amount. *)
Definition moment_ops (ops : list (Z * binary32)) : R := fold_right (fun iv acc => IZR (fst iv) * B2R (snd iv) + acc) 0 ops.
Lemma moment_nonneg l : forall k, Forall finite_nonneg l -> 0 <= moment k l.
Proof. induction l as [|x l IH]; intros k F; cbn [moment]; [lra|]. inversion F as [|? ? [_ Hx] F']; subst. specialize (IH (S k) F'). assert (0 <= INR k * B2R x) by (apply Rmult_le_pos; [apply pos_INR|exact Hx]). lra. Qed.
Lemma moment_ops_nonneg n ops : Forall (in_row n) ops -> 0 <= moment_ops ops.
Proof. induction 1 as [|[i v] ops [Hi [_ Hv]] F IH]; cbn [moment_ops fold_right fst snd] in *; [lra|]. fold (moment_ops ops). assert (0 <= IZR i * B2R v) by (apply Rmult_le_pos; [apply IZR_le; lia|exact Hv]). lra. Qed.
Lemma moment_set l : forall k i x y, nth_error l i = Some x -> moment k (list_set l i y) = moment k l - INR (k + i) * B2R x + INR (k + i) * B2R y.
Proof. induction l as [|a l IH]; intros k [|i] x y E; cbn in E; try discriminate; cbn [list_set moment]; [injection E as ->; rewrite Nat.add_0_r; ring|]. rewrite (IH (S k) i x y E). replace (S k + i)%nat with (k + S i)%nat by lia. ring. Qed.
Lemma moment_elem l : forall k i x, Forall finite_nonneg l -> nth_error l i = Some x -> INR (k + i) * B2R x <= moment k l.
Proof.
  induction l as [|a l IH]; intros k [|i] x F E; cbn in E; try discriminate; inversion F as [|? ? [_ Ha] F']; subst; cbn [moment]; [injection E as <-; rewrite Nat.add_0_r; pose proof (moment_nonneg l (S k) F'); lra|].
  specialize (IH (S k) i x F' E). replace (S k + i)%nat with (k + S i)%nat in IH by lia. assert (0 <= INR k * B2R a) by (apply Rmult_le_pos; [apply pos_INR|exact Ha]). lra.
Qed.
Lemma scatter_total n ops : forall t, length t = n -> Forall finite_nonneg t -> Forall (in_row n) ops -> (1 + uu) ^ length ops * (total t + total (map snd ops)) <= big32 ->
  exists t', scatter_add t ops = Ok t' /\ length t' = n /\ Forall finite_nonneg t' /\ (1 - uu) ^ length ops * (total t + total (map snd ops)) <= total t' <= (1 + uu) ^ length ops * (total t + total (map snd ops)) /\
    (1 - uu) ^ length ops * (moment 0 t + moment_ops ops) <= moment 0 t' <= (1 + uu) ^ length ops * (moment 0 t + moment_ops ops).
Proof.
  induction ops as [|[i v] ops IH]; intros t Lt Ft Fo Hb; cbn [scatter_add map total length pow moment_ops fold_right] in *; [exists t; repeat split; auto; lra|]. fold (moment_ops ops).
  inversion Fo as [|? ? [Hi [Fv Pv]] Fo']; subst. cbn [fst snd] in *. replace (0 <=? i)%Z with true by lia. destruct (nth_error t (Z.to_nat i)) as [x|] eqn:Nx; [|apply nth_error_None in Nx; lia].
  pose proof uu_pos as Pu. assert (Us : uu < / 1000) by (rewrite uu_val; change (2 ^ 24)%Z with 16777216%Z; lra).
  assert (Px : finite_nonneg x) by (rewrite Forall_forall in Ft; exact (Ft x (nth_error_In _ _ Nx))). destruct Px as [Fx Px]. pose proof (total_elem t _ x Ft Nx) as Lx.
  assert (Vn : 0 <= total (map snd ops)). { apply total_nonneg. apply Forall_forall. intros w Hw. apply in_map_iff in Hw. destruct Hw as (o & <- & Ho). rewrite Forall_forall in Fo'. exact (proj2 (Fo' o Ho)). }
  assert (K1 : 1 <= (1 + uu) ^ length ops) by (apply pow_R1_Rle; lra). assert (K0 : 0 <= (1 - uu) ^ length ops) by (apply pow_le; lra). pose proof (total_nonneg t Ft) as Tn.
  set (K := (1 + uu) ^ length ops) in *. set (K' := (1 - uu) ^ length ops) in *. set (T := total t) in *. set (V := total (map snd ops)) in *. set (vv := B2R v) in *.
  assert (Big : T + (vv + V) <= big32). { eapply Rle_trans; [|exact Hb]. rewrite <- (Rmult_1_l (T + (vv + V))) at 1. apply Rmult_le_compat_r; [lra|]. assert (1 * 1 <= (1 + uu) * K) by (apply Rmult_le_compat; lra). lra. }
  destruct (plus_ok 24 128 P24 x v Fx Fv) as [Fs Es]; [rewrite Rabs_pos_eq; fold vv; lra|]. fold vv in Es.
  assert (Er : Rabs (rnd32 (B2R x + vv) - (B2R x + vv)) <= uu * Rabs (B2R x + vv)) by (apply (plus_error 24 128); apply (fmt_float 24 128)). rewrite (Rabs_pos_eq (B2R x + vv)) in Er by lra. rewrite <- Es in Er. apply Rabs_le_inv in Er.
  assert (Ps : 0 <= B2R (Bplus mode_NE x v)) by (rewrite Es; apply (rnd_lb 24 128); [apply generic_format_0|lra]).
  set (t1 := list_set t (Z.to_nat i) (Bplus mode_NE x v)). assert (T1 : total t1 = T - B2R x + B2R (Bplus mode_NE x v)) by (apply total_set; exact Nx).
  assert (U1 : uu * (B2R x + vv) <= uu * (T + vv)) by (apply Rmult_le_compat_l; lra). assert (R1 : (1 - uu) * (T + vv) <= total t1 <= (1 + uu) * (T + vv)) by (rewrite T1; lra).
  assert (F1 : Forall finite_nonneg t1). { apply Forall_forall. intros w Hw. apply In_nth_error in Hw. destruct Hw as (k & Hk). unfold t1 in Hk. rewrite nth_error_list_set in Hk. match type of Hk with (if ?c then _ else _) = _ => destruct c end; [injection Hk as <-; now split|]. rewrite Forall_forall in Ft. exact (Ft w (nth_error_In _ _ Hk)). }
  assert (uV : 0 <= uu * V) by (apply Rmult_le_pos; lra).
  pose proof (moment_elem t 0 _ x Ft Nx) as Mx. pose proof (moment_set t 0 _ x (Bplus mode_NE x v) Nx) as M1. fold t1 in M1. rewrite Nat.add_0_l in Mx, M1. assert (Ei : INR (Z.to_nat i) = IZR i) by (rewrite INR_IZR_INZ, Z2Nat.id by lia; reflexivity). rewrite Ei in Mx, M1. pose proof (moment_ops_nonneg _ _ Fo') as Mn.
  assert (I0 : 0 <= IZR i) by (apply IZR_le; lia). set (Mt := moment 0 t) in *. set (MO := moment_ops ops) in *. assert (W1 : IZR i * ((1 - uu) * (B2R x + vv)) <= IZR i * B2R (Bplus mode_NE x v)) by (apply Rmult_le_compat_l; lra). assert (W2 : IZR i * B2R (Bplus mode_NE x v) <= IZR i * ((1 + uu) * (B2R x + vv))) by (apply Rmult_le_compat_l; lra).
  assert (uM : uu * (IZR i * B2R x) <= uu * Mt) by (apply Rmult_le_compat_l; lra). assert (uO : 0 <= uu * MO) by (apply Rmult_le_pos; lra).
  destruct (IH t1) as (t' & E & L' & F' & R' & RM); [apply list_set_length|exact F1|exact Fo'| |].
  - eapply Rle_trans; [|exact Hb]. fold K V. rewrite (Rmult_comm (1 + uu) K), Rmult_assoc. apply Rmult_le_compat_l; lra.
  - exists t'. split; [exact E|]. split; [rewrite L'; unfold t1; now rewrite ?list_set_length|]. split; [exact F'|]. fold K K' V in R'. fold K K' MO in RM. split; [split|split].
    + eapply Rle_trans; [|exact (proj1 R')]. rewrite (Rmult_comm (1 - uu) K'), Rmult_assoc. apply Rmult_le_compat_l; lra.
    + eapply Rle_trans; [exact (proj2 R')|]. rewrite (Rmult_comm (1 + uu) K), Rmult_assoc. apply Rmult_le_compat_l; lra.
    + eapply Rle_trans; [|exact (proj1 RM)]. rewrite (Rmult_comm (1 - uu) K'), Rmult_assoc. apply Rmult_le_compat_l; lra.
    + eapply Rle_trans; [exact (proj2 RM)|]. rewrite (Rmult_comm (1 + uu) K), Rmult_assoc. apply Rmult_le_compat_l; lra.
Qed.

(** ** Rows are independent *)
Lemma scatter_app a : forall b t, scatter_add t (a ++ b) = rbind (scatter_add t a) (fun t => scatter_add t b).
Proof. induction a as [|[i v] a IH]; intros b t; cbn [app scatter_add rbind]; [reflexivity|]. destruct (if (0 <=? i)%Z then _ else _); [apply IH|reflexivity]. Qed.
Lemma scatter_length ops : forall t t', scatter_add t ops = Ok t' -> length t' = length t.
Proof. induction ops as [|[i v] ops IH]; intros t t' E; cbn in E; [now injection E as <-|]. destruct (if (0 <=? i)%Z then _ else _); [|discriminate]. rewrite (IH _ _ E). apply list_set_length. Qed.
Lemma set_mid {A} (pre post : list A) i v : forall blk, (i < length blk)%nat -> list_set (pre ++ blk ++ post) (length pre + i) v = pre ++ list_set blk i v ++ post.
Proof. intros blk H. rewrite list_set_app_r by lia. f_equal. replace (length pre + i - length pre)%nat with i by lia. now rewrite list_set_app_l. Qed.
Lemma scatter_block pre post ops : forall blk blk', Forall (in_row (length blk)) ops -> scatter_add blk ops = Ok blk' ->
  scatter_add (pre ++ blk ++ post) (map (fun iv => ((fst iv + Z.of_nat (length pre))%Z, snd iv)) ops) = Ok (pre ++ blk' ++ post).
Proof.
  induction ops as [|[i v] ops IH]; intros blk blk' F E; cbn [scatter_add map fst snd] in *; [now injection E as <-|]. inversion F as [|? ? [Hi _] F']; subst. cbn [fst] in Hi. replace (0 <=? i)%Z with true in E by lia. replace (0 <=? i + Z.of_nat (length pre))%Z with true by lia.
  replace (Z.to_nat (i + Z.of_nat (length pre))) with (length pre + Z.to_nat i)%nat by lia. destruct (nth_error blk (Z.to_nat i)) as [x|] eqn:Nx; [|discriminate].
  rewrite nth_error_app2 by lia. replace (length pre + Z.to_nat i - length pre)%nat with (Z.to_nat i) by lia. rewrite nth_error_app1, Nx by lia. rewrite set_mid by lia. apply IH; [rewrite list_set_length; exact F'|exact E].
Qed.
Lemma scatter_rows n opss : forall blks blks' pre, length blks = length opss -> Forall (Forall (in_row n)) opss -> Forall (fun b => length b = n) blks ->
  Forall2 (fun bo b' => scatter_add (fst bo) (snd bo) = Ok b') (combine blks opss) blks' ->
  scatter_add (pre ++ concat blks) (flat_ops n (Z.of_nat (length pre)) opss) = Ok (pre ++ concat blks').
Proof.
  induction opss as [|ops opss IH]; intros [|blk blks] blks' pre L Fo Fb F2; cbn in L; try lia; cbn [combine] in F2; inversion F2 as [|? blk' ? blks'' E F2' E1 E2]; subst; [reflexivity|].
  inversion Fo as [|? ? Fo1 Fo']; subst. inversion Fb as [|? ? Lb Fb']; subst. cbn [fst snd] in E. cbn [concat flat_ops]. rewrite scatter_app, (scatter_block pre (concat blks) ops blk blk' Fo1 E). cbn [rbind].
  rewrite (app_assoc pre blk'), (app_assoc pre blk' (concat blks'')). pose proof (scatter_length _ _ _ E) as Ll. replace (Z.of_nat (length pre) + Z.of_nat (length blk))%Z with (Z.of_nat (length (pre ++ blk'))) by (rewrite app_length; lia). apply IH; [lia|exact Fo'|exact Fb'|exact F2'].
Qed.
Lemma view_concat n blks : Forall (fun b => length b = n) blks -> view n (length blks) (concat blks) = blks.
Proof.
  induction 1 as [|b blks L F IH]; [reflexivity|]. cbn [length view concat]. subst n. rewrite firstn_app, Nat.sub_diag, firstn_all. cbn [firstn]. rewrite app_nil_r, skipn_app, Nat.sub_diag, skipn_all. cbn [skipn app]. now rewrite IH.
Qed.
Lemma repeat_concat {A} (x : A) n k : repeat x (k * n) = concat (repeat (repeat x n) k).
Proof. induction k as [|k IH]; cbn; [reflexivity|]. now rewrite repeat_app, IH. Qed.

Lemma pow_upper x k : 0 <= x -> 2 * INR k * x <= 1 -> (1 + x) ^ k <= 1 + 2 * INR k * x.
Proof.
  intros Hx. induction k as [|k IH]; intros H; [cbn; lra|]. rewrite S_INR in *. assert (0 <= INR k) by apply pos_INR. assert (0 <= INR k * x) by now apply Rmult_le_pos. cbn [pow]. specialize (IH ltac:(lra)).
  assert ((1 + x) * (1 + x) ^ k <= (1 + x) * (1 + 2 * INR k * x)) by (apply Rmult_le_compat_l; lra). assert (x * (2 * INR k * x) <= x * 1) by (apply Rmult_le_compat_l; lra). lra.
Qed.
Lemma pow_lower x k : 0 <= x <= 1 -> 1 - INR k * x <= (1 - x) ^ k.
Proof.
  intros Hx. induction k as [|k IH]; [cbn; lra|]. rewrite S_INR. cbn [pow]. assert (0 <= INR k * (x * x)) by (apply Rmult_le_pos; [apply pos_INR|apply Rmult_le_pos; lra]). assert ((1 - x) * (1 - INR k * x) <= (1 - x) * (1 - x) ^ k) by (apply Rmult_le_compat_l; lra). lra.
Qed.

(** ** One row *)
Definition project_row (z0 z1 zl : binary32) (n : nat) (row : list (binary32 * binary32)) : result (list binary32) :=
  t <- scatter_add (repeat (int32 0) n) (map fst (map (shares z0 z1 zl n) row)) ;; scatter_add t (map snd (map (shares z0 z1 zl n) row)).
Lemma zeros_ok n : Forall finite_nonneg (repeat (int32 0) n) /\ total (repeat (int32 0) n) = 0.
Proof. destruct (int_ok 0 (conj (Z.le_refl 0) eq_refl)) as [F E]. split; [apply Forall_forall; intros x H; apply repeat_spec in H; subst; split; [exact F|rewrite E; lra]|]. induction n as [|n IH]; cbn [repeat total]; [reflexivity|]. rewrite IH, E. lra. Qed.

Lemma zeros_moment n : forall k, moment k (repeat (int32 0) n) = 0.
Proof. destruct (int_ok 0 (conj (Z.le_refl 0) eq_refl)) as [F E]. induction n as [|n IH]; intros k; cbn [repeat moment]; [reflexivity|]. rewrite IH, E. ring. Qed.
Section OneRow.
  Context (z0 z1 zl : binary32) (n : nat) (Hn : (2 <= Z.of_nat n <= 65536)%Z) (F0 : fin z0) (F1 : fin z1) (Fl : fin zl) (L1 : B2R z0 < B2R z1) (Ll : B2R z0 <= B2R zl)
    (B0 : Rabs (B2R z0) <= 2 ^ 100) (B1 : Rabs (B2R z1) <= 2 ^ 100) (Bl : Rabs (B2R zl) <= 2 ^ 100).
  Notation sh := (shares z0 z1 zl n).
  Notation ex := (exact_pos z0 z1 zl n).
  Definition exact_moment (row : list (binary32 * binary32)) : R := fold_right (fun yp acc => B2R (snd yp) * ex (fst yp) + acc) 0 row.
  Lemma nn_bounds : 2 <= INR n <= 65536.
  Proof. split; rewrite INR_IZR_INZ; apply IZR_le; apply Hn. Qed.
  Lemma share_near y p : fin y -> finite_nonneg p -> B2R p <= 2 -> let s := sh (y, p) in
    (1 - uu) ^ 2 * ((1 - 4 * uu) * (B2R p * ex y)) - 4 * INR n * eta <= IZR (fst (fst s)) * B2R (snd (fst s)) + IZR (fst (snd s)) * B2R (snd (snd s)) <= (1 + uu) ^ 2 * ((1 + 4 * uu) * (B2R p * ex y)) + 4 * INR n * eta.
  Proof.
    intros Fy Fp P2. cbv zeta. destruct (shares_ok z0 z1 zl n Hn F0 F1 Fl L1 Ll B0 B1 Bl y p Fy Fp P2) as (_ & _ & _ & S4). destruct (position_near z0 z1 zl n Hn F0 F1 Fl L1 Ll B0 B1 Bl y Fy) as [X0 X1]. pose proof nn_bounds as Nn. pose proof uu_pos as Pu. pose proof eta_pos as Pe. assert (Us : uu < / 1000) by (rewrite uu_val; change (2 ^ 24)%Z with 16777216%Z; lra).
    destruct Fp as [_ Pp]. set (W := IZR _ * _ + _) in *. set (pp := B2R p) in *. set (X := ex y) in *. set (b := B2R (position z0 z1 zl n y)) in *. set (nn := INR n) in *. clearbody W pp X b nn. clear - S4 X1 Nn Pu Pe Us Pp P2.
    assert (A : pp * ((1 - 4 * uu) * X - eta) <= pp * b) by (apply Rmult_le_compat_l; lra). assert (B : pp * b <= pp * ((1 + 4 * uu) * X + eta)) by (apply Rmult_le_compat_l; lra). assert (Pt : pp * eta <= 2 * eta) by (apply Rmult_le_compat_r; lra). assert (P0 : 0 <= pp * eta) by (apply Rmult_le_pos; lra).
    assert (Q1 : 0 <= (1 - uu) ^ 2 <= 1) by (split; [apply pow_le; lra|]; apply Rle_trans with (1 ^ 2); [apply pow_incr; lra|lra]). assert (Q2 : 0 <= (1 + uu) ^ 2 <= 3 / 2) by (split; [apply pow_le; lra|]; apply Rle_trans with ((1 + / 1000) ^ 2); [apply pow_incr; lra|lra]).
    assert (C : (1 - uu) ^ 2 * (pp * ((1 - 4 * uu) * X - eta)) <= (1 - uu) ^ 2 * (pp * b)) by (apply Rmult_le_compat_l; lra). assert (D : (1 + uu) ^ 2 * (pp * b) <= (1 + uu) ^ 2 * (pp * ((1 + 4 * uu) * X + eta))) by (apply Rmult_le_compat_l; lra).
    assert (E1 : (1 - uu) ^ 2 * (pp * eta) <= 1 * (pp * eta)) by (apply Rmult_le_compat_r; lra). assert (E2 : (1 + uu) ^ 2 * (pp * eta) <= 3 / 2 * (pp * eta)) by (apply Rmult_le_compat_r; lra). assert (N2 : 2 * eta <= nn * eta) by (apply Rmult_le_compat_r; lra). split; lra.
  Qed.
  Lemma shares_rows row : Forall (fun yp => fin (fst yp) /\ finite_nonneg (snd yp)) row -> total (map snd row) <= 2 ->
    Forall (in_row n) (map fst (map sh row)) /\ Forall (in_row n) (map snd (map sh row)) /\
    (1 - uu) ^ 2 * total (map snd row) - 2 * INR (length row) * eta <= total (map snd (map fst (map sh row))) + total (map snd (map snd (map sh row))) <= (1 + uu) ^ 2 * total (map snd row) + 2 * INR (length row) * eta /\
    (1 - uu) ^ 2 * ((1 - 4 * uu) * exact_moment row) - 4 * INR n * INR (length row) * eta <= moment_ops (map fst (map sh row)) + moment_ops (map snd (map sh row)) <= (1 + uu) ^ 2 * ((1 + 4 * uu) * exact_moment row) + 4 * INR n * INR (length row) * eta.
  Proof.
    intros F. induction F as [|[y p] row [Fy [Fp Pp]] F IH]; intros T; cbn [map total length moment_ops exact_moment fold_right] in *; [split; [constructor|split; [constructor|cbn; lra]]|]. cbn [fst snd] in *. fold (exact_moment row). fold (moment_ops (map fst (map sh row))) (moment_ops (map snd (map sh row))).
    assert (Tn : 0 <= total (map snd row)). { apply total_nonneg. apply Forall_forall. intros w Hw. apply in_map_iff in Hw. destruct Hw as (o & <- & Ho). rewrite Forall_forall in F. exact (proj2 (F o Ho)). }
    destruct (IH ltac:(lra)) as (I1 & I2 & I3 & I4). destruct (shares_ok z0 z1 zl n Hn F0 F1 Fl L1 Ll B0 B1 Bl y p Fy (conj Fp Pp) ltac:(lra)) as (S1 & S2 & S3 & _). pose proof (share_near y p Fy (conj Fp Pp) ltac:(lra)) as S4. cbv zeta in S4. split; [now constructor|]. split; [now constructor|]. rewrite S_INR. split; lra.
  Qed.
  Lemma exact_nonneg row : Forall (fun yp => fin (fst yp) /\ finite_nonneg (snd yp)) row -> 0 <= exact_moment row.
  Proof. induction 1 as [|[y p] row [Fy [_ Pp]] F IH]; cbn [exact_moment fold_right fst snd] in *; [lra|]. fold (exact_moment row). destruct (position_near z0 z1 zl n Hn F0 F1 Fl L1 Ll B0 B1 Bl y Fy) as [X0 _]. assert (0 <= B2R p * ex y) by (apply Rmult_le_pos; lra). lra. Qed.
  Lemma moment_bound nn m K J A C M1 M2 X : nn = INR m -> 2 <= nn <= 65536 -> K = (1 + uu) ^ m -> J = (1 - uu) ^ m -> 0 <= A -> 0 <= C -> 0 <= X ->
    (1 - uu) ^ 2 * ((1 - 4 * uu) * X) - 4 * nn * nn * eta <= A + C <= (1 + uu) ^ 2 * ((1 + 4 * uu) * X) + 4 * nn * nn * eta ->
    J * A <= M1 <= K * A -> J * (M1 + C) <= M2 <= K * (M1 + C) -> Rabs (M2 - X) <= (4 * nn + 12) * uu * X + 8 * nn ^ 2 * eta.
  Proof.
    intros En Nn EK EJ An Cn Xn R M1r M2r. pose proof uu_pos as Pu. pose proof eta_pos as Pe. assert (Us : uu = / 16777216) by (rewrite uu_val; reflexivity).
    assert (K1 : 1 <= K) by (rewrite EK; apply pow_R1_Rle; lra). assert (J1 : 0 <= J <= 1). { rewrite EJ. split; [apply pow_le; rewrite Us; lra|]. apply Rle_trans with (1 ^ m); [apply pow_incr; rewrite Us; lra|rewrite pow1; lra]. }
    assert (KJ : 0 <= J * J <= 1) by (split; [apply Rmult_le_pos; lra|rewrite <- (Rmult_1_l 1); apply Rmult_le_compat; lra]).
    assert (U : M2 <= K * (K * (A + C))). { eapply Rle_trans; [exact (proj2 M2r)|]. apply Rmult_le_compat_l; [lra|]. assert (1 * C <= K * C) by (apply Rmult_le_compat_r; lra). lra. }
    assert (L : J * (J * (A + C)) <= M2). { eapply Rle_trans; [|exact (proj1 M2r)]. apply Rmult_le_compat_l; [lra|]. assert (J * C <= 1 * C) by (apply Rmult_le_compat_r; lra). lra. }
    set (E := 4 * nn * nn * eta) in *. assert (E0 : 0 <= E) by (unfold E; repeat apply Rmult_le_pos; lra). assert (Ee : 8 * nn ^ 2 * eta = 2 * E) by (unfold E; ring). rewrite Ee. clearbody E.
    assert (P4 : 1 + 4 * uu <= (1 + uu) ^ 4) by (rewrite Us; lra). assert (P5 : (1 - uu) ^ 5 <= 1 - 4 * uu) by (rewrite Us; lra).
    assert (K2 : (1 + uu) ^ (2 * m + 6) <= 1 + (4 * nn + 12) * uu). { replace ((4 * nn + 12) * uu) with (2 * INR (2 * m + 6) * uu) by (rewrite plus_INR, mult_INR, En; cbn [INR]; ring). apply pow_upper; [lra|rewrite plus_INR, mult_INR, <- En; cbn [INR]; rewrite Us; lra]. }
    assert (J2 : 1 - (2 * nn + 7) * uu <= (1 - uu) ^ (2 * m + 7)). { replace (2 * nn + 7) with (INR (2 * m + 7)) by (rewrite plus_INR, mult_INR, En; cbn [INR]; ring). apply pow_lower. rewrite Us. lra. }
    assert (Ke : (1 + uu) ^ (2 * m + 6) = K * K * ((1 + uu) ^ 2 * (1 + uu) ^ 4)) by (rewrite EK, <- !pow_add; f_equal; lia). assert (Je : (1 - uu) ^ (2 * m + 7) = J * J * ((1 - uu) ^ 2 * (1 - uu) ^ 5)) by (rewrite EJ, <- !pow_add; f_equal; lia).
    assert (KK : 0 <= K * K) by (apply Rmult_le_pos; lra). assert (S1 : 1 <= (1 + uu) ^ 2 * (1 + uu) ^ 4) by (rewrite Us; lra). assert (S2 : 0 <= (1 - uu) ^ 2) by (apply pow_le; rewrite Us; lra). assert (S3 : 0 <= (1 + uu) ^ 2) by (apply pow_le; lra).
    assert (U2 : A + C <= (1 + uu) ^ 2 * (1 + uu) ^ 4 * (X + E)). { eapply Rle_trans; [exact (proj2 R)|]. assert ((1 + 4 * uu) * X <= (1 + uu) ^ 4 * X) by (apply Rmult_le_compat_r; lra). assert ((1 + uu) ^ 2 * ((1 + 4 * uu) * X) <= (1 + uu) ^ 2 * ((1 + uu) ^ 4 * X)) by (apply Rmult_le_compat_l; lra). assert (1 * E <= (1 + uu) ^ 2 * (1 + uu) ^ 4 * E) by (apply Rmult_le_compat_r; lra). lra. }
    assert (L2 : (1 - uu) ^ 2 * (1 - uu) ^ 5 * X - E <= A + C). { eapply Rle_trans; [|exact (proj1 R)]. assert ((1 - uu) ^ 5 * X <= (1 - 4 * uu) * X) by (apply Rmult_le_compat_r; lra). assert ((1 - uu) ^ 2 * ((1 - uu) ^ 5 * X) <= (1 - uu) ^ 2 * ((1 - 4 * uu) * X)) by (apply Rmult_le_compat_l; lra). lra. }
    assert (U3 : K * K * (A + C) <= K * K * ((1 + uu) ^ 2 * (1 + uu) ^ 4 * (X + E))) by (apply Rmult_le_compat_l; lra). assert (L3 : J * J * ((1 - uu) ^ 2 * (1 - uu) ^ 5 * X - E) <= J * J * (A + C)) by (apply Rmult_le_compat_l; lra).
    assert (U4 : (1 + uu) ^ (2 * m + 6) * (X + E) <= (1 + (4 * nn + 12) * uu) * (X + E)) by (apply Rmult_le_compat_r; lra). assert (L4 : (1 - (2 * nn + 7) * uu) * X <= (1 - uu) ^ (2 * m + 7) * X) by (apply Rmult_le_compat_r; lra). rewrite Ke in U4. rewrite Je in L4.
    assert (JE : J * J * E <= 1 * E) by (apply Rmult_le_compat_r; lra). assert (uE : (4 * nn + 12) * uu * E <= 1 * E) by (apply Rmult_le_compat_r; [lra|rewrite Us; lra]). assert (uX : 0 <= uu * X) by (apply Rmult_le_pos; lra). assert (nuX : 0 <= nn * (uu * X)) by (apply Rmult_le_pos; lra).
    apply Rabs_le. split; lra.
  Qed.
  Lemma row_total row : length row = n -> Forall (fun yp => fin (fst yp) /\ finite_nonneg (snd yp)) row -> total (map snd row) <= 2 ->
    exists o, project_row z0 z1 zl n row = Ok o /\ length o = n /\ Forall finite_nonneg o /\
      Rabs (total o - total (map snd row)) <= (4 * INR n + 4) * uu * total (map snd row) + 4 * INR n * eta /\
      Rabs (moment 0 o - exact_moment row) <= (4 * INR n + 12) * uu * exact_moment row + 8 * INR n ^ 2 * eta.
  Proof.
    intros Lr Fr T. destruct (shares_rows row Fr T) as (R1 & R2 & R3 & R4). rewrite Lr in R3, R4. destruct (zeros_ok n) as [Fz Tz]. pose proof uu_pos as Pu. pose proof eta_pos as Pe. pose proof eta_small as Es. pose proof big_large as Bg.
    pose proof nn_bounds as Nn.
    assert (Us : uu = / 16777216) by (rewrite uu_val; reflexivity).
    assert (Sn : 0 <= total (map snd row)). { apply total_nonneg. apply Forall_forall. intros w Hw. apply in_map_iff in Hw. destruct Hw as (o & <- & Ho). rewrite Forall_forall in Fr. exact (proj2 (Fr o Ho)). }
    set (A := total (map snd (map fst (map sh row)))) in *. set (C := total (map snd (map snd (map sh row)))) in *. set (S0 := total (map snd row)) in *.
    assert (NA : forall X, Forall (in_row n) X -> 0 <= total (map snd X)). { intros X FX. apply total_nonneg. apply Forall_forall. intros w Hw. apply in_map_iff in Hw. destruct Hw as (o & <- & Ho). rewrite Forall_forall in FX. exact (proj2 (FX o Ho)). }
    pose proof (NA _ R1) as An. pose proof (NA _ R2) as Cn. fold A in An. fold C in Cn.
    assert (Kn : (1 + uu) ^ n <= 1 + 2 * INR n * uu) by (apply pow_upper; [lra|rewrite Us; lra]). assert (K2 : (1 + uu) ^ (2 * n + 2) <= 1 + (4 * INR n + 4) * uu). { replace ((4 * INR n + 4) * uu) with (2 * INR (2 * n + 2) * uu) by (rewrite plus_INR, mult_INR; cbn [INR]; ring). apply pow_upper; [lra|rewrite plus_INR, mult_INR; cbn [INR]; rewrite Us; lra]. }
    assert (K3 : 1 - (2 * INR n + 2) * uu <= (1 - uu) ^ (2 * n + 2)). { replace (2 * INR n + 2) with (INR (2 * n + 2)) by (rewrite plus_INR, mult_INR; cbn [INR]; ring). apply pow_lower. rewrite Us. lra. }
    set (K := (1 + uu) ^ n) in *. set (J := (1 - uu) ^ n) in *. assert (K1 : 1 <= K) by (apply pow_R1_Rle; lra). assert (J0 : 0 <= J <= 1). { split; [apply pow_le; rewrite Us; lra|]. unfold J. apply Rle_trans with (1 ^ n); [apply pow_incr; rewrite Us; lra|rewrite pow1; lra]. }
    assert (Ke : (1 + uu) ^ (2 * n + 2) = K * (K * (1 + uu) ^ 2)) by (unfold K; rewrite <- !pow_add; f_equal; lia). assert (Je : (1 - uu) ^ (2 * n + 2) = J * (J * (1 - uu) ^ 2)) by (unfold J; rewrite <- !pow_add; f_equal; lia).
    assert (KK : K <= 2) by (rewrite Us in Kn; lra). assert (AC : A + C <= 5). { destruct R3 as [_ R3]. assert ((1 + uu) ^ 2 <= 2) by (rewrite Us; lra). assert ((1 + uu) ^ 2 * S0 <= 2 * 2) by (apply Rmult_le_compat; try lra; apply pow_le; lra). assert (2 * INR n * eta <= 2 * INR n * uu) by (apply Rmult_le_compat_l; lra). rewrite Us in *. lra. }
    destruct (scatter_total n _ (repeat (int32 0) n) (repeat_length _ _) Fz R1) as (t1 & E1 & Lt1 & Ft1 & Rt1 & Mt1).
    { rewrite !map_length, Lr, Tz. fold A. rewrite Rplus_0_l. fold K. assert (K * A <= 2 * 5) by (apply Rmult_le_compat; lra). lra. }
    rewrite !map_length, Lr, Tz in Rt1. fold A K J in Rt1. rewrite Rplus_0_l in Rt1. rewrite !map_length, Lr, zeros_moment, Rplus_0_l in Mt1. fold K J in Mt1.
    assert (KC : K * C <= 2 * 5) by (apply Rmult_le_compat; lra). assert (KA : K * A <= 2 * 5) by (apply Rmult_le_compat; lra). assert (T1n : 0 <= total t1) by now apply total_nonneg. assert (CK : C <= K * C) by (rewrite <- (Rmult_1_l C) at 1; apply Rmult_le_compat_r; lra).
    assert (T1K : K * (total t1 + C) <= K * (K * (A + C))). { apply Rmult_le_compat_l; lra. }
    assert (KAC : K * (A + C) <= 2 * 5) by (apply Rmult_le_compat; lra). assert (KKAC : K * (K * (A + C)) <= 2 * (2 * 5)) by (apply Rmult_le_compat; try lra; apply Rmult_le_pos; lra).
    assert (Bg2 : 32 <= big32) by (replace 32 with (bpow radix2 5) by (cbn; lra); apply bpow_le; lia).
    destruct (scatter_total n _ t1 Lt1 Ft1 R2) as (t2 & E2 & Lt2 & Ft2 & Rt2 & Mt2); [rewrite !map_length, Lr; fold C K; lra|]. rewrite !map_length, Lr in Rt2. fold C K J in Rt2. rewrite !map_length, Lr in Mt2. fold K J in Mt2.
    exists t2. split; [unfold project_row; rewrite E1; exact E2|]. split; [exact Lt2|]. split; [exact Ft2|]. split; [|exact (moment_bound (INR n) n K J _ _ (moment 0 t1) (moment 0 t2) (exact_moment row) eq_refl Nn eq_refl eq_refl (moment_ops_nonneg n _ R1) (moment_ops_nonneg n _ R2) (exact_nonneg row Fr) R4 Mt1 Mt2)].
    clear R4 Mt1 Mt2.
    assert (JC : J * C <= C) by (rewrite <- (Rmult_1_l C) at 2; apply Rmult_le_compat_r; lra). assert (T1J : J * (J * (A + C)) <= J * (total t1 + C)) by (apply Rmult_le_compat_l; lra).
    assert (U : K * (K * (A + C)) <= K * (K * ((1 + uu) ^ 2 * (S0 + 2 * INR n * eta)))).
    { apply Rmult_le_compat_l; [lra|]. apply Rmult_le_compat_l; [lra|]. assert (0 <= 2 * INR n * eta) by (apply Rmult_le_pos; lra). assert (1 * (2 * INR n * eta) <= (1 + uu) ^ 2 * (2 * INR n * eta)) by (apply Rmult_le_compat_r; [lra|]; apply pow_R1_Rle; lra). lra. }
    assert (L : J * (J * ((1 - uu) ^ 2 * S0)) - 2 * INR n * eta <= J * (J * (A + C))).
    { assert (JJ : 0 <= J * J <= 1) by (split; [apply Rmult_le_pos; lra|rewrite <- (Rmult_1_l 1); apply Rmult_le_compat; lra]). assert (0 <= 2 * INR n * eta) by (apply Rmult_le_pos; lra). assert (J * J * (2 * INR n * eta) <= 1 * (2 * INR n * eta)) by (apply Rmult_le_compat_r; lra). assert (J * J * ((1 - uu) ^ 2 * S0 - 2 * INR n * eta) <= J * J * (A + C)) by (apply Rmult_le_compat_l; lra). lra. }
    assert (U2 : K * (K * ((1 + uu) ^ 2 * (S0 + 2 * INR n * eta))) <= (1 + (4 * INR n + 4) * uu) * (S0 + 2 * INR n * eta)).
    { replace (K * (K * ((1 + uu) ^ 2 * (S0 + 2 * INR n * eta)))) with ((1 + uu) ^ (2 * n + 2) * (S0 + 2 * INR n * eta)) by (rewrite Ke; ring). apply Rmult_le_compat_r; [|exact K2]. assert (0 <= 2 * INR n * eta) by (apply Rmult_le_pos; lra). lra. }
    assert (L2 : (1 - (2 * INR n + 2) * uu) * S0 <= J * (J * ((1 - uu) ^ 2 * S0))) by (replace (J * (J * ((1 - uu) ^ 2 * S0))) with ((1 - uu) ^ (2 * n + 2) * S0) by (rewrite Je; ring); apply Rmult_le_compat_r; lra).
    assert (V : (4 * INR n + 4) * uu * (2 * INR n * eta) <= 1 * (2 * INR n * eta)) by (apply Rmult_le_compat_r; [apply Rmult_le_pos; lra|rewrite Us; lra]). assert (0 <= INR n * eta) by (apply Rmult_le_pos; lra). assert (0 <= (2 * INR n + 2) * uu * S0) by (apply Rmult_le_pos; [apply Rmult_le_pos; lra|lra]).
    apply Rabs_le. split; lra.
  Qed.
End OneRow.

(** ** The whole batch *)
Lemma uu_pow : uu = / 2 ^ 24. Proof. rewrite pow_IZR. reflexivity. Qed.
Lemma eta_pow : eta = / 2 ^ 150. Proof. rewrite pow_IZR. reflexivity. Qed.
Lemma sorted_head z0 z : Sorted (fun a b : binary32 => B2R a < B2R b) (z0 :: z) -> Forall (fun x => B2R z0 < B2R x) z.
Proof. intros S. apply Sorted_StronglySorted in S; [now inversion S|]. intros a b c. lra. Qed.
Lemma atoms_shape z : atoms_ok z -> exists z0 z1 zs zl rs, z = z0 :: z1 :: zs /\ rev z = zl :: rs /\ atom z 0 = B2R z0 /\ atom z 1 = B2R z1 /\ atom z (length z - 1) = B2R zl /\
  fin z0 /\ fin z1 /\ fin zl /\ B2R z0 < B2R z1 /\ B2R z0 <= B2R zl /\ Rabs (B2R z0) <= 2 ^ 100 /\ Rabs (B2R z1) <= 2 ^ 100 /\ Rabs (B2R zl) <= 2 ^ 100.
Proof.
  intros (L & S & F). destruct z as [|z0 [|z1 zs]]; cbn [length] in L; try (exfalso; lia). destruct (rev (z0 :: z1 :: zs)) as [|zl rs] eqn:R; [apply (f_equal (@length _)) in R; rewrite rev_length in R; discriminate|].
  assert (E : z0 :: z1 :: zs = rev rs ++ [zl]) by (rewrite <- (rev_involutive (z0 :: z1 :: zs)), R; reflexivity). assert (Il : In zl (z0 :: z1 :: zs)) by (rewrite E; apply in_or_app; right; now left).
  exists z0, z1, zs, zl, rs. rewrite Forall_forall in F. pose proof (F z0 (or_introl eq_refl)) as [A0 A1]. pose proof (F z1 (or_intror (or_introl eq_refl))) as [C0 C1]. pose proof (F zl Il) as [D0 D1]. pose proof (sorted_head z0 _ S) as H. rewrite Forall_forall in H.
  repeat split; auto; [|apply H; now left|].
  - unfold atom. rewrite E. rewrite app_length. cbn [length]. rewrite Nat.add_sub, app_nth2, Nat.sub_diag by lia. reflexivity.
  - destruct Il as [ <- |Il]; [lra|]. left. now apply H.
Qed.
Lemma exact_same z z0 z1 zl : atom z 0 = B2R z0 -> atom z 1 = B2R z1 -> atom z (length z - 1) = B2R zl -> forall row, mean_position z row = exact_moment z0 z1 zl (length z) row.
Proof. intros A0 A1 Al. induction row as [|[y p] row IH]; [reflexivity|]. cbn [mean_position exact_moment fold_right fst snd]. rewrite IH. unfold exact_position. now rewrite A0, A1, Al. Qed.
Lemma rows_ok z0 z1 zl n rows : forall outs, Forall (fun row => Forall (in_row n) (map fst (map (shares z0 z1 zl n) row)) /\ Forall (in_row n) (map snd (map (shares z0 z1 zl n) row))) rows ->
  Forall2 (fun row o => project_row z0 z1 zl n row = Ok o) rows outs ->
  (t <- scatter_add (repeat (int32 0) (length rows * n)) (flat_ops n 0 (map (map fst) (map (map (shares z0 z1 zl n)) rows))) ;;
   t <- scatter_add t (flat_ops n 0 (map (map snd) (map (map (shares z0 z1 zl n)) rows))) ;; Ok (view n (length rows) t)) = Ok outs.
Proof.
  intros outs F F2. assert (M : exists mids, Forall2 (fun bo b' => scatter_add (fst bo) (snd bo) = Ok b') (combine (repeat (repeat (int32 0) n) (length rows)) (map (map fst) (map (map (shares z0 z1 zl n)) rows))) mids /\
    Forall2 (fun bo b' => scatter_add (fst bo) (snd bo) = Ok b') (combine mids (map (map snd) (map (map (shares z0 z1 zl n)) rows))) outs /\ length mids = length rows /\ length outs = length rows /\ Forall (fun b => length b = n) mids /\ Forall (fun b => length b = n) outs).
  { clear F. induction F2 as [|row o rows outs E F2 (mids & M1 & M2 & M3 & M4 & M5 & M6)]; [exists []; repeat split; constructor|]. unfold project_row in E. destruct (scatter_add (repeat (int32 0) n) (map fst (map (shares z0 z1 zl n) row))) as [t|] eqn:E1; [|discriminate]. cbn [rbind] in E.
    pose proof (scatter_length _ _ _ E1) as L1. rewrite repeat_length in L1. pose proof (scatter_length _ _ _ E) as L2.
    exists (t :: mids). cbn [length repeat map combine]. split; [constructor; [exact E1|exact M1]|]. split; [constructor; [exact E|exact M2]|]. repeat split; try lia; constructor; auto. lia. }
  destruct M as (mids & M1 & M2 & M3 & M4 & M5 & M6). rewrite repeat_concat.
  assert (F1 : Forall (Forall (in_row n)) (map (map fst) (map (map (shares z0 z1 zl n)) rows))) by (rewrite map_map; apply Forall_map; eapply Forall_impl; [|exact F]; intros row [H _]; exact H).
  assert (F3 : Forall (Forall (in_row n)) (map (map snd) (map (map (shares z0 z1 zl n)) rows))) by (rewrite map_map; apply Forall_map; eapply Forall_impl; [|exact F]; intros row [_ H]; exact H).
  set (o1 := map (map fst) (map (map (shares z0 z1 zl n)) rows)) in *. set (o2 := map (map snd) (map (map (shares z0 z1 zl n)) rows)) in *.
  assert (N1 : length o1 = length rows) by (unfold o1; now rewrite !map_length). assert (N2 : length o2 = length rows) by (unfold o2; now rewrite !map_length). clearbody o1 o2. clear F F2.
  set (bs := repeat (repeat (int32 0) n) (length rows)) in *. assert (Nb : length bs = length rows) by apply repeat_length. assert (Fb : Forall (fun b => length b = n) bs) by (apply Forall_forall; intros b Hb; apply repeat_spec in Hb; rewrite Hb; apply repeat_length). clearbody bs.
  assert (A : scatter_add (concat bs) (flat_ops n 0 o1) = Ok (concat mids)) by (apply (scatter_rows n o1 bs mids []); [now rewrite Nb, N1|exact F1|exact Fb|exact M1]).
  assert (B : scatter_add (concat mids) (flat_ops n 0 o2) = Ok (concat outs)) by (apply (scatter_rows n o2 mids outs []); [now rewrite M3, N2|exact F3|exact M5|exact M2]).
  rewrite A. cbn [rbind]. rewrite B. cbn [rbind]. rewrite <- M4, (view_concat n outs M6). reflexivity.
Qed.
Lemma projection_unfold z0 z1 zs zl rs z rows : z = z0 :: z1 :: zs -> rev z = zl :: rs -> forallb (fun row => Nat.eqb (length row) (length z)) rows = true -> projection z rows =
  (t <- scatter_add (repeat (int32 0) (length rows * length z)) (flat_ops (length z) 0 (map (map fst) (map (map (shares z0 z1 zl (length z))) rows))) ;;
   t <- scatter_add t (flat_ops (length z) 0 (map (map snd) (map (map (shares z0 z1 zl (length z))) rows))) ;; Ok (view (length z) (length rows) t)).
Proof.
  intros E R F. unfold projection. cbv zeta. rewrite F. cbn [passert rbind]. generalize (length z) as m. intros m. subst z. cbn iota. rewrite R. reflexivity.
Qed.
Lemma projection_ok z rows : atoms_ok z -> Forall (row_ok z) rows -> exists outs, projection z rows = Ok outs /\ Forall2 (fun row o => projection z [row] = Ok [o] /\ projected z row o) rows outs.
Proof.
  intros Z F. destruct (atoms_shape z Z) as (z0 & z1 & zs & zl & rs & Ez & Er & A0 & A1 & Al & F0 & F1 & Fl & L1 & Ll & B0 & B1 & Bl). destruct Z as (Hn & _ & _).
  assert (G : forall rows, Forall (row_ok z) rows -> exists outs, projection z rows = Ok outs /\ Forall2 (fun row o => project_row z0 z1 zl (length z) row = Ok o /\ projected z row o) rows outs).
  { clear rows F. intros rows F.
    assert (O : exists outs, Forall2 (fun row o => project_row z0 z1 zl (length z) row = Ok o /\ projected z row o) rows outs).
    { induction F as [|row rows (Lr & Fr & Tr) F (outs & IH)]; [exists []; constructor|]. destruct (row_total z0 z1 zl (length z) Hn F0 F1 Fl L1 Ll B0 B1 Bl row Lr Fr Tr) as (o & E & Lo & Fo & T & M). exists (o :: outs). constructor; [|exact IH]. split; [exact E|].
      unfold projected. cbv zeta. rewrite (exact_same z z0 z1 zl A0 A1 Al). unfold Rdiv. rewrite <- uu_pow, <- eta_pow. repeat split; assumption. }
    destruct O as (outs & O). exists outs. split; [|exact O]. rewrite (projection_unfold z0 z1 zs zl rs z rows Ez Er) by (apply forallb_forall; intros row Hr; rewrite Forall_forall in F; apply Nat.eqb_eq; exact (proj1 (F row Hr))). apply rows_ok.
    - eapply Forall_impl; [|exact F]. intros row (Lr & Fr & Tr). destruct (shares_rows z0 z1 zl (length z) Hn F0 F1 Fl L1 Ll B0 B1 Bl row Fr Tr) as (R1 & R2 & _). now split.
    - clear - O. induction O as [|row o rows outs [H _] O IH]; constructor; [exact H|exact IH]. }
  destruct (G rows F) as (outs & E & O). exists outs. split; [exact E|]. clear E. induction O as [|row o rows outs [E P] O IH]; constructor; [|apply IH; now inversion F]. split; [|exact P].
  destruct (G [row] (Forall_cons _ (Forall_inv F) (Forall_nil _))) as (os & E1 & O1). inversion O1 as [|? o' ? ? [E2 _] O2]; subst. inversion O2; subst. rewrite E1. congruence.
Qed.
