(** Lemmas for C144. *)
From Coq Require Import Reals Lra Lia ZArith.
From Flocq Require Import Core BinarySingleNaN Relative Plus_error.
From Verif Require Import Base M_FloatAction.
Open Scope R_scope.

Section Action.
  Context (prec emax : Z) {Hp : Prec_gt_0 prec} {He : Prec_lt_emax prec emax} (P2 : (1 < prec)%Z).
  Notation float := (binary_float prec emax).
  Notation fexp := (SpecFloat.fexp prec emax).
  Notation fmt := (generic_format radix2 fexp).
  Notation rnd := (round radix2 fexp ZnearestE).
  Notation big := (bpow radix2 (emax - 1)).
  Notation fin x := (is_finite x = true).

  Global Instance fexp_ok : Valid_exp fexp := fexp_correct prec emax Hp.
  Lemma emax_gt : (2 < emax)%Z. Proof. pose proof (prec_lt_emax prec emax). lia. Qed.
  Lemma fmt_float (x : float) : fmt (B2R x). Proof. apply generic_format_B2R. Qed.
  Lemma rnd_mono x y : x <= y -> rnd x <= rnd y. Proof. apply round_le; [apply fexp_ok|apply valid_rnd_N]. Qed.
  Lemma rnd_fmt x : fmt (rnd x). Proof. apply generic_format_round; [apply fexp_ok|apply valid_rnd_N]. Qed.
  Lemma rnd_id x : fmt x -> rnd x = x. Proof. apply round_generic, valid_rnd_N. Qed.
  Lemma rnd_ub x y : fmt y -> x <= y -> rnd x <= y. Proof. intros F H. rewrite <- (rnd_id y F). now apply rnd_mono. Qed.
  Lemma rnd_lb x y : fmt x -> x <= y -> x <= rnd y. Proof. intros F H. rewrite <- (rnd_id x F). now apply rnd_mono. Qed.
  Lemma fmt_bpow e : (SpecFloat.emin prec emax + prec - 1 <= e)%Z -> fmt (bpow radix2 e).
  Proof. intros H. apply generic_format_bpow. unfold SpecFloat.fexp. unfold Prec_gt_0 in Hp. apply Z.max_lub; lia. Qed.
  Lemma emin_small : (SpecFloat.emin prec emax + prec - 1 <= 0)%Z.
  Proof. unfold SpecFloat.emin. pose proof emax_gt. lia. Qed.
  Lemma fmt_opp x : fmt x -> fmt (- x). Proof. apply generic_format_opp. Qed.
  Lemma fmt_big : fmt big. Proof. apply fmt_bpow. pose proof emin_small. pose proof emax_gt. lia. Qed.
  Lemma small x : Rabs x <= big -> Rlt_bool (Rabs (rnd x)) (bpow radix2 emax) = true.
  Proof.
    intros H. apply Rlt_bool_true. apply Rle_lt_trans with big; [|apply bpow_lt; lia]. apply Rabs_le. apply Rabs_le_inv in H. split; [apply rnd_lb; [apply fmt_opp, fmt_big|lra]|apply rnd_ub; [apply fmt_big|lra]].
  Qed.
  Lemma plus_ok (x y : float) : fin x -> fin y -> Rabs (B2R x + B2R y) <= big -> fin (Bplus mode_NE x y) /\ B2R (Bplus mode_NE x y) = rnd (B2R x + B2R y).
  Proof. intros Fx Fy H. pose proof (Bplus_correct prec emax Hp He mode_NE x y Fx Fy) as C. cbn [round_mode] in C. rewrite (small _ H) in C. tauto. Qed.
  Lemma minus_ok (x y : float) : fin x -> fin y -> Rabs (B2R x - B2R y) <= big -> fin (Bminus mode_NE x y) /\ B2R (Bminus mode_NE x y) = rnd (B2R x - B2R y).
  Proof. intros Fx Fy H. pose proof (Bminus_correct prec emax Hp He mode_NE x y Fx Fy) as C. cbn [round_mode] in C. rewrite (small _ H) in C. tauto. Qed.
  Lemma mult_ok (x y : float) : fin x -> fin y -> Rabs (B2R x * B2R y) <= big -> fin (Bmult mode_NE x y) /\ B2R (Bmult mode_NE x y) = rnd (B2R x * B2R y).
  Proof. intros Fx Fy H. pose proof (Bmult_correct prec emax Hp He mode_NE x y) as C. cbn [round_mode] in C. rewrite (small _ H), Fx, Fy in C. cbn [andb] in C. tauto. Qed.
  Lemma div_ok (x y : float) : fin x -> B2R y <> 0 -> Rabs (B2R x / B2R y) <= big -> fin (Bdiv mode_NE x y) /\ B2R (Bdiv mode_NE x y) = rnd (B2R x / B2R y).
  Proof. intros Fx Ny H. pose proof (Bdiv_correct prec emax Hp He mode_NE x y Ny) as C. cbn [round_mode] in C. rewrite (small _ H), Fx in C. tauto. Qed.
  Lemma one_le_big : 4 <= bpow radix2 2 /\ bpow radix2 2 <= big \/ 2 <= big.
  Proof. right. apply Rle_trans with (bpow radix2 1); [cbn; lra|]. apply bpow_le. pose proof emax_gt. lia. Qed.
  Lemma two_le_big : 2 <= big. Proof. destruct one_le_big as [[H K]|H]; lra. Qed.
  Lemma num_ok z r : IZR z = r -> fmt r -> 0 <= r <= 2 -> fin (num prec emax z) /\ B2R (num prec emax z) = r.
  Proof.
    intros Hz F Hr. pose proof (binary_normalize_correct prec emax Hp He mode_NE z 0 false) as C. cbn [round_mode] in C.
    replace (F2R (Float radix2 z 0)) with r in C by (unfold F2R; cbn; lra). pose proof two_le_big. rewrite small in C by (rewrite Rabs_pos_eq; lra). destruct C as (C1 & C2 & _). unfold num. split; [exact C2|]. rewrite C1. now apply rnd_id.
  Qed.
  Lemma fmt_1 : fmt 1. Proof. change 1 with (bpow radix2 0). apply fmt_bpow, emin_small. Qed.
  Lemma fmt_2 : fmt 2. Proof. change 2 with (bpow radix2 1). apply fmt_bpow. pose proof emin_small. lia. Qed.
  Lemma num1 : fin (num prec emax 1) /\ B2R (num prec emax 1) = 1. Proof. apply num_ok; [reflexivity|apply fmt_1|lra]. Qed.
  Lemma num2 : fin (num prec emax 2) /\ B2R (num prec emax 2) = 2. Proof. apply num_ok; [reflexivity|apply fmt_2|lra]. Qed.
  Lemma bpow_pred e : bpow radix2 e = 2 * bpow radix2 (e - 1).
  Proof. replace e with (1 + (e - 1))%Z at 1 by lia. rewrite bpow_plus. reflexivity. Qed.

  (** The values of both functions. *)
  Notation D l h := (rnd (h - l)). Notation Half l h := (rnd (D l h / 2)).
  Section Val.
    Context (low high : float) (Fl : fin low) (Fh : fin high) (Hlh : B2R low <= B2R high).
    Context (Bl : Rabs (B2R low) <= bpow radix2 (emax - 3)) (Bh : Rabs (B2R high) <= bpow radix2 (emax - 3)).
    Notation l := (B2R low). Notation h := (B2R high).
    Notation q := (bpow radix2 (emax - 3)).
    Lemma q_big : big = 4 * q /\ 0 < q.
    Proof. rewrite (bpow_pred (emax - 1)), (bpow_pred (emax - 1 - 1)). replace (emax - 1 - 1 - 1)%Z with (emax - 3)%Z by lia. pose proof (bpow_gt_0 radix2 (emax - 3)). split; lra. Qed.
    Lemma fmt_2q : fmt (2 * q).
    Proof. replace (2 * q) with (bpow radix2 (emax - 2)) by (rewrite (bpow_pred (emax - 2)); do 2 f_equal; lia). apply fmt_bpow. pose proof emin_small. pose proof emax_gt. lia. Qed.
    Lemma fmt_0 : fmt 0. Proof. apply generic_format_0. Qed.
    Lemma D_range : 0 <= D l h <= 2 * q.
    Proof. apply Rabs_le_inv in Bl, Bh. split; [apply rnd_lb; [apply fmt_0|lra]|apply rnd_ub; [apply fmt_2q|lra]]. Qed.
    Lemma H_range : 0 <= Half l h <= D l h.
    Proof. destruct D_range as [D1 D2]. split; [apply rnd_lb; [apply fmt_0|lra]|apply rnd_ub; [apply rnd_fmt|lra]]. Qed.
    Lemma scale_ok : fin (Bdiv mode_NE (Bminus mode_NE high low) (num prec emax 2)) /\ B2R (Bdiv mode_NE (Bminus mode_NE high low) (num prec emax 2)) = Half l h.
    Proof.
      destruct q_big as [Eq Pq]. destruct D_range as [D1 D2]. pose proof (Rabs_le_inv _ _ Bl). pose proof (Rabs_le_inv _ _ Bh). destruct (minus_ok high low Fh Fl) as [F1 E1]; [apply Rabs_le; lra|]. destruct num2 as [F2 E2].
      destruct (div_ok (Bminus mode_NE high low) (num prec emax 2) F1) as [F3 E3]; [rewrite E2; lra|rewrite E1, E2; apply Rabs_le; lra|]. split; [exact F3|]. now rewrite E3, E1, E2.
    Qed.
    Lemma loc_ok : fin (Bdiv mode_NE (Bplus mode_NE high low) (num prec emax 2)) /\ B2R (Bdiv mode_NE (Bplus mode_NE high low) (num prec emax 2)) = rnd (rnd (h + l) / 2).
    Proof.
      destruct q_big as [Eq Pq]. pose proof (Rabs_le_inv _ _ Bl). pose proof (Rabs_le_inv _ _ Bh). destruct (plus_ok high low Fh Fl) as [F1 E1]; [apply Rabs_le; lra|]. destruct num2 as [F2 E2].
      assert (- (2 * q) <= rnd (h + l) <= 2 * q) by (split; [apply rnd_lb; [apply fmt_opp, fmt_2q|lra]|apply rnd_ub; [apply fmt_2q|lra]]).
      destruct (div_ok (Bplus mode_NE high low) (num prec emax 2) F1) as [F3 E3]; [rewrite E2; lra|rewrite E1, E2; apply Rabs_le; lra|]. split; [exact F3|]. now rewrite E3, E1, E2.
    Qed.

    Lemma normalized_val a : fin a -> -1 <= B2R a <= 1 ->
      fin (normalized_action prec emax low high a) /\ B2R (normalized_action prec emax low high a) = rnd (rnd (rnd (B2R a + 1) * Half l h) + l) /\ 0 <= rnd (B2R a + 1) <= 2 /\ 0 <= rnd (rnd (B2R a + 1) * Half l h) <= rnd (2 * Half l h).
    Proof.
      intros Fa Ha. destruct q_big as [Eq Pq]. destruct D_range as [D1 D2]. destruct H_range as [H1 H2]. destruct num1 as [F1 E1]. destruct scale_ok as [Fs Es]. pose proof two_le_big.
      destruct (plus_ok a (num prec emax 1) Fa F1) as [F2 E2]; [rewrite E1, Rabs_pos_eq; lra|]. rewrite E1 in E2. assert (Ra : 0 <= rnd (B2R a + 1) <= 2) by (split; [apply rnd_lb; [apply fmt_0|lra]|apply rnd_ub; [apply fmt_2|lra]]).
      assert (Rp : 0 <= rnd (B2R a + 1) * Half l h <= 2 * Half l h) by (split; [apply Rmult_le_pos; lra|apply Rmult_le_compat_r; lra]).
      assert (Hq : Half l h <= q). { apply rnd_ub; [|lra]. apply fmt_bpow. pose proof emin_small. pose proof emax_gt. lia. }
      destruct (mult_ok (Bplus mode_NE a (num prec emax 1)) (Bdiv mode_NE (Bminus mode_NE high low) (num prec emax 2)) F2 Fs) as [F3 E3]; [rewrite E2, Es, Rabs_pos_eq; lra|]. rewrite E2, Es in E3.
      assert (Rr : 0 <= rnd (rnd (B2R a + 1) * Half l h) <= rnd (2 * Half l h)) by (split; [apply rnd_lb; [apply fmt_0|lra]|apply rnd_mono; lra]).
      assert (rnd (2 * Half l h) <= 2 * q) by (apply rnd_ub; [apply fmt_2q|lra]). pose proof (Rabs_le_inv _ _ Bl).
      destruct (plus_ok _ low F3 Fl) as [F4 E4]; [rewrite E3; apply Rabs_le; lra|]. unfold normalized_action. split; [exact F4|]. rewrite E4, E3. auto.
    Qed.

    Lemma bounded_val t : fin t -> -1 <= B2R t <= 1 ->
      fin (bounded_action prec emax low high t) /\ B2R (bounded_action prec emax low high t) = rnd (rnd (B2R t * Half l h) + rnd (rnd (h + l) / 2)) /\ - Half l h <= rnd (B2R t * Half l h) <= Half l h.
    Proof.
      intros Ft Ht. destruct q_big as [Eq Pq]. destruct D_range as [D1 D2]. destruct H_range as [H1 H2]. destruct scale_ok as [Fs Es]. destruct loc_ok as [Fc Ec]. pose proof (Rabs_le_inv _ _ Bl). pose proof (Rabs_le_inv _ _ Bh).
      assert (Hq : Half l h <= q). { apply rnd_ub; [|lra]. apply fmt_bpow. pose proof emin_small. pose proof emax_gt. lia. }
      assert (Rp : - Half l h <= B2R t * Half l h <= Half l h) by (split; [replace (- Half l h) with (-1 * Half l h) by ring|rewrite <- (Rmult_1_l (Half l h)) at 2]; apply Rmult_le_compat_r; lra).
      destruct (mult_ok t (Bdiv mode_NE (Bminus mode_NE high low) (num prec emax 2)) Ft Fs) as [F3 E3]; [rewrite Es; apply Rabs_le; lra|]. rewrite Es in E3.
      assert (Rr : - Half l h <= rnd (B2R t * Half l h) <= Half l h) by (split; [apply rnd_lb; [apply fmt_opp, rnd_fmt|lra]|apply rnd_ub; [apply rnd_fmt|lra]]).
      assert (- (2 * q) <= rnd (h + l) <= 2 * q) by (split; [apply rnd_lb; [apply fmt_opp, fmt_2q|lra]|apply rnd_ub; [apply fmt_2q|lra]]).
      assert (- (2 * q) <= rnd (rnd (h + l) / 2) <= 2 * q) by (split; [apply rnd_lb; [apply fmt_opp, fmt_2q|lra]|apply rnd_ub; [apply fmt_2q|lra]]).
      destruct (plus_ok _ _ F3 Fc) as [F4 E4]; [rewrite E3, Ec; apply Rabs_le; lra|]. unfold bounded_action. split; [exact F4|]. rewrite E4, E3, Ec. auto.
    Qed.
  End Val.

  (** Doubling is exact. *)
  Lemma fmt_double x : fmt x -> fmt (2 * x).
  Proof.
    intros F. destruct (Req_dec x 0) as [->|N]; [rewrite Rmult_0_r; apply generic_format_0|]. replace (2 * x) with (x * bpow radix2 1) by (cbn; ring).
    apply (generic_format_FLT radix2 (SpecFloat.emin prec emax) prec). apply (FLT_format_generic radix2 (SpecFloat.emin prec emax) prec) in F. destruct F as [[m e] E Hm Hexp].
    exists (Float radix2 m (e + 1)); [rewrite E; unfold F2R; cbn [Fnum Fexp]; rewrite bpow_plus; ring|exact Hm|cbn [Fexp] in *; lia].
  Qed.

  (** The relative error of a rounded sum is at most 2^-prec, also below the normal numbers. *)
  Lemma plus_error x y : fmt x -> fmt y -> Rabs (rnd (x + y) - (x + y)) <= bpow radix2 (- prec) * Rabs (x + y).
  Proof.
    intros Fx Fy. destruct (Rle_or_lt (bpow radix2 (SpecFloat.emin prec emax + prec - 1)) (Rabs (x + y))) as [H|H].
    - replace (bpow radix2 (- prec)) with (/ 2 * bpow radix2 (- prec + 1)) by (rewrite bpow_plus; change (bpow radix2 1) with 2; field). apply (relative_error_N_FLT radix2 (SpecFloat.emin prec emax) prec Hp _ (x + y) H).
    - rewrite rnd_id.
      + rewrite Rminus_diag_eq by reflexivity. rewrite Rabs_R0. apply Rmult_le_pos; [apply bpow_ge_0|apply Rabs_pos].
      + apply (FLT_format_plus_small radix2 (SpecFloat.emin prec emax) prec); auto. apply Rlt_le. eapply Rlt_le_trans; [exact H|]. apply bpow_le. lia.
  Qed.
End Action.
