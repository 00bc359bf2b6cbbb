(** IEEE binary64 satisfies the requirements of S_FloatTree. *)
From Coq Require Import Reals Lra ZArith.
From Flocq Require Import Core BinarySingleNaN Relative Plus_error.
From Verif Require Import Base M_Prioritized M_FloatTree S_FloatTree.
Open Scope R_scope.

Notation fexp64 := (FLT_exp (-1074) 53).
Notation rnd64 := (round radix2 fexp64 ZnearestE).

Definition b64_val (x : binary64) : R := B2R x.
(** Finite and not negative. *)
Definition b64_ok (x : binary64) : Prop := is_finite x = true /\ 0 <= B2R x.
(** Finite and in [0, 1). *)
Definition b64_unit (x : binary64) : Prop := is_finite x = true /\ 0 <= B2R x < 1.

Global Instance prec53 : Prec_gt_0 53 := eq_refl.

Lemma format64 (x : binary64) : generic_format radix2 fexp64 (B2R x).
Proof. apply (generic_format_B2R 53 1024 x). Qed.

Lemma u64 : / 2 * bpow radix2 (- (53) + 1) = / 2 ^ 53.
Proof. change (- (53) + 1)%Z with (- (52))%Z. rewrite bpow_opp. rewrite <- Rinv_mult. f_equal. simpl bpow. lra. Qed.

Lemma round_small z : Rabs z < bpow radix2 1024 -> forall T (a b : T), (if Rlt_bool (Rabs z) (bpow radix2 1024) then a else b) = a.
Proof. intros H T a b. rewrite Rlt_bool_true by exact H. reflexivity. Qed.

(** A sum of two binary64 numbers, rounded: the relative error also holds below the normal numbers. *)
Lemma plus_error64 x y : generic_format radix2 fexp64 x -> generic_format radix2 fexp64 y ->
  Rabs (rnd64 (x + y) - (x + y)) <= / 2 ^ 53 * Rabs (x + y).
Proof.
  intros Fx Fy. destruct (Rle_or_lt (bpow radix2 (-1074 + 53 - 1)) (Rabs (x + y))) as [H|H].
  - rewrite <- u64. apply (relative_error_N_FLT radix2 (-1074) 53 prec53 _ (x + y) H).
  - rewrite round_generic.
    + rewrite Rminus_diag_eq by reflexivity. rewrite Rabs_R0. apply Rmult_le_pos; [|apply Rabs_pos].
      apply Rlt_le, Rinv_0_lt_compat, pow_lt. lra.
    + apply valid_rnd_N.
    + apply FLT_format_plus_small; auto; [exact prec53|]. apply Rlt_le. eapply Rlt_le_trans; [exact H|]. apply bpow_le. lia.
Qed.

Lemma round_nonneg z : 0 <= z -> 0 <= rnd64 z.
Proof. intros H. apply round_ge_generic; auto; [apply FLT_exp_valid, prec53|apply valid_rnd_N|apply generic_format_0]. Qed.

Lemma round_upto z x : generic_format radix2 fexp64 x -> z <= x -> rnd64 z <= x.
Proof. intros F H. apply round_le_generic; auto; [apply FLT_exp_valid, prec53|apply valid_rnd_N]. Qed.

Theorem b64_rounded : rounded b64 b64_val b64_ok b64_unit (/ 2 ^ 53) (/ 2 ^ 1075) (2 ^ 1023).
Proof.
  assert (Hu : 0 < / 2 ^ 53) by (apply Rinv_0_lt_compat, pow_lt; lra).
  assert (HM : 2 ^ 1023 < bpow radix2 1024).
  { rewrite <- (IZR_Zpower radix2) by lia. rewrite pow_IZR. apply IZR_lt. vm_compute. reflexivity. }
  constructor.
  - lra.
  - apply Rlt_le, Rinv_0_lt_compat, pow_lt. lra.
  - intros x [_ H]. exact H.
  - intros x [_ H]. exact H.
  - split; [split; [reflexivity|cbn; lra]|reflexivity].
  - intros x [Fx Hx]. cbn [b64 a_add a_zero].
    pose proof (Bplus_correct 53 1024 b64_prec b64_emax mode_NE (B754_zero false) x eq_refl Fx) as C.
    cbn [B2R round_mode] in C. rewrite Rplus_0_l in C.
    change (SpecFloat.fexp 53 1024) with fexp64 in C.
    rewrite (round_generic radix2 fexp64 ZnearestE (B2R x) (format64 x)) in C.
    rewrite Rlt_bool_true in C by apply abs_B2R_lt_emax. destruct C as (E & F & _).
    unfold b64_ok, b64_val. rewrite E. auto.
  - intros x y [Fx Hx] [Fy Hy] Hs. unfold b64_val in *. cbn [b64 a_add].
    pose proof (Bplus_correct 53 1024 b64_prec b64_emax mode_NE x y Fx Fy) as C.
    cbn [round_mode] in C. change (SpecFloat.fexp 53 1024) with fexp64 in C.
    pose proof (plus_error64 (B2R x) (B2R y) (format64 x) (format64 y)) as Er.
    pose proof (round_nonneg (B2R x + B2R y) ltac:(lra)) as Hr0.
    rewrite (Rabs_pos_eq (B2R x + B2R y)) in Er by lra.
    assert (Hlt : Rabs (rnd64 (B2R x + B2R y)) < bpow radix2 1024).
    { rewrite Rabs_pos_eq by exact Hr0. apply Rabs_le_inv in Er. lra. }
    rewrite Rlt_bool_true in C by exact Hlt. destruct C as (E & F & _).
    split; [split; [exact F|rewrite E; exact Hr0]|]. rewrite E. exact Er.
  - intros x y [Fx Hx] [Fy Hy] Hs. unfold b64_val in *. cbn [b64 a_sub].
    pose proof (Bminus_correct 53 1024 b64_prec b64_emax mode_NE x y Fx Fy) as C.
    cbn [round_mode] in C. change (SpecFloat.fexp 53 1024) with fexp64 in C.
    pose proof (plus_error64 (B2R x) (- B2R y) (format64 x) (generic_format_opp _ _ _ (format64 y))) as Er.
    change (B2R x + - B2R y) with (B2R x - B2R y) in Er.
    pose proof (round_nonneg (B2R x - B2R y) ltac:(lra)) as Hr0.
    pose proof (round_upto (B2R x - B2R y) (B2R x) (format64 x) ltac:(lra)) as Hr1.
    rewrite (Rabs_pos_eq (B2R x - B2R y)) in Er by lra.
    assert (Hlt : Rabs (rnd64 (B2R x - B2R y)) < bpow radix2 1024).
    { rewrite Rabs_pos_eq by exact Hr0. pose proof (abs_B2R_lt_emax 53 1024 x) as Hb. rewrite Rabs_pos_eq in Hb by exact Hx. lra. }
    rewrite Rlt_bool_true in C by exact Hlt. destruct C as (E & F & _).
    split; [split; [exact F|rewrite E; exact Hr0]|]. rewrite E. split; [exact Er|exact Hr1].
  - intros x f [Fx Hx] [Ff Hf]. unfold b64_val in *. cbn [b64 a_mul].
    pose proof (Bmult_correct 53 1024 b64_prec b64_emax mode_NE x f) as C.
    cbn [round_mode] in C. change (SpecFloat.fexp 53 1024) with fexp64 in C.
    assert (Hp0 : 0 <= B2R x * B2R f) by (apply Rmult_le_pos; lra).
    assert (Hp1 : B2R x * B2R f <= B2R x) by (rewrite <- (Rmult_1_r (B2R x)) at 2; apply Rmult_le_compat_l; lra).
    pose proof (round_nonneg _ Hp0) as Hr0. pose proof (round_upto _ (B2R x) (format64 x) Hp1) as Hr1.
    assert (Hlt : Rabs (rnd64 (B2R x * B2R f)) < bpow radix2 1024).
    { rewrite Rabs_pos_eq by exact Hr0. pose proof (abs_B2R_lt_emax 53 1024 x) as Hb. rewrite Rabs_pos_eq in Hb by exact Hx. lra. }
    rewrite Rlt_bool_true in C by exact Hlt. destruct C as (E & F & _).
    rewrite Fx, Ff in F. cbn [andb] in F.
    split; [split; [exact F|rewrite E; exact Hr0]|]. rewrite E. split; [exact Hr1|].
    destruct (error_N_FLT radix2 (-1074) 53 ltac:(lia) (fun z => negb (Z.even z)) (B2R x * B2R f)) as (eps & eta & He & Ht & _ & ER).
    rewrite ER. replace (B2R x * B2R f * (1 + eps) + eta - B2R x * B2R f) with (eps * (B2R x * B2R f) + eta) by ring.
    eapply Rle_trans; [apply Rabs_triang|]. apply Rplus_le_compat.
    + rewrite Rabs_mult, (Rabs_pos_eq (B2R x * B2R f)) by exact Hp0. apply Rmult_le_compat_r; [exact Hp0|]. rewrite <- u64. exact He.
    + eapply Rle_trans; [exact Ht|]. rewrite bpow_opp with (e := 1074%Z). rewrite <- Rinv_mult.
      rewrite <- (IZR_Zpower radix2) by lia. apply Req_le. f_equal. rewrite pow_IZR, <- mult_IZR. f_equal.
  - intros x y [Fx _] [Fy _]. cbn [b64 a_ltb]. rewrite (Bltb_correct 53 1024 x y Fx Fy). unfold b64_val.
    destruct (Rlt_bool_spec (B2R x) (B2R y)); split; auto; try discriminate. intros; lra.
Qed.
