(** C147: soft target updates in single precision stay within reach of the exact exponential average for ever. *)
From Coq Require Import Reals Lra Lia ZArith.
From Flocq Require Import Core IEEE754.BinarySingleNaN.
From Verif Require Import Base M_FloatAction P_FloatAction M_FloatCategorical P_FloatCategorical M_FloatCopy S_FloatCopy P_FloatCopy.
Open Scope R_scope.

Theorem C147_tracking : forall (tau : binary64) (target : binary32) sources B,
  is_finite tau = true -> bpow radix2 (-20) <= B2R tau <= 1 -> bpow radix2 (-100) <= B <= bpow radix2 100 ->
  is_finite target = true -> Rabs (B2R target) <= B -> Forall (fun s => is_finite s = true /\ Rabs (B2R s) <= B / 2) sources ->
  let result := soft_copies tau target sources in
  is_finite result = true /\ Rabs (B2R result) <= B /\
  Rabs (B2R result - average (B2R tau) (B2R target) (map (@B2R 24 128) sources)) <= B * bpow radix2 (-21) / B2R tau.
Proof.
  intros tau target sources B Ft Ht HB Fx Bx Hs. assert (Pt : 0 < B2R tau) by (pose proof (bpow_gt_0 radix2 (-20)); lra). assert (B0 : 0 < B) by (pose proof (bpow_gt_0 radix2 (-100)); lra).
  apply (soft_copies_ok tau Ft Ht B HB); auto.
  - rewrite Rminus_diag_eq by reflexivity. rewrite Rabs_R0. apply Rmult_le_pos; [apply Rmult_le_pos; [lra|apply bpow_ge_0]|left; now apply Rinv_0_lt_compat].
  - apply Req_le. replace (8 * bpow radix2 (-24)) with (bpow radix2 (-21)); [field; lra|]. change 8 with (bpow radix2 3). now rewrite <- bpow_plus.
Qed.
Print Assumptions C147_tracking.

(** A source that stands still: the distance shrinks geometrically, up to the same rounding error. *)
Theorem C147_constant : forall (tau : binary64) (target source : binary32) n B,
  is_finite tau = true -> bpow radix2 (-20) <= B2R tau <= 1 -> bpow radix2 (-100) <= B <= bpow radix2 100 ->
  is_finite target = true -> Rabs (B2R target) <= B -> is_finite source = true -> Rabs (B2R source) <= B / 2 ->
  Rabs (B2R (soft_copies tau target (repeat source n)) - B2R source) <= (1 - B2R tau) ^ n * Rabs (B2R target - B2R source) + B * bpow radix2 (-21) / B2R tau.
Proof.
  intros tau target source n B Ft Ht HB Fx Bx Fs Bs. destruct (C147_tracking tau target (repeat source n) B Ft Ht HB Fx Bx) as (_ & _ & E); [apply Forall_forall; intros s Hin; apply repeat_spec in Hin; subst; auto|].
  assert (M : map (@B2R 24 128) (repeat source n) = repeat (B2R source) n) by (clear; induction n as [|n IH]; cbn; [reflexivity|now rewrite IH]). rewrite M in E. clear M.
  pose proof (average_constant (B2R tau) (B2R source) n (B2R target)) as A. set (r := B2R (soft_copies tau target (repeat source n))) in *. set (a := average (B2R tau) (B2R target) (repeat (B2R source) n)) in *.
  replace (r - B2R source) with ((a - B2R source) + (r - a)) by ring. eapply Rle_trans; [apply Rabs_triang|]. apply Rplus_le_compat; [|exact E]. rewrite A, Rabs_mult, (Rabs_pos_eq ((1 - B2R tau) ^ n)); [apply Rle_refl|]. apply pow_le. lra.
Qed.
Print Assumptions C147_constant.

(** The default rate of DQN and DDPG, 1e-2. *)
Definition rate_01 : binary64 := binary_normalize 53 1024 prec53 emax1024 mode_NE 5764607523034235 (-59) false.
Lemma rate_01_value : is_finite rate_01 = true /\ B2R rate_01 = 5764607523034235 * / 576460752303423488.
Proof.
  assert (E : B2SF rate_01 = SpecFloat.S754_finite false 5764607523034235 (-59)) by (vm_compute; reflexivity). split; [vm_compute; reflexivity|].
  rewrite <- (SF2R_B2SF 53 1024 rate_01), E. unfold SF2R, F2R. cbn [Fnum Fexp cond_Zopp]. change (bpow radix2 (-59)) with (/ 576460752303423488). reflexivity.
Qed.
(** The hypotheses hold of a target 4 and the sources 1 and 2, with the bound 8; the result is 3.9503 up to rounding. *)
Example C147_example_hyps : is_finite rate_01 = true /\ bpow radix2 (-20) <= B2R rate_01 <= 1 /\ bpow radix2 (-100) <= 8 <= bpow radix2 100 /\
  is_finite (int32 4) = true /\ Rabs (B2R (int32 4)) <= 8 /\ Forall (fun s => is_finite s = true /\ Rabs (B2R s) <= 8 / 2) [int32 1; int32 2].
Proof.
  destruct rate_01_value as [F E]. assert (K : forall z, (0 <= z < 5)%Z -> is_finite (int32 z) = true /\ Rabs (B2R (int32 z)) <= 8 / 2).
  { intros z Hz. destruct (int_ok z) as [Fz Ez]; [clear - Hz; lia|]. split; [exact Fz|]. rewrite Ez. assert (0 <= IZR z <= 4) by (split; apply IZR_le; clear - Hz; lia). rewrite Rabs_pos_eq; lra. }
  split; [exact F|]. split; [rewrite E; assert (T : bpow radix2 (-20) = / 1048576) by reflexivity; rewrite T; lra|]. split; [change 8 with (bpow radix2 3); split; apply bpow_le; discriminate|].
  assert (R1 : (0 <= 1 < 5)%Z) by lia. assert (R2 : (0 <= 2 < 5)%Z) by lia. assert (R4 : (0 <= 4 < 5)%Z) by lia. pose proof (K 4%Z R4) as K4. pose proof (K 1%Z R1) as K1. pose proof (K 2%Z R2) as K2. clear K. split; [exact (proj1 K4)|].
  split; [apply Rle_trans with (8 / 2); [exact (proj2 K4)|lra]|]. exact (Forall_cons _ K1 (Forall_cons _ K2 (Forall_nil _))).
Qed.
Example C147_example : B2SF (soft_copies rate_01 (int32 4) [int32 1; int32 2]) = SpecFloat.S754_finite false 16568759 (-22).
Proof. vm_compute. reflexivity. Qed.

(** The rounding error does not go away: with that rate, a target that starts from 0 and follows a source that stays 1 stops 50 * 2^-24 below it and never moves again, while the exact
    average converges to 1. *)
Definition stopped : binary32 := binary_normalize 24 128 prec24 emax128 mode_NE 16777166 (-24) false.
Lemma soft_copies_app tau t a b : soft_copies tau t (a ++ b) = soft_copies tau (soft_copies tau t a) b.
Proof. apply fold_left_app. Qed.
Lemma stops_sf : B2SF (soft_copies rate_01 (int32 0) (repeat (int32 1) 1500)) = B2SF stopped.
Proof. vm_compute. reflexivity. Qed.
Lemma stays_sf : B2SF (soft_copy rate_01 stopped (int32 1)) = B2SF stopped.
Proof. vm_compute. reflexivity. Qed.
Lemma stopped_value : B2R stopped = 1 - 50 * bpow radix2 (-24).
Proof.
  assert (E : B2SF stopped = SpecFloat.S754_finite false 16777166 (-24)) by (vm_compute; reflexivity). rewrite <- (SF2R_B2SF 24 128 stopped), E. unfold SF2R, F2R. cbn [Fnum Fexp cond_Zopp]. change (bpow radix2 (-24)) with (/ 16777216). lra.
Qed.
Lemma stays n : soft_copies rate_01 stopped (repeat (int32 1) n) = stopped.
Proof.
  induction n as [|n IH]; [reflexivity|]. change (soft_copies rate_01 stopped (repeat (int32 1) (S n))) with (soft_copies rate_01 (soft_copy rate_01 stopped (int32 1)) (repeat (int32 1) n)). rewrite (B2SF_inj _ _ _ _ stays_sf). exact IH.
Qed.
Theorem C147_stalls : B2R stopped = 1 - 50 * bpow radix2 (-24) /\
  forall n, soft_copies rate_01 (int32 0) (repeat (int32 1) 1500 ++ repeat (int32 1) n) = stopped.
Proof. split; [exact stopped_value|]. intros n. rewrite soft_copies_app, (B2SF_inj _ _ _ _ stops_sf). apply stays. Qed.
Print Assumptions C147_stalls.
