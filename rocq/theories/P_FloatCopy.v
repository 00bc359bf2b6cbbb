(** Lemmas for C147. *)
From Coq Require Import Reals Lra Lia ZArith.
From Flocq Require Import Core BinarySingleNaN Relative.
From Verif Require Import Base M_FloatAction P_FloatAction M_FloatCategorical P_FloatCategorical M_FloatCopy S_FloatCopy.
Open Scope R_scope.
Notation two e := (bpow radix2 e).
Notation fexp64 := (SpecFloat.fexp 53 1024).
Notation rnd64 := (round radix2 fexp64 ZnearestE).
Lemma P53 : (1 < 53)%Z. Proof. reflexivity. Qed.

Lemma to32_ok x : fin x -> Rabs (B2R x) <= 4 -> fin (to32 x) /\ B2R (to32 x) = rnd32 (B2R x).
Proof.
  intros F B. destruct x as [s|s| |s m e H]; try discriminate F; cbn [to32].
  - cbn [is_finite B2R]. split; [reflexivity|]. now rewrite round_0 by apply valid_rnd_N.
  - pose proof (binary_normalize_correct 24 128 prec24 emax128 mode_NE (cond_Zopp s (Zpos m)) e s) as K. cbn [round_mode] in K. pose proof big_large. change (F2R (Float radix2 (cond_Zopp s (Zpos m)) e)) with (B2R (B754_finite s m e H : binary64)) in K. rewrite (small 24 128 P24) in K by lra. destruct K as (K1 & K2 & _). split; assumption.
Qed.

Section Tau.
  Context (tau : binary64) (Ft : fin tau) (Ht : two (-20) <= B2R tau <= 1).
  Notation t_ := (B2R tau).
  Notation c1 := (to32 (Bminus mode_NE (num 53 1024 1) tau)).
  Notation c2 := (to32 tau).
  Lemma uu_small : uu = / 16777216. Proof. rewrite uu_val. reflexivity. Qed.
  Lemma tau_pos : 0 < t_. Proof. pose proof (bpow_gt_0 radix2 (-20)). lra. Qed.
  Lemma c2_ok : fin c2 /\ 0 <= B2R c2 /\ Rabs (B2R c2 - t_) <= 2 * uu.
  Proof.
    pose proof tau_pos. destruct (to32_ok tau Ft) as [F E]; [apply Rabs_le; lra|]. split; [exact F|]. rewrite E. split; [apply (rnd_lb 24 128); [apply generic_format_0|lra]|]. eapply Rle_trans; [apply mult_err|]. pose proof eta_small. pose proof uu_pos. rewrite Rabs_pos_eq by lra. assert (uu * t_ <= uu * 1) by (apply Rmult_le_compat_l; lra). lra.
  Qed.
  Lemma c1_ok : fin c1 /\ 0 <= B2R c1 /\ Rabs (B2R c1 - (1 - t_)) <= 2 * uu.
  Proof.
    pose proof tau_pos. destruct (num1 53 1024 P53) as [F1 E1]. pose proof (two_le_big 53 1024 P53) as Bg. destruct (minus_ok 53 1024 P53 (num 53 1024 1) tau F1 Ft) as [Fm Em]; [rewrite E1; apply Rabs_le; lra|]. rewrite E1 in Em.
    assert (R0 : 0 <= rnd64 (1 - t_) <= 1) by (split; [apply (rnd_lb 53 1024); [apply generic_format_0|lra]|apply (rnd_ub 53 1024); [apply (fmt_1 53 1024 P53)|lra]]).
    pose proof (plus_error 53 1024 1 (- t_) (fmt_1 53 1024 P53) (fmt_opp 53 1024 _ (fmt_float 53 1024 tau))) as Pe. fold (1 - t_) in Pe. rewrite (Rabs_pos_eq (1 - t_)) in Pe by lra. assert (S : two (- (53)) <= / 4 * uu). { change (/ 4) with (two (-2)). rewrite <- bpow_plus. apply bpow_le. discriminate. }
    assert (Pe' : Rabs (rnd64 (1 - t_) - (1 - t_)) <= / 4 * uu). { eapply Rle_trans; [exact Pe|]. rewrite <- (Rmult_1_r (/ 4 * uu)). apply Rmult_le_compat; try lra. apply bpow_ge_0. }
    destruct (to32_ok (Bminus mode_NE (num 53 1024 1) tau) Fm) as [F E]; [rewrite Em; apply Rabs_le; lra|]. rewrite Em in E. split; [exact F|]. rewrite E. split; [apply (rnd_lb 24 128); [apply generic_format_0|lra]|].
    pose proof (mult_err (rnd64 (1 - t_))) as Me. rewrite (Rabs_pos_eq (rnd64 (1 - t_))) in Me by lra. assert (He : eta <= / 4 * uu). { change (/ 4) with (two (-2)). rewrite <- bpow_plus. apply bpow_le. discriminate. } pose proof uu_pos. assert (uu * rnd64 (1 - t_) <= uu * 1) by (apply Rmult_le_compat_l; lra).
    apply Rabs_le_inv in Me. apply Rabs_le_inv in Pe'. apply Rabs_le. lra.
  Qed.

  Context (B : R) (HB : two (-100) <= B <= two 100).
  Lemma eta_B : 3 * eta <= uu * B.
  Proof. apply Rle_trans with (uu * two (-100)); [|apply Rmult_le_compat_l; [apply bpow_ge_0|lra]]. apply Rle_trans with (two 2 * eta); [change (two 2) with 4; pose proof eta_pos; lra|]. rewrite <- !bpow_plus. apply bpow_le. discriminate. Qed.
  Lemma B_big : 4 * B <= big32.
  Proof. apply Rle_trans with (two 2 * two 100); [change (two 2) with 4; lra|]. rewrite <- bpow_plus. apply bpow_le. discriminate. Qed.
  (** One soft update: the rounding error. *)
  Lemma soft_copy_ok (t s : binary32) : fin t -> fin s -> Rabs (B2R t) <= B -> Rabs (B2R s) <= B ->
    fin (soft_copy tau t s) /\ Rabs (B2R (soft_copy tau t s) - ((1 - t_) * B2R t + t_ * B2R s)) <= 8 * uu * B.
  Proof.
    intros Fx Fs Bx Bs. destruct c1_ok as (F1 & P1 & D1). destruct c2_ok as (F2 & P2 & D2). pose proof uu_pos as Pu. pose proof uu_small as Us. pose proof eta_pos as Pe. pose proof eta_B as Eb. pose proof B_big as Bb. pose proof tau_pos as Pt. assert (B0 : 0 < B) by (pose proof (bpow_gt_0 radix2 (-100)); lra).
    unfold soft_copy. set (k1 := B2R c1) in *. set (k2 := B2R c2) in *. set (x := B2R t) in *. set (y := B2R s) in *.
    assert (K1 : k1 <= 1 - t_ + 2 * uu) by (apply Rabs_le_inv in D1; lra). assert (K2 : k2 <= t_ + 2 * uu) by (apply Rabs_le_inv in D2; lra).
    assert (A1 : Rabs (x * k1) <= B * k1) by (rewrite Rabs_mult, (Rabs_pos_eq k1 P1); now apply Rmult_le_compat_r). assert (A2 : Rabs (k2 * y) <= k2 * B) by (rewrite Rabs_mult, (Rabs_pos_eq k2 P2); now apply Rmult_le_compat_l).
    assert (Bk : B * k1 + k2 * B <= (1 + 4 * uu) * B). { replace (B * k1 + k2 * B) with ((k1 + k2) * B) by ring. apply Rmult_le_compat_r; lra. } assert (p1 : 0 <= B * k1) by (apply Rmult_le_pos; lra). assert (p2 : 0 <= k2 * B) by (apply Rmult_le_pos; lra). assert (uB : uu * B = / 16777216 * B) by (rewrite Us; reflexivity).
    destruct (mult_ok 24 128 P24 t c1 Fx F1) as [Fa Ea]; [fold x k1; eapply Rle_trans; [exact A1|]; lra|]. fold x k1 in Ea. destruct (mult_ok 24 128 P24 c2 s F2 Fs) as [Fb Eb']; [fold y k2; eapply Rle_trans; [exact A2|]; lra|]. fold y k2 in Eb'.
    set (fa := Bmult mode_NE t c1) in *. set (fb := Bmult mode_NE c2 s) in *.
    pose proof (mult_err (x * k1)) as M1. rewrite <- Ea in M1. pose proof (mult_err (k2 * y)) as M2. rewrite <- Eb' in M2.
    assert (M1' : Rabs (B2R fa - x * k1) <= uu * (B * k1) + eta) by (eapply Rle_trans; [exact M1|]; apply Rplus_le_compat_r, Rmult_le_compat_l; lra). assert (M2' : Rabs (B2R fb - k2 * y) <= uu * (k2 * B) + eta) by (eapply Rle_trans; [exact M2|]; apply Rplus_le_compat_r, Rmult_le_compat_l; lra). clear M1 M2.
    assert (Ub : uu * (B * k1) + uu * (k2 * B) <= uu * ((1 + 4 * uu) * B)) by (rewrite <- Rmult_plus_distr_l; apply Rmult_le_compat_l; lra). assert (Ub2 : uu * ((1 + 4 * uu) * B) <= 1.01 * (uu * B)). { replace (uu * ((1 + 4 * uu) * B)) with ((1 + 4 * uu) * (uu * B)) by ring. apply Rmult_le_compat_r; [apply Rmult_le_pos; lra|rewrite Us; lra]. }
    apply Rabs_le_inv in A1, A2, M1', M2'. assert (Sab : Rabs (B2R fa + B2R fb) <= 1.01 * B) by (apply Rabs_le; lra).
    destruct (plus_ok 24 128 P24 fa fb Fa Fb) as [Fs' Es]; [eapply Rle_trans; [exact Sab|]; lra|]. split; [exact Fs'|]. rewrite Es.
    pose proof (plus_error 24 128 (B2R fa) (B2R fb) (fmt_float 24 128 _) (fmt_float 24 128 _)) as Pl. assert (Pl' : Rabs (rnd32 (B2R fa + B2R fb) - (B2R fa + B2R fb)) <= 1.01 * (uu * B)). { eapply Rle_trans; [exact Pl|]. replace (1.01 * (uu * B)) with (uu * (1.01 * B)) by ring. apply Rmult_le_compat_l; [apply bpow_ge_0|exact Sab]. } clear Pl. apply Rabs_le_inv in Pl'.
    assert (E1 : Rabs (x * k1 - (1 - t_) * x) <= 2 * (uu * B)). { replace (x * k1 - (1 - t_) * x) with ((k1 - (1 - t_)) * x) by ring. rewrite Rabs_mult. replace (2 * (uu * B)) with (2 * uu * B) by ring. apply Rmult_le_compat; try apply Rabs_pos; assumption. }
    assert (E2 : Rabs (k2 * y - t_ * y) <= 2 * (uu * B)). { replace (k2 * y - t_ * y) with ((k2 - t_) * y) by ring. rewrite Rabs_mult. replace (2 * (uu * B)) with (2 * uu * B) by ring. apply Rmult_le_compat; try apply Rabs_pos; assumption. }
    apply Rabs_le_inv in E1, E2. replace (8 * uu * B) with (8 * (uu * B)) by ring. apply Rabs_le. lra.
  Qed.

  Lemma soft_copies_ok sources : forall (t : binary32) x d, fin t -> Rabs (B2R t) <= B -> Forall (fun s => fin s /\ Rabs (B2R s) <= B / 2) sources -> Rabs (B2R t - x) <= d -> 8 * uu * B <= t_ * d ->
    fin (soft_copies tau t sources) /\ Rabs (B2R (soft_copies tau t sources)) <= B /\ Rabs (B2R (soft_copies tau t sources) - average t_ x (map (@B2R 24 128) sources)) <= d.
  Proof.
    induction sources as [|s sources IH]; intros t x d Fx Bx Hs Hd Hk; cbn [soft_copies fold_left map average]; [tauto|]. inversion Hs as [|? ? [Fs Bs] Hs']; subst.
    assert (B0 : 0 < B) by (pose proof (bpow_gt_0 radix2 (-100)); lra). pose proof tau_pos as Pt. pose proof uu_pos as Pu.
    destruct (soft_copy_ok t s Fx Fs Bx ltac:(lra)) as [Fn En]. apply (IH (soft_copy tau t s)); auto.
    - assert (E1 : Rabs ((1 - t_) * B2R t) <= (1 - t_) * B) by (rewrite Rabs_mult, (Rabs_pos_eq (1 - t_)) by lra; apply Rmult_le_compat_l; lra). assert (E2 : Rabs (t_ * B2R s) <= t_ * (B / 2)) by (rewrite Rabs_mult, (Rabs_pos_eq t_) by lra; apply Rmult_le_compat_l; lra).
      assert (E3 : 8 * uu * B <= t_ * (B / 2)). { replace (8 * uu * B) with (16 * uu * (B / 2)) by field. apply Rmult_le_compat_r; [lra|]. eapply Rle_trans; [|apply Ht]. change 16 with (two 4). rewrite <- bpow_plus. apply Rle_refl. }
      apply Rabs_le_inv in E1, E2, En. apply Rabs_le. lra.
    - assert (E : Rabs ((1 - t_) * (B2R t - x)) <= (1 - t_) * d) by (rewrite Rabs_mult, (Rabs_pos_eq (1 - t_)) by lra; apply Rmult_le_compat_l; lra). apply Rabs_le_inv in E, En. apply Rabs_le. lra.
  Qed.
End Tau.

Lemma average_constant tau s n : forall x, average tau x (repeat s n) - s = (1 - tau) ^ n * (x - s).
Proof. induction n as [|n IH]; intros x; cbn [repeat average pow]; [ring|]. rewrite IH. ring. Qed.
