(** C144: actions scaled in floating point stay within the bounds of the environment, if the bounds allow it. *)
From Coq Require Import Reals Lra Lia ZArith.
From Flocq Require Import Core BinarySingleNaN Relative Plus_error.
From Verif Require Import Base M_FloatAction P_FloatAction.
Open Scope R_scope.

Section C144.
  Context (prec emax : Z) {Hp : Prec_gt_0 prec} {He : Prec_lt_emax prec emax} (P2 : (1 < prec)%Z).
  Notation float := (binary_float prec emax).
  Notation representable := (generic_format radix2 (SpecFloat.fexp prec emax)).

  (** Bounds of an action space: finite, in order, and not so large that their difference overflows. *)
  Definition bounds (low high : float) : Prop :=
    is_finite low = true /\ is_finite high = true /\ B2R low <= B2R high /\ Rabs (B2R low) <= bpow radix2 (emax - 3) /\ Rabs (B2R high) <= bpow radix2 (emax - 3).
  (** An action between -1 and 1. *)
  Definition unit_action (a : float) : Prop := is_finite a = true /\ -1 <= B2R a <= 1.

  (** NormalizeActionSpace: if half the width of the action space is a number of the format, every action between -1 and 1 is mapped to one
      within the bounds, -1 to the lower and 1 to the upper bound exactly. *)
Theorem C144_normalized low high a : bounds low high -> representable ((B2R high - B2R low) / 2) -> unit_action a ->
    let v := normalized_action prec emax low high a in
    is_finite v = true /\ B2R low <= B2R v <= B2R high /\ (B2R a = -1 -> B2R v = B2R low) /\ (B2R a = 1 -> B2R v = B2R high).
  Proof.
    intros (Fl & Fh & Hlh & Bl & Bh) R (Fa & Ha) v. destruct (normalized_val prec emax P2 low high Fl Fh Hlh Bl Bh a Fa Ha) as (Fv & Ev & Ra & Rp). subst v.
    assert (RD : representable (B2R high - B2R low)) by (replace (B2R high - B2R low) with (2 * ((B2R high - B2R low) / 2)) by field; now apply fmt_double).
    rewrite (rnd_id prec emax (B2R high - B2R low) RD), (rnd_id prec emax _ R) in Ev, Rp. replace (2 * ((B2R high - B2R low) / 2)) with (B2R high - B2R low) in Rp by field. rewrite (rnd_id prec emax _ RD) in Rp.
    split; [exact Fv|]. split; [|split].
    - rewrite Ev. split; [apply (rnd_lb prec emax); [apply fmt_float|lra]|apply (rnd_ub prec emax); [apply fmt_float|lra]].
    - intros E. rewrite Ev, E. replace (-1 + 1) with 0 by ring. rewrite !(rnd_id prec emax 0) by apply generic_format_0. rewrite Rmult_0_l, (rnd_id prec emax 0) by apply generic_format_0. rewrite Rplus_0_l. apply (rnd_id prec emax), fmt_float.
    - intros E. rewrite Ev, E. replace (1 + 1) with 2 by ring. rewrite (rnd_id prec emax 2) by now apply fmt_2. replace (2 * ((B2R high - B2R low) / 2)) with (B2R high - B2R low) by field. rewrite (rnd_id prec emax _ RD). replace (B2R high - B2R low + B2R low) with (B2R high) by ring. apply (rnd_id prec emax), fmt_float.
  Qed.

  (** Whatever the bounds: never below the lower bound, and larger actions are not mapped to smaller ones. *)
Theorem C144_normalized_monotone low high a a' : bounds low high -> unit_action a -> unit_action a' -> B2R a <= B2R a' ->
    B2R low <= B2R (normalized_action prec emax low high a) <= B2R (normalized_action prec emax low high a').
  Proof.
    intros (Fl & Fh & Hlh & Bl & Bh) (Fa & Ha) (Fa' & Ha') L. destruct (normalized_val prec emax P2 low high Fl Fh Hlh Bl Bh a Fa Ha) as (_ & -> & Ra & Rp). destruct (normalized_val prec emax P2 low high Fl Fh Hlh Bl Bh a' Fa' Ha') as (_ & -> & Ra' & Rp'). destruct (H_range prec emax P2 low high Hlh Bl Bh) as [H1 _].
    split; [apply (rnd_lb prec emax); [apply fmt_float|lra]|]. apply (rnd_mono prec emax). apply Rplus_le_compat_r. apply (rnd_mono prec emax). apply Rmult_le_compat_r; [exact H1|]. apply (rnd_mono prec emax). lra.
  Qed.

  (** BoundByTanh: if half the width and the middle are numbers of the format, the action is within the bounds; they are reached
      when tanh is rounded to -1 or 1. *)
Theorem C144_bounded low high t : bounds low high -> representable ((B2R high - B2R low) / 2) -> representable ((B2R high + B2R low) / 2) -> unit_action t ->
    let v := bounded_action prec emax low high t in
    is_finite v = true /\ B2R low <= B2R v <= B2R high /\ (B2R t = -1 -> B2R v = B2R low) /\ (B2R t = 1 -> B2R v = B2R high).
  Proof.
    intros (Fl & Fh & Hlh & Bl & Bh) R R' (Ft & Ht) v. destruct (bounded_val prec emax P2 low high Fl Fh Hlh Bl Bh t Ft Ht) as (Fv & Ev & Rp). subst v.
    assert (RD : representable (B2R high - B2R low)) by (replace (B2R high - B2R low) with (2 * ((B2R high - B2R low) / 2)) by field; now apply fmt_double). assert (RD' : representable (B2R high + B2R low)) by (replace (B2R high + B2R low) with (2 * ((B2R high + B2R low) / 2)) by field; now apply fmt_double).
    rewrite (rnd_id prec emax (B2R high - B2R low) RD), (rnd_id prec emax _ R) in Ev, Rp. rewrite (rnd_id prec emax (B2R high + B2R low) RD'), (rnd_id prec emax _ R') in Ev.
    split; [exact Fv|]. split; [|split].
    - rewrite Ev. split; [apply (rnd_lb prec emax); [apply fmt_float|lra]|apply (rnd_ub prec emax); [apply fmt_float|lra]].
    - intros E. rewrite Ev, E. replace (-1 * ((B2R high - B2R low) / 2)) with (- ((B2R high - B2R low) / 2)) by ring. rewrite (rnd_id prec emax (- _)) by now apply fmt_opp. replace (- ((B2R high - B2R low) / 2) + (B2R high + B2R low) / 2) with (B2R low) by field. apply (rnd_id prec emax), fmt_float.
    - intros E. rewrite Ev, E, Rmult_1_l. rewrite (rnd_id prec emax _ R). replace ((B2R high - B2R low) / 2 + (B2R high + B2R low) / 2) with (B2R high) by field. apply (rnd_id prec emax), fmt_float.
  Qed.
Theorem C144_bounded_monotone low high t t' : bounds low high -> unit_action t -> unit_action t' -> B2R t <= B2R t' ->
    B2R (bounded_action prec emax low high t) <= B2R (bounded_action prec emax low high t').
  Proof.
    intros (Fl & Fh & Hlh & Bl & Bh) (Ft & Ht) (Ft' & Ht') L. destruct (bounded_val prec emax P2 low high Fl Fh Hlh Bl Bh t Ft Ht) as (_ & -> & _). destruct (bounded_val prec emax P2 low high Fl Fh Hlh Bl Bh t' Ft' Ht') as (_ & -> & _). destruct (H_range prec emax P2 low high Hlh Bl Bh) as [H1 _].
    apply (rnd_mono prec emax). apply Rplus_le_compat_r. apply (rnd_mono prec emax). now apply Rmult_le_compat_r.
  Qed.

  (** In particular with symmetric bounds, as most continuous control tasks have. *)
Theorem C144_symmetric low high a : bounds low high -> B2R low = - B2R high -> unit_action a ->
    B2R low <= B2R (normalized_action prec emax low high a) <= B2R high /\ B2R low <= B2R (bounded_action prec emax low high a) <= B2R high.
  Proof.
    intros B S U. assert (R : representable ((B2R high - B2R low) / 2)) by (rewrite S; replace ((B2R high - - B2R high) / 2) with (B2R high) by field; apply (fmt_float prec emax)). assert (R' : representable ((B2R high + B2R low) / 2)) by (rewrite S; replace ((B2R high + - B2R high) / 2) with 0 by lra; apply generic_format_0).
    split; [exact (proj1 (proj2 (C144_normalized low high a B R U)))|exact (proj1 (proj2 (C144_bounded low high a B R R' U)))].
  Qed.

  (** For other bounds the upper bound can be exceeded, but only by rounding errors of the width and of the bound
      (if half of the rounded width is a number of the format: no underflow). *)
  Notation u := (bpow radix2 (- prec)).
Theorem C144_normalized_partial low high a : bounds low high -> representable (round radix2 (SpecFloat.fexp prec emax) ZnearestE (B2R high - B2R low) / 2) -> unit_action a ->
    B2R low <= B2R (normalized_action prec emax low high a) <= B2R high + u * (B2R high - B2R low) + u * (Rabs (B2R high) + u * (B2R high - B2R low)).
  Proof.
    intros B R U. split; [exact (proj1 (C144_normalized_monotone low high a a B U U (Rle_refl _)))|]. destruct B as (Fl & Fh & Hlh & Bl & Bh). destruct U as (Fa & Ha). destruct (normalized_val prec emax P2 low high Fl Fh Hlh Bl Bh a Fa Ha) as (_ & -> & Ra & Rp).
    rewrite (rnd_id prec emax _ R) in Rp. rewrite (rnd_id prec emax _ R). set (D := round _ _ _ (B2R high - B2R low)) in *. replace (2 * (D / 2)) with D in Rp by field. rewrite (rnd_id prec emax D) in Rp by apply (rnd_fmt prec emax).
    assert (E1 : Rabs (D - (B2R high - B2R low)) <= u * Rabs (B2R high - B2R low)) by (apply (plus_error prec emax); [apply (fmt_float prec emax)|apply (fmt_opp prec emax), (fmt_float prec emax)]). rewrite (Rabs_pos_eq (B2R high - B2R low)) in E1 by lra.
    assert (E2 : Rabs (round radix2 (SpecFloat.fexp prec emax) ZnearestE (D + B2R low) - (D + B2R low)) <= u * Rabs (D + B2R low)) by (apply (plus_error prec emax); [apply (rnd_fmt prec emax)|apply (fmt_float prec emax)]).
    eapply Rle_trans; [apply (rnd_mono prec emax); apply Rplus_le_compat_r; exact (proj2 Rp)|]. apply Rabs_le_inv in E1, E2. pose proof (bpow_gt_0 radix2 (- prec)). set (w := u * (B2R high - B2R low)) in *.
    assert (Rabs (D + B2R low) <= Rabs (B2R high) + w) by (replace (D + B2R low) with (B2R high + (D - (B2R high - B2R low))) by ring; eapply Rle_trans; [apply Rabs_triang|]; apply Rplus_le_compat_l, Rabs_le; lra).
    assert (u * Rabs (D + B2R low) <= u * (Rabs (B2R high) + w)) by (apply Rmult_le_compat_l; lra). lra.
  Qed.
End C144.

(** In binary32, with the bounds -1 and 3 * 2^-25, the action 1 is mapped above the upper bound by both. *)
#[local] Instance p24 : Prec_gt_0 24 := eq_refl.
#[local] Instance e128 : Prec_lt_emax 24 128 := eq_refl.
Definition f32 (m e : Z) : binary_float 24 128 := binary_normalize 24 128 _ _ mode_NE m e false.
Theorem C144_refuted : exists low high a : binary_float 24 128, bounds 24 128 low high /\ unit_action 24 128 a /\
  B2R high < B2R (normalized_action 24 128 low high a) /\ B2R high < B2R (bounded_action 24 128 low high a).
Proof.
  assert (L : forall x y : binary_float 24 128, is_finite x = true -> is_finite y = true -> Bltb x y = true -> B2R x < B2R y) by (intros x y Fx Fy E; rewrite (Bltb_correct 24 128 x y Fx Fy) in E; revert E; case Rlt_bool_spec; [auto|discriminate]).
  assert (E : forall m e, is_finite (f32 m e) = true -> Rlt_bool (Rabs (round radix2 (SpecFloat.fexp 24 128) ZnearestE (F2R (Float radix2 m e)))) (bpow radix2 128) = true -> generic_format radix2 (SpecFloat.fexp 24 128) (F2R (Float radix2 m e)) -> B2R (f32 m e) = F2R (Float radix2 m e)).
  { intros m e _ H F. pose proof (binary_normalize_correct 24 128 p24 e128 mode_NE m e false) as C. cbn [round_mode] in C. rewrite H in C. destruct C as [C _]. unfold f32. rewrite C. apply round_generic; [apply valid_rnd_N|exact F]. }
  assert (V : forall m e, (Z.abs m < 2 ^ 24)%Z -> (-149 <= e <= 0)%Z -> is_finite (f32 m e) = true -> B2R (f32 m e) = F2R (Float radix2 m e)).
  { intros m e Hm Hexp Ff. assert (F : generic_format radix2 (SpecFloat.fexp 24 128) (F2R (Float radix2 m e))) by (apply (generic_format_FLT radix2 (-149) 24); exists (Float radix2 m e); [reflexivity|exact Hm|cbn; lia]).
    apply E; [exact Ff| |exact F]. rewrite (round_generic radix2 _ _ _ F). apply Rlt_bool_true. rewrite <- F2R_Zabs. unfold F2R. cbn [Fnum Fexp]. apply Rlt_le_trans with (bpow radix2 24 * bpow radix2 e); [apply Rmult_lt_compat_r; [apply bpow_gt_0|]; rewrite <- (IZR_Zpower radix2) by lia; apply IZR_lt; exact Hm|]. rewrite <- bpow_plus. apply bpow_le. lia. }
  exists (f32 (-1) 0), (f32 3 (-25)), (f32 1 0).
  assert (B1 : B2R (f32 (-1) 0) = -1) by (rewrite V; [unfold F2R; cbn; lra|lia|lia|vm_compute; reflexivity]). assert (B2 : B2R (f32 3 (-25)) = 3 * bpow radix2 (-25)) by (rewrite V; [reflexivity|lia|lia|vm_compute; reflexivity]). assert (B3 : B2R (f32 1 0) = 1) by (rewrite V; [unfold F2R; cbn; lra|lia|lia|vm_compute; reflexivity]).
  assert (Q : bpow radix2 (-25) <= / 4) by (replace (/ 4) with (bpow radix2 (-2)) by (cbn; lra); apply bpow_le; lia). pose proof (bpow_gt_0 radix2 (-25)). assert (Q1 : 1 <= bpow radix2 (128 - 3)) by (change 1 with (bpow radix2 0); apply bpow_le; lia).
  split; [|split; [|split]].
  - split; [vm_compute; reflexivity|]. split; [vm_compute; reflexivity|]. rewrite B1, B2. split; [lra|]. split; apply Rabs_le; lra.
  - split; [vm_compute; reflexivity|]. rewrite B3. lra.
  - apply L; vm_compute; reflexivity.
  - apply L; vm_compute; reflexivity.
Qed.
(** The hypotheses are met: bounds -2 and 2 of binary32 and the action 1/2. *)
Example C144_ex : Beqb (normalized_action 24 128 (f32 (-2) 0) (f32 2 0) (f32 1 (-1))) (f32 1 0) = true /\ Beqb (bounded_action 24 128 (f32 (-2) 0) (f32 2 0) (f32 1 (-1))) (f32 1 0) = true.
Proof. vm_compute. auto. Qed.

Print Assumptions C144_normalized.
Print Assumptions C144_normalized_monotone.
Print Assumptions C144_bounded.
Print Assumptions C144_bounded_monotone.
Print Assumptions C144_symmetric.
Print Assumptions C144_normalized_partial.
Print Assumptions C144_refuted.
