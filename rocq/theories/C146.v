(** C146: the running variance of EmpiricalNormalization is never negative or NaN in single precision. *)
From Coq Require Import Reals Lra Lia ZArith.
From Flocq Require Import Core IEEE754.BinarySingleNaN.
From Verif Require Import Base M_FloatAction M_FloatCategorical P_FloatAction P_FloatCategorical M_FloatNorm S_FloatNorm P_FloatNorm.
Open Scope R_scope.

Theorem C146_running : forall limit batches, Forall batch_ok batches -> (values_seen batches < 2 ^ 62)%Z ->
  exists s, experiences limit norm_init batches = Ok s /\ usable batches s.
Proof.
  intros limit batches Hb Ht. destruct (experiences_ok limit batches norm_init init_ok Hb) as (s & E & S & M); [exact Ht|]. exists s. split; [exact E|].
  assert (Z0 : B2R (n_mean norm_init) = 0) by reflexivity. rewrite Z0 in M. pose proof S as (_ & _ & Fm & _ & Fv & Bv).
  split; [exact Fm|]. split; [exact M|]. split; [exact Fv|]. split; [exact Bv|]. intros eps Fe He. now apply base_ok.
Qed.
Print Assumptions C146_running.

(** Three batches, with the state they leave: sizes 3, 1 and 49; the rate of the last is not exact. *)
Definition three : list (Z * binary32 * binary32) := [(3%Z, int32 2, int32 6); (1%Z, int32 10, int32 0); (49%Z, int32 4, int32 1)].
Example C146_example_hyps : Forall batch_ok three /\ (values_seen three < 2 ^ 62)%Z.
Proof.
  assert (T : forall e, (4 <= e)%Z -> 16 <= bpow radix2 e) by (intros e H; replace 16 with (bpow radix2 4) by (cbn; lra); now apply bpow_le).
  pose proof (T 40%Z ltac:(discriminate)). pose proof (T 82%Z ltac:(discriminate)).
  assert (K : forall n m v, (0 <= n <= 2 ^ 20)%Z -> (0 <= m <= 16)%Z -> (0 <= v <= 16)%Z -> batch_ok (n, int32 m, int32 v)).
  { intros n m v Hn Hm Hv. destruct (int_ok m) as [Fm Em]; [clear - Hm; lia|]. destruct (int_ok v) as [Fv Ev]; [clear - Hv; lia|]. assert (0 <= IZR m <= 16) by (split; apply IZR_le; apply Hm). assert (0 <= IZR v <= 16) by (split; apply IZR_le; apply Hv). unfold batch_ok. rewrite Em, Ev, Rabs_pos_eq by lra. split; [exact Hn|]. split; [exact Fm|]. split; [lra|]. split; [exact Fv|lra]. }
  split; [|reflexivity]. unfold three. apply Forall_cons; [|apply Forall_cons; [|apply Forall_cons; [|constructor]]]; apply K; split; discriminate.
Qed.
Definition shown (s : norm) := (n_count s, B2SF (n_mean s), B2SF (n_var s)).
Example C146_example : rmap shown (experiences None norm_init three) = Ok (53%Z, SpecFloat.S754_finite false 8388608 (-21), SpecFloat.S754_finite false 9100848 (-22)).
Proof. vm_compute. reflexivity. Qed.

(** The limit on the size of a batch is needed: after one value -1, a batch of 2^25 equal values 3 * 2^-25 makes the rate round to one and the mean overshoot;
    the variance becomes negative, and its square root is not a number. *)
Definition three_25 : binary32 := binary_normalize 24 128 prec24 emax128 mode_NE 3 (-25) false.
Definition minus_one : binary32 := binary_normalize 24 128 prec24 emax128 mode_NE (-1) 0 false.
Definition overshooting : list (Z * binary32 * binary32) := [(1%Z, minus_one, int32 0); ((2 ^ 25)%Z, three_25, int32 0)].
Example C146_overshoot : rmap shown (experiences None norm_init overshooting) = Ok ((2 ^ 25 + 1)%Z, SpecFloat.S754_finite false 8388608 (-46), SpecFloat.S754_finite true 8388609 (-48)).
Proof. vm_compute. reflexivity. Qed.
Theorem C146_limit_needed : exists s, experiences None norm_init overshooting = Ok s /\ is_finite (n_var s) = true /\ B2R (n_var s) < 0 /\ Bsqrt mode_NE (n_var s) = B754_nan.
Proof.
  pose proof C146_overshoot as K. destruct (experiences None norm_init overshooting) as [s|e]; cbn [rmap] in K; [|discriminate].
  exists s. split; [reflexivity|]. assert (V : B2SF (n_var s) = SpecFloat.S754_finite true 8388609 (-48)) by (unfold shown in K; congruence). clear K.
  split; [destruct (n_var s); cbn in V; try discriminate; reflexivity|]. split.
  - rewrite <- (SF2R_B2SF 24 128), V. unfold SF2R, F2R. cbn. lra.
  - destruct (n_var s) as [| | |[|] m e H]; cbn in V; try discriminate. reflexivity.
Qed.
Print Assumptions C146_limit_needed.
