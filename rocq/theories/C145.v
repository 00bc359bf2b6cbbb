(** C145: the categorical projection in binary32 arithmetic is a distribution with the right total and mean, and rows do not disturb each other. *)
From Coq Require Import Reals Lra Lia ZArith Sorted.
From Flocq Require Import Core IEEE754.BinarySingleNaN.
From Verif Require Import Base M_FloatAction M_FloatCategorical S_FloatCategorical P_FloatCategorical.

(** Whatever the batch: no index is out of range, nothing becomes infinite or negative, the total and the mean of each row are kept up to rounding, and
    a row is projected as if it were alone in the batch. *)
Theorem C145_projection z rows : atoms_ok z -> Forall (row_ok z) rows ->
  exists outs, projection z rows = Ok outs /\ Forall2 (fun row o => projection z [row] = Ok [o] /\ projected z row o) rows outs.
Proof. apply projection_ok. Qed.

(** ** The second clamping is needed *)
Definition flt (m e : Z) : binary32 := binary_normalize 24 128 eq_refl eq_refl mode_NE m e false.
(** Atoms 0, 1 - 2^-24, 2: the distance of the first two is a little less than 1, as rounding may make it.  The value 2, the last atom, has a position
    beyond the last atom, so that rounding up gives the index 3 of three atoms: the next row of the batch. *)
Definition z3 : list binary32 := [flt 0 0; flt (2 ^ 24 - 1) (-24); flt 2 0].
Lemma flt_val (x : binary32) v : B2SF x = v -> B2R x = SF2R radix2 v.
Proof. intros <-. symmetry. apply SF2R_B2SF. Qed.
Lemma z3_vals : B2R (flt 0 0) = 0%R /\ B2R (flt (2 ^ 24 - 1) (-24)) = (1 - / 16777216)%R /\ B2R (flt 2 0) = 2%R.
Proof.
  split; [|split]; [rewrite (flt_val (flt 0 0) (SpecFloat.S754_zero false) ltac:(vm_compute; reflexivity))|rewrite (flt_val (flt (2 ^ 24 - 1) (-24)) (SpecFloat.S754_finite false 16777215 (-24)) ltac:(vm_compute; reflexivity))|rewrite (flt_val (flt 2 0) (SpecFloat.S754_finite false 8388608 (-22)) ltac:(vm_compute; reflexivity))]; unfold SF2R, F2R; cbn; lra.
Qed.
Example C145_example_atoms : atoms_ok z3.
Proof.
  destruct z3_vals as (E0 & E1 & E2). assert (P : (2 <= 2 ^ 100)%R) by (apply Rle_trans with (2 ^ 1)%R; [lra|apply Rle_pow; [lra|lia]]).
  split; [cbn; lia|]. split; [unfold z3; repeat apply Sorted_cons; repeat apply HdRel_cons; try apply Sorted_nil; try apply HdRel_nil; rewrite ?E0, ?E1, ?E2; lra|]. unfold z3. apply Forall_cons; [|apply Forall_cons; [|apply Forall_cons; [|apply Forall_nil]]]; (split; [vm_compute; reflexivity|]); rewrite ?E0, ?E1, ?E2; apply Rabs_le; lra.
Qed.
(** Without the second clamping: the position of the last atom is above 2, and rounded up it is 3. *)
Example C145_clamp_needed : let bj := Bdiv mode_NE (Bminus mode_NE (clamp (flt 2 0) (flt 0 0) (flt 2 0)) (flt 0 0)) (Bminus mode_NE (flt (2 ^ 24 - 1) (-24)) (flt 0 0)) in
  Btrunc (Bnearbyint mode_UP bj) = 3%Z /\ Btrunc (Bnearbyint mode_UP (position (flt 0 0) (flt (2 ^ 24 - 1) (-24)) (flt 2 0) 3 (flt 2 0))) = 2%Z.
Proof. vm_compute. split; reflexivity. Qed.

(** ** A batch of two rows *)
(** Values 1/2, 1, 5 with probabilities 1/4, 1/4, 1/2 between the atoms 0, 1, 2; then a row with all on the last atom. *)
Definition zz : list binary32 := [flt 0 0; flt 1 0; flt 2 0].
Definition rows2 : list (list (binary32 * binary32)) := [[(flt 1 (-1), flt 1 (-2)); (flt 1 0, flt 1 (-2)); (flt 5 0, flt 1 (-1))]; [(flt 2 0, flt 0 0); (flt 2 0, flt 0 0); (flt 2 0, flt 1 0)]].
Lemma flt_1 : B2R (flt 1 0) = 1%R. Proof. rewrite (flt_val (flt 1 0) (SpecFloat.S754_finite false 8388608 (-23)) ltac:(vm_compute; reflexivity)). unfold SF2R, F2R. cbn. lra. Qed.
Lemma flt_half : B2R (flt 1 (-1)) = (/ 2)%R. Proof. rewrite (flt_val (flt 1 (-1)) (SpecFloat.S754_finite false 8388608 (-24)) ltac:(vm_compute; reflexivity)). unfold SF2R, F2R. cbn. lra. Qed.
Lemma flt_quarter : B2R (flt 1 (-2)) = (/ 4)%R. Proof. rewrite (flt_val (flt 1 (-2)) (SpecFloat.S754_finite false 8388608 (-25)) ltac:(vm_compute; reflexivity)). unfold SF2R, F2R. cbn. lra. Qed.
Example C145_example_hyps : atoms_ok zz /\ Forall (row_ok zz) rows2.
Proof.
  destruct z3_vals as (E0 & _ & E2). pose proof flt_1 as E1. pose proof flt_half as Eh. pose proof flt_quarter as Eq. assert (P : (2 <= 2 ^ 100)%R) by (apply Rle_trans with (2 ^ 1)%R; [lra|apply Rle_pow; [lra|lia]]). split.
  - split; [cbn; lia|]. split; [unfold zz; repeat apply Sorted_cons; repeat apply HdRel_cons; try apply Sorted_nil; try apply HdRel_nil; rewrite ?E0, ?E1, ?E2; lra|]. unfold zz. apply Forall_cons; [|apply Forall_cons; [|apply Forall_cons; [|apply Forall_nil]]]; (split; [vm_compute; reflexivity|]); rewrite ?E0, ?E1, ?E2; apply Rabs_le; lra.
  - unfold rows2. apply Forall_cons; [|apply Forall_cons; [|apply Forall_nil]]; (split; [reflexivity|]); (split; [apply Forall_cons; [|apply Forall_cons; [|apply Forall_cons; [|apply Forall_nil]]]; (split; [vm_compute; reflexivity|]); (split; [vm_compute; reflexivity|])|]); cbn [fst snd map total]; rewrite ?E0, ?E1, ?E2, ?Eh, ?Eq; lra.
Qed.
Example C145_example : rbind (projection zz rows2) (fun outs => Ok (map (map (@B2SF 24 128)) outs)) = Ok (map (map (@B2SF 24 128)) [[flt 1 (-3); flt 3 (-3); flt 1 (-1)]; [flt 0 0; flt 0 0; flt 1 0]]).
Proof. vm_compute. reflexivity. Qed.

Print Assumptions C145_projection.
