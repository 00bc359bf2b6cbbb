(** Running normalisation in the arithmetic of the machine: pfrl/nn/empirical_normalization.py in IEEE binary32 (the default dtype), for one component.
    Simplified: the mean and the variance of a batch, as torch.var_mean returns them, are inputs; the counter does not overflow; the cache (43-44, 54-59)
    and [clip_threshold] are not modelled here. *)
From Coq Require Import ZArith.
From Flocq Require Import Core IEEE754.BinarySingleNaN.
From Verif Require Import Base M_FloatAction M_FloatCategorical.
Open Scope Z_scope.

Record norm := mkNorm { n_count : Z; n_mean : binary32; n_var : binary32 }.
(** pfrl/nn/empirical_normalization.py:33-41 *)
Definition norm_init : norm := mkNorm 0 (int32 0) (int32 1).

(** pfrl/nn/empirical_normalization.py:61-84 [experience]; a batch is its size, mean and variance.  A Python number divided by a tensor is torch's reciprocal of the tensor times the number. *)
Definition experience (until : option Z) (s : norm) (batch : Z * binary32 * binary32) : result norm :=
  let '(count_x, mean_x, var_x) := batch in
  if (match until with Some n => n <=? n_count s | None => false end) then Ok s
  else if count_x =? 0 then Ok s
  else
    let count := n_count s + count_x in
    let rate := Bmult mode_NE (Bdiv mode_NE (int32 1) (int32 count)) (int32 count_x) in
    _ <- passert (Bltb (int32 0) rate) ;;
    _ <- passert (Bleb rate (int32 1)) ;;
    let delta_mean := Bminus mode_NE mean_x (n_mean s) in
    let mean := Bplus mode_NE (n_mean s) (Bmult mode_NE rate delta_mean) in
    let var := Bplus mode_NE (n_var s)
      (Bmult mode_NE rate (Bplus mode_NE (Bminus mode_NE var_x (n_var s)) (Bmult mode_NE delta_mean (Bminus mode_NE mean_x mean)))) in
    Ok (mkNorm count mean var).
Fixpoint experiences (until : option Z) (s : norm) (batches : list (Z * binary32 * binary32)) : result norm :=
  match batches with [] => Ok s | b :: batches => s <- experience until s b ;; experiences until s batches end.

(** pfrl/nn/empirical_normalization.py:54-59, 107-109: the number of which the inverse square root is taken *)
Definition std_base (eps : binary32) (s : norm) : binary32 := Bplus mode_NE (n_var s) eps.
