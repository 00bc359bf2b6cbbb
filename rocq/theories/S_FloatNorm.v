(** Specification vocabulary for C146. *)
From Coq Require Import Reals ZArith.
From Flocq Require Import Core IEEE754.BinarySingleNaN.
From Verif Require Import Base M_FloatAction M_FloatCategorical M_FloatNorm.
Open Scope R_scope.

(** A batch (size, mean, variance): at most 2^20 values, the mean at most 2^40 in size, the variance finite, not negative and at most 2^82. *)
Definition batch_ok (b : Z * binary32 * binary32) : Prop :=
  let '(n, mean, var) := b in
  (0 <= n <= 2 ^ 20)%Z /\ is_finite mean = true /\ Rabs (B2R mean) <= bpow radix2 40 /\ is_finite var = true /\ 0 <= B2R var <= bpow radix2 82.
Definition values_seen (batches : list (Z * binary32 * binary32)) : Z := fold_right Z.add 0%Z (map (fun b => fst (fst b)) batches).
Definition mean_within (lo hi : R) (b : Z * binary32 * binary32) : Prop := lo <= B2R (snd (fst b)) <= hi.

(** What a user needs of the running statistics: the mean is a number between the means of the batches and the initial zero, the variance has a real square
    root, and adding [eps] to it gives a positive number, of which the inverse root exists. *)
Definition usable (batches : list (Z * binary32 * binary32)) (s : norm) : Prop :=
  is_finite (n_mean s) = true /\
  (forall lo hi, lo <= 0 <= hi -> Forall (mean_within lo hi) batches -> lo <= B2R (n_mean s) <= hi) /\
  is_finite (n_var s) = true /\ 0 <= B2R (n_var s) <= bpow radix2 85 /\
  (forall eps, is_finite eps = true -> 0 < B2R eps <= 1 -> is_finite (std_base eps s) = true /\ B2R eps <= B2R (std_base eps s)).
