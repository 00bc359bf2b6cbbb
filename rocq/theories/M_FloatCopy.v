(** Soft target updates in the arithmetic of the machine: pfrl/utils/copy_param.py:9-22 for one float32 component and the averaging rate of a Python number (binary64).
    Simplified: the dictionaries, shapes and other dtypes are in M_CopyParam.v. *)
From Coq Require Import ZArith.
From Flocq Require Import Core IEEE754.BinarySingleNaN.
From Verif Require Import Base M_FloatAction M_FloatCategorical.
Open Scope Z_scope.

#[global] Instance prec53 : Prec_gt_0 53 := eq_refl.
#[global] Instance emax1024 : Prec_lt_emax 53 1024 := eq_refl.
Notation binary64 := (binary_float 53 1024).

(** A Python number that meets a float32 tensor is rounded to float32 (torch's conversion of scalars, used by copy_param.py:17-18). *)
Definition to32 (x : binary64) : binary32 :=
  match x with
  | B754_zero s => B754_zero s
  | B754_infinity s => B754_infinity s
  | B754_nan => B754_nan
  | B754_finite s m e _ => binary_normalize 24 128 prec24 emax128 mode_NE (cond_Zopp s (Zpos m)) e s
  end.

(** pfrl/utils/copy_param.py:17-18 *)
Definition soft_copy (tau : binary64) (target source : binary32) : binary32 :=
  let target := Bmult mode_NE target (to32 (Bminus mode_NE (num 53 1024 1) tau)) in
  Bplus mode_NE target (Bmult mode_NE (to32 tau) source).

(** Soft updates one after the other, from the values of the source at their times (calls of pfrl/utils/copy_param.py:9-22). *)
Definition soft_copies (tau : binary64) (target : binary32) (sources : list binary32) : binary32 := fold_left (soft_copy tau) sources target.
