(** Actions in the arithmetic of the machine: pfrl/wrappers/normalize_action_space.py:17-28 and pfrl/functions/bound_by_tanh.py:4-21,
    for one component, in any IEEE format ([prec] and [emax]; binary32 is 24 and 128, binary64 is 53 and 1024).
    Simplified: the action and the bounds have the same format (numpy computes each operation in the wider of two formats); the result of
    torch.tanh is an input (its values are between -1 and 1). *)
From Coq Require Import ZArith.
From Flocq Require Import Core IEEE754.BinarySingleNaN.
From Verif Require Import Base.
Open Scope Z_scope.

Section Action.
  Context (prec emax : Z) {Hp : Prec_gt_0 prec} {He : Prec_lt_emax prec emax}.
  Notation float := (binary_float prec emax).
  Definition num (z : Z) : float := binary_normalize prec emax Hp He mode_NE z 0 false.

  (** normalize_action_space.py:17-28 *)
  Definition normalized_action (low high action : float) : float :=
    let action := Bplus mode_NE action (num 1) in
    let action := Bmult mode_NE action (Bdiv mode_NE (Bminus mode_NE high low) (num 2)) in
    Bplus mode_NE action low.

  (** bound_by_tanh.py:19-21 *)
  Definition bounded_action (low high tanh_x : float) : float :=
    let scale := Bdiv mode_NE (Bminus mode_NE high low) (num 2) in
    let loc := Bdiv mode_NE (Bplus mode_NE high low) (num 2) in
    Bplus mode_NE (Bmult mode_NE tanh_x scale) loc.
End Action.
