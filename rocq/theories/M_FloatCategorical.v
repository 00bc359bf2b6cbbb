(** The categorical projection in the arithmetic of the machine: pfrl/agents/categorical_dqn.py:7-56 [_apply_categorical_projection] in IEEE
    binary32 (all tensors there are float32).
    Simplified: scatter_add_ adds in the order of its arguments (as on a CPU); integer tensors do not overflow. *)
From Coq Require Import ZArith.
From Flocq Require Import Core IEEE754.BinarySingleNaN.
From Verif Require Import Base M_FloatAction.
Open Scope Z_scope.

#[global] Instance prec24 : Prec_gt_0 24 := eq_refl.
#[global] Instance emax128 : Prec_lt_emax 24 128 := eq_refl.
Notation binary32 := (binary_float 24 128).
Notation int32 := (num 24 128).

(** torch.clamp: min(max(x, lo), hi) *)
Definition fmax (a b : binary32) : binary32 := if Bltb a b then b else a.
Definition fmin (a b : binary32) : binary32 := if Bltb b a then b else a.
Definition clamp (x lo hi : binary32) : binary32 := fmin (fmax x lo) hi.

(** 27-35: the position of a value among the atoms *)
Definition position (z0 z1 zlast : binary32) (n_atoms : nat) (y : binary32) : binary32 :=
  let delta_z := Bminus mode_NE z1 z0 in
  let y := clamp y z0 zlast in
  let bj := Bdiv mode_NE (Bminus mode_NE y z0) delta_z in
  clamp bj (int32 0) (int32 (Z.of_nat n_atoms - 1)).

(** 37-40, 47-55: the two positions of an atom and its two shares; the indices are those of the row *)
Definition shares (z0 z1 zlast : binary32) (n_atoms : nat) (atom : binary32 * binary32) : (Z * binary32) * (Z * binary32) :=
  let '(y, p) := atom in
  let bj := position z0 z1 zlast n_atoms y in
  let l := Bnearbyint mode_DN bj in
  let u := Bnearbyint mode_UP bj in
  ((Btrunc l, Bmult mode_NE p (Bminus mode_NE (int32 1) (Bminus mode_NE bj l))), (Btrunc u, Bmult mode_NE p (Bminus mode_NE bj l))).

(** Tensor.scatter_add_ of a flat tensor: an index outside of the tensor is an error. *)
Fixpoint scatter_add (t : list binary32) (ops : list (Z * binary32)) : result (list binary32) :=
  match ops with
  | [] => Ok t
  | (i, v) :: ops =>
      match (if (0 <=? i) then nth_error t (Z.to_nat i) else None) with
      | None => Err RuntimeError
      | Some x => scatter_add (list_set t (Z.to_nat i) (Bplus mode_NE x v)) ops
      end
  end.

(** l.long() + offset, flattened: row i is shifted by i * n_atoms *)
Fixpoint flat_ops (n_atoms : nat) (offset : Z) (rows : list (list (Z * binary32))) : list (Z * binary32) :=
  match rows with
  | [] => []
  | row :: rows => map (fun iv => (fst iv + offset, snd iv)) row ++ flat_ops n_atoms (offset + Z.of_nat n_atoms) rows
  end.

(** A flat tensor seen as rows. *)
Fixpoint view (n_atoms rows : nat) (t : list binary32) : list (list binary32) :=
  match rows with O => [] | S rows => firstn n_atoms t :: view n_atoms rows (skipn n_atoms t) end.

(** 7-56; a row is the list of (y, y_probs) of its atoms *)
Definition projection (z : list binary32) (rows : list (list (binary32 * binary32))) : result (list (list binary32)) :=
  let n_atoms := length z in
  _ <- passert (forallb (fun row => Nat.eqb (length row) n_atoms) rows) ;;
  match z, rev z with
  | z0 :: z1 :: _, zlast :: _ =>
      let sh := map (map (shares z0 z1 zlast n_atoms)) rows in
      t <- scatter_add (repeat (int32 0) (length rows * n_atoms)) (flat_ops n_atoms 0 (map (map fst) sh)) ;;
      t <- scatter_add t (flat_ops n_atoms 0 (map (map snd) sh)) ;;
      Ok (view n_atoms (length rows) t)
  | _, _ => Err IndexError
  end.
