(** The priority trees with the arithmetic of the machine: addition, subtraction and multiplication that round.

    Modelled: the trees of M_Prioritized (generic in the values and in the aggregation), with Python's [sum] over rounded
    addition, [_find] with rounded subtraction, the drawing loop of [prioritized_sample] with rounded multiplication
    (numpy's generator), and its restoring loop.
    Simplified: the arithmetic is a parameter (zero, +, -, *, <); IEEE binary64 is the instance [b64] below.  A NaN or an
    infinity is a value of [b64] like any other.  A difference between Python floats and numpy float64 scalars is not
    represented (both are binary64, with the same operations). *)
From Verif Require Import Base M_Prioritized.
From Coq Require Import ZArith.
From Flocq Require Import Core IEEE754.BinarySingleNaN.
Open Scope nat_scope.

Record arith (V : Type) := mkArith {
  a_zero : V;
  a_add : V -> V -> V;
  a_sub : V -> V -> V;
  a_mul : V -> V -> V;
  a_ltb : V -> V -> bool
}.
Arguments mkArith {V}. Arguments a_zero {V}. Arguments a_add {V}. Arguments a_sub {V}. Arguments a_mul {V}.
Arguments a_ltb {V}.

(** Python's float: IEEE binary64, rounding to nearest, ties to even. *)
Notation binary64 := (binary_float 53 1024).
Definition b64_prec : Prec_gt_0 53 := eq_refl.
Definition b64_emax : Prec_lt_emax 53 1024 := eq_refl.
Definition b64 : arith binary64 := mkArith (B754_zero false)
  (@Bplus 53 1024 b64_prec b64_emax mode_NE) (@Bminus 53 1024 b64_prec b64_emax mode_NE)
  (@Bmult 53 1024 b64_prec b64_emax mode_NE) (@Bltb 53 1024).

Section FloatTree.
Context {V : Type}.
Variable A : arith V.

(** prioritized.py:270 op=sum: Python's [sum] of the values of one or two children, starting from 0. *)
Definition fsum (l : list V) : V := fold_left (a_add A) l (a_zero A).

(** prioritized.py:272-276 [SumTreeQueue.sum]. *)
Definition ftq_sum (q : tqueue V) : result V :=
  if (tlen q =? 0)%Z then Ok (a_zero A)
  else match tree q with
       | Some (root, _, _) => match nval root with Some v => Ok v | None => Err IndexError end
       | None => Err AttributeError
       end.

(** prioritized.py:245-258 [_find].  Unpacking an empty node is a ValueError. *)
Fixpoint ffind (fuel : nat) (il ir : Z) (n : node V) (pos : V) : result Z :=
  if (ir - il =? 1)%Z then Ok il
  else
    match fuel with
    | O => Err OutOfFuel
    | S f =>
        match n with
        | Emp => Err ValueError
        | Leaf _ => Err TypeError
        | Br l r _ =>
            let ic := ((il + ir) / 2)%Z in
            let lv := match nval l with Some v => v | None => a_zero A end in
            if a_ltb A pos lv then ffind f il ic l pos else ffind f ic ir r (a_sub A pos lv)
        end
    end.

(** prioritized.py:301-306, the drawing loop.  [fs] are the outcomes of numpy's generator in [0, 1);
    [np.random.uniform(0.0, high)] is [0.0 + (high - 0.0) * f], i.e. [high * f] rounded. *)
Fixpoint fdraw_loop (q : tqueue V) (fs : list V) : result (tqueue V * list Z * list V) :=
  match fs with
  | [] => Ok (q, [], [])
  | f :: t =>
      match tree q with
      | None => Err AttributeError
      | Some (root, il, ir) =>
          match nval root with
          | None => Err IndexError
          | Some total =>
              ix <- ffind (fuel_of il ir) il ir root (a_mul A total f) ;;
              '(q', ret) <- tq_write fsum q ix (Some (a_zero A)) ;;
              match ret with
              | None => Err AssertionError
              | Some v => '(q'', is, vs) <- fdraw_loop q' t ;; Ok (q'', ix :: is, v :: vs)
              end
          end
      end
  end.

(** prioritized.py:308-310: writing the drawn priorities back. *)
Fixpoint frestore (q : tqueue V) (ixs : list Z) (vals : list V) : result (tqueue V) :=
  match ixs, vals with
  | i :: is, v :: vs => '(q', _) <- tq_write fsum q i (Some v) ;; frestore q' is vs
  | _, _ => Ok q
  end.

(** prioritized.py:294-312 [prioritized_sample] with n = length fs. *)
Definition fprioritized_sample (q : tqueue V) (fs : list V) (remove : bool) : result (tqueue V * list Z * list V) :=
  '(q1, ixs, vals) <- fdraw_loop q fs ;;
  q2 <- (if remove then Ok q1 else frestore q1 ixs vals) ;;
  Ok (q2, ixs, vals).
End FloatTree.

(** The model of M_Prioritized is this one with exact rational arithmetic. *)
Definition exactQ : arith Q := mkArith 0%Q Qplus Qminus Qmult Qltb.
Lemma fsum_exact l : fsum exactQ l = op_sum l.
Proof. reflexivity. Qed.
Lemma ffind_exact fuel il ir n pos : ffind exactQ fuel il ir n pos = find fuel il ir n pos.
Proof. reflexivity. Qed.
Lemma fprioritized_sample_exact q fs remove : fprioritized_sample exactQ q fs remove = prioritized_sample q fs remove.
Proof. reflexivity. Qed.
