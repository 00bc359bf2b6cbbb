(** Specification of RandomAccessQueue used by C01. *)
From Verif Require Import Base M_RandomAccessQueue.

(** Specification: a plain Python list, oldest element first, that is cut to its last [maxlen] elements after every
    insertion.  It knows nothing of the two-list representation. *)
Section Spec.
Context {A : Type}.
Definition spec_step (ml : option nat) (l : list A) (o : raq_op A) : list A * raq_out A :=
  match o with
  | OLen => (l, RLen (length l))
  | OIter => (l, RList l)
  | OGet i => (l, match py_get l i with Ok x => RVal x | Err e => RExn e end)
  | OSet i x => match py_set l i x with Ok l' => (l', RUnit) | Err e => (l, RExn e) end
  | OAppend x => (trunc ml (l ++ [x]), RUnit)
  | OExtend xs => (trunc ml (l ++ xs), RUnit)
  | OPopleft => match l with [] => (l, RExn IndexError) | x :: t => (t, RVal x) end
  end.
End Spec.
