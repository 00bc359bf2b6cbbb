(** Specification of synchronising a target network with its source. *)
From Coq Require Import QArith.
From Verif Require Import Base Vec M_CopyParam.
Open Scope nat_scope.

(** entry [k] of the state dict *)
Definition entry (h : heap) (d : dict) (k : nat) (t : tensor) : Prop := exists r, In (k, r) d /\ nth_error h r = Some t.
Definition keys (d : dict) : list nat := map fst d.
Definition refs (d : dict) : list nat := map snd d.
(** Two networks constructed alike (e.g. the target made by copy.deepcopy): the same names, and entries of the same name have the same dtype,
    shape and number of elements; no storage is shared between the two. *)
Definition alike (h : heap) (src dst : dict) : Prop :=
  NoDup (keys src) /\ NoDup (keys dst) /\ (forall k, In k (keys src) <-> In k (keys dst)) /\
  (forall k, In k (keys src) -> exists t, entry h src k t) /\ (forall k, In k (keys dst) -> exists t, entry h dst k t) /\
  (forall k t t', entry h src k t -> entry h dst k t' -> dt t = dt t' /\ shape t = shape t' /\ length (data t) = length (data t')) /\
  (forall r, In r (refs src) -> ~ In r (refs dst)).
(** names of the destination that share a storage share it in the source too *)
Definition tied_alike (src dst : dict) : Prop := forall k k' r, In (k, r) dst -> In (k', r) dst -> exists s, In (k, s) src /\ In (k', s) src.
(** a tensor whose entries are (1 - tau) * target + tau * source *)
Definition mixed (tau : Q) (target source new : tensor) : Prop :=
  dt new = dt target /\ shape new = shape target /\ length (data new) = length (data target) /\
  forall i x y z, nth_error (data target) i = Some x -> nth_error (data source) i = Some y -> nth_error (data new) i = Some z -> (z == (1 - tau) * x + tau * y)%Q.
Definition copied_dtype (d : dtype) : bool := match d with I64 | Bool => true | _ => false end.
