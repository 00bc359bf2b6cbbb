(** Specification of episodic storage, from the history alone. *)
From Verif Require Import Base M_ReplayBuffer S_ReplayBuffer.

(** The finished (non-empty) episodes of all environments, in the order in which they finished. *)
Fixpoint finished_from {T} (past ops : list (rb_op T)) : list (list (trans T)) :=
  match ops with
  | [] => []
  | o :: t =>
      skipn (length (fst (episodes (env_of o) past))) (fst (episodes (env_of o) (past ++ [o])))
      ++ finished_from (past ++ [o]) t
  end.
Definition finished {T} (ops : list (rb_op T)) := finished_from [] ops.

Definition total {A} (eps : list (list A)) : nat := length (concat eps).

(** [kept] results from [eps] by discarding oldest episodes until the total length fits, and no further. *)
Definition kept_within {A} (cap : option nat) (eps kept : list (list A)) : Prop :=
  match cap with
  | None => kept = eps
  | Some c => exists k, kept = skipn k eps /\ total kept <= c /\ forall j, j < k -> c < total (skipn j eps)
  end.

(** [sub] is a contiguous block of [l]. *)
Definition block {A} (sub l : list A) : Prop := exists a c, l = a ++ sub ++ c.

(** Contract of numpy.random.randint(0, k). *)
Definition randint_ok (rnd : nat -> nat) : Prop := forall k, 0 < k -> rnd k < k.

From Verif Require Import M_Episodic.
(** The append/stop operations among the operations of a prioritized episodic buffer. *)
Definition storing {T} (ops : list (pe_op T)) : list (rb_op T) :=
  flat_map (fun o => match o with PEAppend e t => [RAppend e t] | PEStop e => [RStop e] | _ => [] end) ops.
