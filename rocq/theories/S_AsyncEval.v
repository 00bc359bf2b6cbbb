(** Specification for C21: projections of the record of an asynchronous run of evaluations. *)
From Verif Require Import Base M_Train M_Evaluator M_AsyncEval.
Open Scope nat_scope.

(** Evaluations that were granted: time of the call and start of the interval slot. *)
Definition grants (tr : list (nat * eev)) : list (nat * nat) := flat_map (fun '(_, e) => match e with GGrant t s => [(t, s)] | _ => [] end) tr.
Definition header_writes (tr : list (nat * eev)) : nat := length (filter (fun '(_, e) => match e with GHeader => true | _ => false end) tr).
Definition row_writes (tr : list (nat * eev)) : list line := flat_map (fun '(_, e) => match e with GRow t ep m => [Row t ep m] | _ => [] end) tr.
(** Means that were compared with the shared maximum. *)
Definition compared (tr : list (nat * eev)) : list Q := flat_map (fun '(_, e) => match e with GMax m _ => [m] | _ => [] end) tr.
(** A conversion to a coarser number format: monotone, and exact on numbers of that format. *)
Definition rounding (round : Q -> Q) : Prop :=
  (forall x y, Qle x y -> Qle (round x) (round y)) /\ (forall x, Qeq (round (round x)) (round x)) /\ Qeq (round float32_min) float32_min.
