(** Specification of n-step aggregation: discounted return by recursion from the front. *)
From Verif Require Import Base M_ReplayBuffer M_Batch.
From Coq Require Import QArith.
Close Scope Q_scope.

Fixpoint discounted (gamma : Q) (rs : list Q) : Q :=
  match rs with [] => 0%Q | r :: t => (r + gamma * discounted gamma t)%Q end.

(** gamma to the power of a natural number, by Coq's own power. *)
Definition gpow (gamma : Q) (n : nat) : Q := Qpower gamma (Z.of_nat n).

(** The entry that a non-empty window must produce. *)
Definition entry_ok {S A} (gamma : Q) (w : list (trans (exper S A))) (s : S) (a : A) (r : Q) (ns : S) (tm dc : Q) : Prop :=
  exists first last init rest, w = first :: rest /\ w = init ++ [last] /\
    s = x_state (payload first) /\ a = x_action (payload first) /\ ns = x_next_state (payload last) /\
    (r == discounted gamma (map (fun t => x_reward (payload t)) w))%Q /\
    ((exists t, In t w /\ terminal t = true) -> tm = 1%Q) /\ ((forall t, In t w -> terminal t = false) -> tm = 0%Q) /\
    (dc == gpow gamma (length w))%Q.
