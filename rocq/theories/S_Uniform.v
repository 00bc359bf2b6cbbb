(** Specification for C142: counting the outcomes of a generator that draws numbers below n. *)
From Verif Require Import Base M_SampleNK.
Close Scope Q_scope. Open Scope nat_scope.

(** All sequences of m numbers below n: the outcomes of m independent draws, all equally likely. *)
Fixpoint outcomes (n m : nat) : list (list nat) :=
  match m with O => [[]] | S m => flat_map (fun x => map (cons x) (outcomes n m)) (seq 0 n) end.

(** The generator that returns the numbers of [ds] one after the other: numpy.random.choice(n, 2*k) takes the first 2k of them, every later numpy.random.choice(n, k) takes the next k
    (random.py:14 and 25; with replacement, that is independent draws).  [without] is what numpy.random.choice(n, k, replace=False) returns. *)
Definition generator (k : nat) (without ds : list nat) : oracle :=
  {| choice_norepl := without; draw := fun r => match r with O => firstn (2 * k) ds | S r => firstn k (skipn (2 * k + r * k) ds) end |}.

(** Of all outcomes of 2k + r*k draws (the first call and r refills), the number of those with which a call has a given result. *)
Definition ways {X} (eqb : X -> X -> bool) (n k r : nat) (call : list nat -> result X) (x : X) : nat :=
  length (filter (fun ds => match call ds with Ok y => eqb y x | Err _ => false end) (outcomes n (2 * k + r * k))).
Definition unfinished {X} (n k r : nat) (call : list nat -> result X) : nat :=
  length (filter (fun ds => match call ds with Ok _ => false | Err _ => true end) (outcomes n (2 * k + r * k))).
Fixpoint list_eqb {X} (eqb : X -> X -> bool) (l l' : list X) : bool :=
  match l, l' with [], [] => true | x :: l, x' :: l' => eqb x x' && list_eqb eqb l l' | _, _ => false end.
