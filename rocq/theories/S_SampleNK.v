(** What is assumed of NumPy's generator, and what a fair generator is. *)
From Verif Require Import Base M_SampleNK.

(** Contract of numpy.random.choice: right length, values in range(n), and distinct when replace=False. *)
Definition choice_ok (n m : nat) (l : list nat) : Prop := length l = m /\ Forall (fun x => x < n) l.
Definition numpy_contract (n k : nat) (o : oracle) : Prop :=
  (choice_ok n k (choice_norepl o) /\ NoDup (choice_norepl o)) /\
  choice_ok n (2 * k) (draw o 0) /\
  (forall r, choice_ok n k (draw o (S r))).

(** A generator is fair for k if, from any refill on, it eventually produces a value outside any given set of fewer
    than k values. *)
Definition fair (k : nat) (o : oracle) : Prop :=
  forall (seen : list nat) (r : nat), length seen < k ->
  exists r' x, r <= r' /\ In x (draw o (S r')) /\ ~ In x seen.

(** "k distinct integers in [0, n)" *)
Definition distinct_sample (n k : nat) (l : list nat) : Prop :=
  length l = k /\ NoDup l /\ (forall x, In x l -> x < n).
