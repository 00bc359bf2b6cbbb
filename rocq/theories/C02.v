(** C02: sample_n_k returns k distinct in-range indices. *)
From Verif Require Import Base M_RandomAccessQueue M_SampleNK S_SampleNK P_SampleNK.

(** ValueError exactly on bad arguments. *)
Theorem C02_value_error : forall fuel o (n k : Z),
  ~ (0 <= k <= n)%Z -> sample_n_k fuel o n k = Err ValueError.
Proof. exact sample_n_k_reject. Qed.
Print Assumptions C02_value_error.

(** For every outcome of the generator: if the call returns, it returns k distinct integers below n; the only way not
    to return is to keep drawing already selected values forever. *)
Theorem C02_distinct : forall fuel o (n k : nat), k <= n -> numpy_contract n k o ->
  match sample_n_k fuel o (Z.of_nat n) (Z.of_nat k) with
  | Ok l => distinct_sample n k l
  | Err e => e = OutOfFuel
  end.
Proof. exact sample_n_k_ok. Qed.
Print Assumptions C02_distinct.

(** It does return whenever the generator is fair. *)
Theorem C02_terminates : forall o (n k : nat), k <= n -> numpy_contract n k o -> fair k o ->
  exists fuel0, forall fuel, fuel0 <= fuel ->
  exists l, sample_n_k fuel o (Z.of_nat n) (Z.of_nat k) = Ok l.
Proof. exact sample_n_k_terminates. Qed.
Print Assumptions C02_terminates.

(** RandomAccessQueue.sample(k) returns elements at k distinct positions. *)
Theorem C02_queue_sample : forall (A : Type) fuel o (q : raq A) (k : nat),
  k <= length (raq_iter q) -> numpy_contract (length (raq_iter q)) k o ->
  match raq_sample fuel o q (Z.of_nat k) with
  | Ok xs => exists ixs, distinct_sample (length (raq_iter q)) k ixs /\
               Forall2 (fun i x => nth_error (raq_iter q) i = Some x) ixs xs
  | Err e => e = OutOfFuel
  end.
Proof. exact @raq_sample_ok. Qed.
Print Assumptions C02_queue_sample.

(** An unlucky generator: collisions force a refill; the contract and fairness hold and the call returns. *)
Definition unlucky : oracle :=
  {| choice_norepl := [0; 1; 2];
     draw := fun r => match r with 0 => [4; 4; 4; 4; 4; 7] | 1 => [7; 7; 4] | _ => [5; 8; 9] end |}.
Example C02_case_contract : numpy_contract 12 3 unlucky /\ fair 3 unlucky.
Proof.
  split.
  - split; [split; [split|]|split; [split|]].
    + reflexivity.
    + repeat constructor; lia.
    + repeat constructor; cbn; intuition discriminate.
    + reflexivity.
    + repeat constructor; lia.
    + intros [|r]; split; try reflexivity; repeat constructor; lia.
  - intros seen r Hs. exists (S r).
    destruct (in_dec Nat.eq_dec 5 seen) as [H5|H5]; [|exists 5; cbn; auto 10].
    destruct (in_dec Nat.eq_dec 8 seen) as [H8|H8]; [|exists 8; cbn; auto 10].
    destruct (in_dec Nat.eq_dec 9 seen) as [H9|H9]; [|exists 9; cbn; auto 10].
    exfalso. assert (HL : length [5; 8; 9] <= length seen).
    { apply NoDup_incl_length.
      - repeat constructor; cbn; intuition discriminate.
      - intros x Hx. cbn in Hx. intuition (subst; auto). }
    cbn in HL. lia.
Qed.
Example C02_case_run : sample_n_k 10 unlucky 12 3 = Ok [4; 7; 5].
Proof. vm_compute. reflexivity. Qed.
