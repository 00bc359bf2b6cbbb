(** C142: uniform replay samples are uniform. *)
From Verif Require Import Base P_Base M_RandomAccessQueue S_RandomAccessQueue P_RandomAccessQueue M_SampleNK S_SampleNK P_SampleNK S_Uniform P_Uniform.
Close Scope Q_scope. Open Scope nat_scope.

Section C142.
(** Sampling k of n with 3k < n; [call ds] is the call sample_n_k(n, k) when the generator returns the numbers of [ds]. *)
Context (n k r fuel : nat) (without : list nat).
Notation call := (fun ds => sample_n_k fuel (generator k without ds) (Z.of_nat n) (Z.of_nat k)).

(** Every sequence of k distinct indices is the result of equally many of the n^(2k + r*k) outcomes of the first call of the generator and r refills. *)
Theorem C142_uniform l l' : 3 * k < n -> distinct_sample n k l -> distinct_sample n k l' ->
  ways (list_eqb Nat.eqb) n k r call l = ways (list_eqb Nat.eqb) n k r call l'.
Proof. intros H3 D D'. apply Nat.le_antisymm; now apply ways_le. Qed.

(** So every index is in equally many samples. *)
Theorem C142_each_index i i' : 3 * k < n -> i < n -> i' < n ->
  length (filter (fun ds => match call ds with Ok l => existsb (Nat.eqb i) l | Err _ => false end) (outcomes n (2 * k + r * k))) =
  length (filter (fun ds => match call ds with Ok l => existsb (Nat.eqb i') l | Err _ => false end) (outcomes n (2 * k + r * k))).
Proof. intros H3 Hi Hi'. apply Nat.le_antisymm; now apply member_le. Qed.

(** Of the n^(2k + r*k) outcomes, those with which the call needs more than r refills are at most the fraction k^k / 3^(r*k). *)
Theorem C142_finishes : 3 * k < n -> 0 < k -> k + r * k < fuel ->
  unfinished n k r call * 3 ^ (r * k) <= k ^ k * length (outcomes n (2 * k + r * k)).
Proof. intros H3 Hk Hf. rewrite outcomes_length. apply unfinished_small; [exact Hk|exact H3|]. now apply unfinished_le. Qed.
Theorem C142_all_outcomes m ds : (In ds (outcomes n m) <-> length ds = m /\ Forall (fun x => x < n) ds) /\ NoDup (outcomes n m) /\ length (outcomes n m) = n ^ m.
Proof. split; [apply outcomes_in|]. split; [apply outcomes_nodup|apply outcomes_length]. Qed.

(** With 3k >= n the result is what numpy.random.choice(n, k, replace=False) returns, whatever else is drawn. *)
Theorem C142_direct ds : 0 < k <= n -> n <= 3 * k -> call ds = Ok without.
Proof.
  intros Hk H3. unfold sample_n_k. replace (negb ((0 <=? Z.of_nat k) && (Z.of_nat k <=? Z.of_nat n))%Z) with false by lia. replace (Z.of_nat k =? 0)%Z with false by lia. now replace (Z.of_nat n <=? 3 * Z.of_nat k)%Z with true by lia.
Qed.
End C142.

(** RandomAccessQueue.sample(k), with which ReplayBuffer samples: every sequence of k different stored elements is drawn by equally many outcomes. *)
Theorem C142_queue : forall (A : Type) (eqb : A -> A -> bool), (forall x y, eqb x y = true <-> x = y) -> forall (q : raq A) k r fuel without ys ys',
  NoDup (raq_iter q) -> 3 * k < length (raq_iter q) ->
  length ys = k -> NoDup ys -> (forall y, In y ys -> In y (raq_iter q)) -> length ys' = k -> NoDup ys' -> (forall y, In y ys' -> In y (raq_iter q)) ->
  ways (list_eqb eqb) (length (raq_iter q)) k r (fun ds => raq_sample fuel (generator k without ds) q (Z.of_nat k)) ys =
  ways (list_eqb eqb) (length (raq_iter q)) k r (fun ds => raq_sample fuel (generator k without ds) q (Z.of_nat k)) ys'.
Proof.
  intros A eqb He q k r fuel w ys ys' N H3 L D I L' D' I'. destruct (indices _ N ys D I) as (l & F & Dl). destruct (indices _ N ys' D' I') as (l' & F' & Dl').
  rewrite (queue_ways eqb He q k r fuel w l ys N F) by apply Dl. rewrite (queue_ways eqb He q k r fuel w l' ys' N F') by apply Dl'. subst k. rewrite L' in Dl'. now apply C142_uniform.
Qed.

(** Example: 2 of 7.  Of the 7^4 = 2401 outcomes without a refill, each of the 42 ordered pairs has 57 ways, and 7 outcomes are not enough (all four draws the same). *)
Example C142_example : forallb (fun i => forallb (fun j => (i =? j) || (ways (list_eqb Nat.eqb) 7 2 0 (fun ds => sample_n_k 9 (generator 2 [] ds) 7 2) [i; j] =? 57)) (seq 0 7)) (seq 0 7) = true /\
  unfinished 7 2 0 (fun ds => sample_n_k 9 (generator 2 [] ds) 7 2) = 7 /\ length (outcomes 7 4) = 2401.
Proof. vm_compute. auto. Qed.
(** A queue of seven transitions after one was dropped. *)
Example C142_queue_example : exists q : raq nat, raq_iter q = [12; 13; 14; 15; 16; 17; 18] /\
  ways (list_eqb Nat.eqb) 7 2 0 (fun ds => raq_sample 9 (generator 2 [] ds) q 2) [18; 12] = 57 /\ ways (list_eqb Nat.eqb) 7 2 0 (fun ds => raq_sample 9 (generator 2 [] ds) q 2) [14; 14] = 0.
Proof. exists (mkRaq (Some 7) [14; 13; 12] [15; 16; 17; 18]). vm_compute. auto. Qed.
Print Assumptions C142_uniform.
Print Assumptions C142_each_index.
Print Assumptions C142_finishes.
Print Assumptions C142_all_outcomes.
Print Assumptions C142_direct.
Print Assumptions C142_queue.
