(** C04: prioritized drawing selects by cumulative priority. *)
From Verif Require Import Base M_Prioritized S_Prioritized P_Prioritized P_PrioritizedProps.
From Coq Require Import Lqa.

(** One draw, on any tree reachable by appends/pops/overwrites holding the values [xs]: with the generator outcome f in
    [0, 1), i.e. position f * total, the index returned is the unique one whose cumulative interval contains the
    position; its priority is positive. *)
Theorem C04_single_draw : forall ops f remove, let xs := fst (run tq_spec [] ops) in
  Forall (Qle 0) xs -> (0 < Qsum xs)%Q -> (0 <= f < 1)%Q ->
  exists i p q', nth_error xs i = Some p /\ (0 < p)%Q /\
    prioritized_sample (fst (run (tq_step op_sum) tq_init ops)) [f] remove = Ok (q', [Z.of_nat i], [p]) /\
    forall j, j < length xs ->
      (j = i <-> (Qsum (firstn j xs) <= f * Qsum xs < Qsum (firstn (S j) xs))%Q).
Proof. exact single_draw. Qed.
Print Assumptions C04_single_draw.

(** Several draws of one call: as many as there are positive priorities always succeed (no assertion fails), never repeat
    an index, never select a zero priority, and leave the priorities unchanged if they are kept (or zero exactly the drawn
    ones if they are removed). *)
Theorem C04_many_draws : forall ops fs remove, let xs := fst (run tq_spec [] ops) in
  Forall (Qle 0) xs -> Forall (fun f => 0 <= f < 1)%Q fs -> length fs <= npos xs ->
  exists q' ds, prioritized_sample (fst (run (tq_step op_sum) tq_init ops)) fs remove = Ok (q', map Z.of_nat ds, at_ixs xs ds) /\
    length ds = length fs /\ NoDup ds /\ Forall (fun i => exists p, nth_error xs i = Some p /\ 0 < p)%Q ds /\
    drain (length xs) op_sum q' = (if remove then zero_at xs ds else xs).
Proof. exact many_draws. Qed.
Print Assumptions C04_many_draws.

Definition c04_ops := [TAppend 5; TAppend 1; TAppend 0; TPopleft; TAppend 7; TAppend 2]%Q.
Example C04_case_hyp : fst (run tq_spec [] c04_ops) = [1; 0; 7; 2]%Q /\ npos [1; 0; 7; 2]%Q = 3 /\ (0 < Qsum [1; 0; 7; 2])%Q.
Proof. vm_compute. auto. Qed.
Example C04_case : exists q, prioritized_sample (fst (run (tq_step op_sum) tq_init c04_ops)) [1 # 2; 1 # 20; 0]%Q true = Ok (q, [2; 0; 3]%Z, [7; 1; 2]%Q).
Proof. eexists. vm_compute. reflexivity. Qed.
