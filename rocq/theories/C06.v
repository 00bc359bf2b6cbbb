(** C06: appending between sample and set_last_priority.  The claim is false of the code (finding): at capacity the
    append evicts the oldest element, all indices shift, and the priorities go to the wrong elements. *)
From Verif Require Import Base M_Prioritized S_Prioritized P_PrioritizedProps.

Theorem C06_append_between_refuted : ~ append_between_claim.
Proof. exact append_between_refuted. Qed.
Print Assumptions C06_append_between_refuted.

(** What is true: as long as nothing is evicted in between, every sampled element gets its priority and all other
    elements, old or new, keep theirs. *)
Theorem C06_append_between_no_eviction_partial : forall A (b : pbuf A) o u xs ps,
  reachable b -> oracle_ok (length (data b)) o -> enough b o u ->
  wait_after b && flag_wait b = false -> (wait_after b = true \/ (u <= 0)%Q) -> (0 < max_priority b)%Q ->
  match capacity b with Some c => length (data b) + length xs <= c | None => True end ->
  Forall (Qlt 0) ps -> length ps = (if Qltb 0 u then length (so_uniform o) else 0) + length (so_fracs o) ->
  exists b1 out b2 b3 ixs, pb_sample b o u = Ok (b1, out) /\ sampled_indices b1 = Some (map Z.of_nat ixs) /\
    pb_appends b1 xs = Ok b2 /\ pb_set_last_priority b2 ps = Ok b3 /\ data b3 = data b ++ xs /\
    updated_at (priorities b ++ repeat (max_priority b) (length xs)) (priorities b3) ixs ps /\
    updated_at (weights b ++ repeat (max_priority b) (length xs)) (weights b3) ixs ps.
Proof. exact append_between_no_evict. Qed.
Print Assumptions C06_append_between_no_eviction_partial.

(** The refuting run: 10 is sampled and evicted, the priority 5 computed for it lands on 11. *)
Example C06_case : exists b1 out b2 b3, pb_sample w6_b (mkSo [] [0%Q]) 0%Q = Ok (b1, out) /\ fst (fst out) = [10] /\
  pb_appends b1 [12] = Ok b2 /\ pb_set_last_priority b2 [5%Q] = Ok b3 /\ data b3 = [11; 12] /\ priorities b3 = [5; 1]%Q.
Proof. eexists _, _, _, _. repeat split; vm_compute; reflexivity. Qed.
(** A case for the positive theorem. *)
Example C06_case_positive : exists b1 out b2 b3,
  let b := fst (run pb_step (pb_init (Some 4) true 1%Q) w6_ops) in
  pb_sample b (mkSo [] [2 # 3]%Q) 0%Q = Ok (b1, out) /\ fst (fst out) = [11] /\
  pb_appends b1 [12] = Ok b2 /\ pb_set_last_priority b2 [5%Q] = Ok b3 /\ priorities b3 = [1; 5; 1]%Q.
Proof. eexists _, _, _, _. repeat split; vm_compute; reflexivity. Qed.
