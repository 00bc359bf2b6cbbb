(** C51: one sample() call returns elements at distinct positions. *)
From Verif Require Import Base M_Prioritized S_Prioritized P_PrioritizedProps.

(** True when priorities are awaited (the default) or no uniform samples are mixed in. *)
Theorem C51_sample_distinct_partial : forall A (b : pbuf A) o u,
  reachable b -> oracle_ok (length (data b)) o -> enough b o u ->
  wait_after b && flag_wait b = false -> (wait_after b = true \/ (u <= 0)%Q) ->
  exists b1 xs probs m ixs, pb_sample b o u = Ok (b1, (xs, probs, m)) /\
    length ixs = (if Qltb 0 u then length (so_uniform o) else 0) + length (so_fracs o) /\
    NoDup ixs /\ Forall2 (fun i x => nth_error (data b) i = Some x) ixs xs.
Proof. exact sample_distinct. Qed.
Print Assumptions C51_sample_distinct_partial.

(** False for wait_priority_after_sampling=False with a positive uniform_ratio: the uniform part is restored before the
    prioritized part is drawn, so the same element can be returned twice. *)
Theorem C51_sample_distinct_refuted : exists (b : pbuf nat) o,
  reachable b /\ oracle_ok (length (data b)) o /\ enough b o (1 # 2)%Q /\
  exists b1 probs m, pb_sample b o (1 # 2)%Q = Ok (b1, ([10; 10], probs, m)) /\ sampled_indices b1 = Some [0%Z; 0%Z].
Proof. exact mixed_duplicates. Qed.
Print Assumptions C51_sample_distinct_refuted.

Example C51_case : exists b1 probs m,
  pb_sample (fst (run pb_step (pb_init (Some 3) true 1%Q) w6_ops)) (mkSo [1%Z] [1 # 2]%Q) (1 # 2)%Q = Ok (b1, ([11; 10], probs, m)).
Proof. eexists _, _, _. vm_compute. reflexivity. Qed.
