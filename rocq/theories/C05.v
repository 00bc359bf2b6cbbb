(** C05: set_last_priority updates exactly the sampled elements. *)
From Verif Require Import Base M_Prioritized S_Prioritized P_PrioritizedProps.

(** sample followed by set_last_priority: the k-th sampled element gets the k-th new priority, all others keep theirs
    (both in the minimum tree, [priorities], and in the drawing weights, [weights]); max_priority becomes the largest of
    its old value and the new priorities. *)
Theorem C05_update : forall A (b : pbuf A) o u ps, reachable b -> oracle_ok (length (data b)) o -> enough b o u ->
  wait_after b && flag_wait b = false -> (wait_after b = true \/ (u <= 0)%Q) ->
  Forall (Qlt 0) ps -> length ps = (if Qltb 0 u then length (so_uniform o) else 0) + length (so_fracs o) ->
  exists b1 xs probs m b2 ixs,
    pb_sample b o u = Ok (b1, (xs, probs, m)) /\ pb_set_last_priority b1 ps = Ok b2 /\
    Forall2 (fun i x => nth_error (data b) i = Some x) ixs xs /\ NoDup ixs /\
    data b2 = data b /\
    updated_at (priorities b) (priorities b2) ixs ps /\ updated_at (weights b) (weights b2) ixs ps /\
    (max_priority b <= max_priority b2)%Q /\ (forall p, In p ps -> p <= max_priority b2)%Q /\
    (max_priority b2 = max_priority b \/ In (max_priority b2) ps).
Proof. exact update_after_sample. Qed.
Print Assumptions C05_update.

(** New elements get the largest priority so far. *)
Theorem C05_new_element : forall A (b : pbuf A) x b', reachable b -> (0 < max_priority b)%Q ->
  pb_append b x None = Ok b' ->
  exists l, priorities b' = l ++ [max_priority b] /\ max_priority b' = max_priority b.
Proof. exact new_element_priority. Qed.
Print Assumptions C05_new_element.

(** A second sample before the update, or an update without a sample, is rejected (the default
    wait_priority_after_sampling=True). *)
Theorem C05_sample_while_pending : forall A (b : pbuf A) o u,
  wait_after b = true -> flag_wait b = true -> pb_sample b o u = Err AssertionError.
Proof. exact sample_pending. Qed.
Print Assumptions C05_sample_while_pending.
Theorem C05_update_without_sample : forall A (b : pbuf A) ps,
  wait_after b = true -> flag_wait b = false -> pb_set_last_priority b ps = Err AssertionError.
Proof. exact set_not_pending. Qed.
Print Assumptions C05_update_without_sample.

Definition c05_b : pbuf nat :=
  fst (run pb_step (pb_init (Some 3) true 1%Q) [PAppend 10 None; PAppend 11 (Some 2%Q); PAppend 12 None; PAppend 13 None]).
Definition c05_o := mkSo [2%Z] [1 # 2]%Q.
Example C05_case_hyp : reachable c05_b /\ oracle_ok (length (data c05_b)) c05_o /\ enough c05_b c05_o (1 # 2)%Q.
Proof.
  split; [|split].
  - exists (Some 3), true, 1%Q, [PAppend 10 None; PAppend 11 (Some 2%Q); PAppend 12 None; PAppend 13 None].
    eexists _, _. split; [vm_compute; reflexivity|reflexivity].
  - split; [|split]; cbn; repeat constructor; cbn; auto; try lia; try discriminate.
  - vm_compute. lia.
Qed.
Example C05_case : exists b1 probs m b2, pb_sample c05_b c05_o (1 # 2)%Q = Ok (b1, ([13; 11], probs, m)) /\
  weights b1 = [0; 1; 0]%Q /\ pb_set_last_priority b1 [7; 9]%Q = Ok b2 /\ priorities b2 = [9; 1; 7]%Q /\ weights b2 = [9; 1; 7]%Q.
Proof. eexists _, _, _, _. repeat split; vm_compute; reflexivity. Qed.
