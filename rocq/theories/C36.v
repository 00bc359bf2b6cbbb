(** C36: the coefficients REINFORCE gives to its actions. *)
From Coq Require Import QArith Lqa.
From Verif Require Import Base P_Base M_Reinforce S_Reinforce P_Reinforce.
Open Scope nat_scope.

(** An episode of two actions with rewards 1 and 0: the first action should get the return 1, it gets 0. *)
Definition ex_ops : list (op nat) := [Act true 10; Observe true 1 false false; Act true 20; Observe true 0 true false].
Theorem C36_return_refuted : exists (ops : list (op nat)) (ep : list (nat * Q)) ts,
  alternating false ops /\ snd (run (ref_call 1) ref_init ops) = [[]; []; []; [[ep]]] /\
  applied [] (events_of (snd (run (call 1 false) reinforce_init ops))) = [ts] /\ ~ terms_of return_from ep ts.
Proof.
  exists ex_ops, [(10, 1%Q); (20, 0%Q)]. eexists. split; [cbn; repeat split|]. split; [reflexivity|]. split; [vm_compute; reflexivity|].
  intros [_ H]. specialize (H 0 _ _ eq_refl). vm_compute in H. discriminate.
Qed.

(** For every history: each action of an episode r_0, ..., r_T gets r_{t+1} + ... + r_T + r_T (the last reward twice, its own reward
    not); this is the return only up to the difference r_T - r_t. *)
Theorem C36_coefficients_partial {K} (batchsize : nat) (separately : bool) (ops : list (op K)) : 1 <= batchsize -> alternating false ops ->
  Forall2 (update_of shifted_return) (concat (snd (run (ref_call batchsize) ref_init ops)))
    (applied [] (events_of (snd (run (call batchsize separately) reinforce_init ops)))) /\
  forall rs t, t < length rs -> (shifted_return rs t == return_from rs t + (last rs 0 - nth t rs 0))%Q.
Proof.
  intros HB Ha. split.
  - apply updates_spec. apply (run_ok batchsize separately HB ops false); [exact Ha|]. apply inv_init. exact HB.
  - intros rs t Ht. unfold shifted_return, return_from. assert (E : skipn t rs = nth t rs 0%Q :: skipn (S t) rs) by (apply P_A2C.skipn_nth; apply nth_error_nth'; exact Ht).
    rewrite E. change (sum (nth t rs 0%Q :: skipn (S t) rs)) with (nth t rs 0%Q + sum (skipn (S t) rs))%Q. ring.
Qed.

Example C36_ex : map (map fst) (applied [] (events_of (snd (run (call 1 false) reinforce_init ex_ops)))) = [[0 + 0 + 0; 0 + 0]]%Q.
Proof. vm_compute. reflexivity. Qed.

Print Assumptions C36_return_refuted.
Print Assumptions C36_coefficients_partial.
