(** C62: REINFORCE updates once per batchsize finished episodes. *)
From Coq Require Import QArith.
From Verif Require Import Base P_Base M_Reinforce S_Reinforce P_Reinforce.
Open Scope nat_scope.

(** For every history of alternating act/observe calls, with backward_separately or not: no exception; the optimizer steps exactly when
    batchsize episodes have finished since the last step; the gradient it applies is the one of exactly the actions of these episodes, each
    action once, in order; episodes cut off by a reset contribute nothing. *)
Theorem C62_updates {K} (batchsize : nat) (separately : bool) (ops : list (op K)) : 1 <= batchsize -> alternating false ops ->
  Forall (fun r => is_ok r = true) (snd (run (call batchsize separately) reinforce_init ops)) /\
  map (map snd) (applied [] (events_of (snd (run (call batchsize separately) reinforce_init ops)))) =
  map (fun eps => map fst (concat eps)) (concat (snd (run (ref_call batchsize) ref_init ops))).
Proof.
  intros HB Ha. destruct (run_ok batchsize separately HB ops false reinforce_init ref_init [] Ha (inv_init batchsize separately HB)) as [H1 H2]. split; [exact H1|].
  apply updates_spec in H2. induction H2 as [|u a us aps (tss & -> & H) F IH]; [reflexivity|]. cbn [map]. f_equal; [|exact IH].
  clear - H. induction H as [|e ts u tss [H _] F IH]; [reflexivity|]. cbn [concat]. rewrite !map_app, H, IH. reflexivity.
Qed.

(** The two modes apply the same gradients. *)
Theorem C62_modes_agree {K} (batchsize : nat) (ops : list (op K)) : 1 <= batchsize -> alternating false ops ->
  applied [] (events_of (snd (run (call batchsize true) reinforce_init ops))) = applied [] (events_of (snd (run (call batchsize false) reinforce_init ops))).
Proof.
  intros HB Ha. destruct (run_ok batchsize true HB ops false reinforce_init ref_init [] Ha (inv_init batchsize true HB)) as [_ [H2 _]].
  destruct (run_ok batchsize false HB ops false reinforce_init ref_init [] Ha (inv_init batchsize false HB)) as [_ [H3 _]]. now rewrite H2, H3.
Qed.

(** Three episodes, the second cut off; batchsize 2. *)
Definition ex_ops : list (op nat) :=
  [Act true 1; Observe true 1 true false; Act true 2; Observe true 5 false true; Act false 9; Act true 3; Observe true 2 false false; Act true 4; Observe true 3 true true].
Example C62_ex_alternating : alternating false ex_ops.
Proof. cbn. repeat split. Qed.
Example C62_ex : map (map snd) (applied [] (events_of (snd (run (call 2 true) reinforce_init ex_ops)))) = [[1; 3; 4]].
Proof. vm_compute. reflexivity. Qed.

Print Assumptions C62_updates.
Print Assumptions C62_modes_agree.
