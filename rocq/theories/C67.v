(** C67: the learner thread of actor-learner training and exceptions.  The claim is false of the code (finding): on a full buffer
    the misplaced priorities of C48 can leave fewer drawable transitions than a minibatch, and the next sample dies. *)
From Verif Require Import Base P_Base M_Prioritized S_Prioritized M_ActorLearner S_ActorLearner P_ActorLearner.
From Coq Require Import ZifyBool ZifyNat.
Open Scope nat_scope.

(** Settings a user may choose: some capacity, at least one transition before updates start, and enough for a minibatch. *)
Definition settings_ok (cap : option nat) (c : al_cfg) : Prop :=
  1 <= replay_start_size c /\ minibatch_size c <= replay_start_size c /\ match cap with Some k => replay_start_size c <= k | None => True end.

Definition C67_claim : Prop := forall cap c (es : list (event nat)), settings_ok cap c -> schedule_ok (minibatch_size c) es ->
  ~ failed (al_run c (al_init cap) es).

(** Schedules during which the buffer drops nothing never make the learner fail. *)
Theorem C67_no_overflow_partial {A} cap c (es : list (event A)) : settings_ok cap c -> schedule_ok (minibatch_size c) es -> never_full cap es ->
  ~ failed (al_run c (al_init cap) es) /\ poller_failed (al_run c (al_init cap) es) = false.
Proof.
  intros (S1 & S2 & S3) SO NF. assert (Hc : cap <> Some 0) by (destruct cap; [|discriminate]; intros X; injection X as ->; lia).
  destruct (never_fails cap c es Hc S1 S2 SO NF) as (s & (_ & _ & _ & _ & P & _) & F & _). auto.
Qed.
Print Assumptions C67_no_overflow_partial.

(** The poller never fails, under any schedule. *)
Theorem C67_poller {A} cap c (es : list (event A)) : settings_ok cap c -> poller_failed (al_run c (al_init cap) es) = false.
Proof.
  intros (S1 & S2 & S3). assert (Hc : cap <> Some 0) by (destruct cap; [|discriminate]; intros X; injection X as ->; lia).
  destruct (al_run_rel cap c es Hc) as (s & (_ & _ & _ & _ & P & _)). exact P.
Qed.
Print Assumptions C67_poller.

(** Capacity 3, minibatches of 3: indices 1, 0, 2 are sampled; a transition arrives after the first write; the second write hits
    the same transition as the first; one stored transition keeps weight zero; the third draw of the next sample fails. *)
Definition w67_cfg := mkCfg 3 3 1 4 2 None.
Definition w67_es : list (event nat) :=
  [Poll 0; Poll 1; Poll 2; Poll 3; Learn (mkSo [] [1 # 2; 0; 0]%Q); Errors [1; 1; 1]%Q; Write; Poll 4; Write; Write; Write; Finish].
Theorem C67_refuted : ~ C67_claim.
Proof.
  intros H. apply (H (Some 3) w67_cfg (w67_es ++ [Learn (mkSo [] [0; 0; 0]%Q)])).
  - repeat split; cbn; lia.
  - repeat constructor; cbn; try lia; try reflexivity; try discriminate.
  - vm_compute. exact I.
Qed.
Print Assumptions C67_refuted.
Example C67_case : let st := al_run w67_cfg (al_init (Some 3)) w67_es in
  data (buf st) = [2; 3; 4] /\ weights (buf st) = [1; 0; 1]%Q /\ lphase st = LTop /\
  lphase (al_step w67_cfg st (Learn (mkSo [] [0; 0; 0]%Q))) = LFailed AssertionError.
Proof. vm_compute. repeat split. Qed.
(** A case for the positive theorem: the same schedule with room for five. *)
Example C67_case_positive : settings_ok (Some 5) w67_cfg /\ never_full (Some 5) w67_es /\
  lphase (al_run w67_cfg (al_init (Some 5)) (w67_es ++ [Learn (mkSo [] [0; 0; 0]%Q)])) = LSampled [0; 1; 2].
Proof. repeat split; try (cbn; lia); vm_compute; reflexivity. Qed.
