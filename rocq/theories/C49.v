(** C49: importance-sampling weights of the prioritized replay buffer. *)
From Coq Require Import Reals Qreals.
From Verif Require Import Base M_Prioritized S_Prioritized M_PriorityWeights S_PriorityWeights P_PriorityWeights.
Local Open Scope R_scope.

(** Sampling any reachable buffer: every weight is in (0, 1]; with "batch" normalisation some weight is exactly 1. *)
Theorem C49_buffer_weights : forall (A : Type) (w : pwe) (b : pbuf A) o,
  reachable b -> oracle_ok (length (data b)) o -> enough b o 0 ->
  wait_after b && flag_wait b = false -> so_fracs o <> [] -> norm w <> NoNorm -> 0 <= beta w ->
  exists w' b' out, prb_sample w b (length (so_fracs o)) o = Ok (w', b', out) /\ length out = length (so_fracs o) /\
    Forall (fun xv => 0 < snd xv <= 1) out /\ (norm w = NormBatch -> Exists (fun xv => snd xv = 1) out) /\
    beta w' = Rmin 1 (beta w + beta_add w).
Proof. intros A w b o. exact (prb_sample_ok w b o). Qed.
Print Assumptions C49_buffer_weights.

(** The weight of probability p is (p / m) ^ -beta, where m is the smallest probability of the batch ("batch") or the one
    of the memory ("memory"); it is in (0, 1], and 1 for p = m. *)
Theorem C49_normalized_weights : forall w n probs mp m,
  norm w <> NoNorm -> 0 <= beta w -> 0 < m -> Forall (fun p => m <= p) probs -> probs <> [] ->
  (match norm w with NormBatch => In m probs | _ => mp = m end) ->
  exists w' ws, weights_from_probabilities w n probs mp = Ok (w', ws) /\
    Forall2 (fun p x => 0 < x <= 1 /\ (p = m -> x = 1) /\ x = Rpower (p / m) (- beta w)) probs ws /\
    beta w' = Rmin 1 (beta w + beta_add w) /\ beta_add w' = beta_add w /\ norm w' = norm w.
Proof. exact weights_ok. Qed.
Print Assumptions C49_normalized_weights.

(** Without normalisation it is (N p) ^ -beta. *)
Theorem C49_unnormalized_weights : forall w n probs mp, norm w = NoNorm -> (0 < n)%nat -> Forall (fun p => 0 < p) probs ->
  exists w' ws, weights_from_probabilities w n probs mp = Ok (w', ws) /\
    Forall2 (fun p v => v = Rpower (INR n * p) (- beta w)) probs ws.
Proof. exact weights_unnormalized. Qed.
Print Assumptions C49_unnormalized_weights.

(** After k calls beta is min(1, beta0 + k (1 - beta0) / betasteps): within [beta0, 1], and 1 from betasteps calls on. *)
Theorem C49_beta_schedule : forall al beta0 steps ep nm emin emax w calls w', 0 < steps ->
  pwe_init al beta0 (Some steps) ep nm emin emax = Ok w -> weights_run w calls = Ok w' ->
  beta w' = Rmin 1 (beta0 + INR (length calls) * ((1 - beta0) / steps)) /\ beta0 <= beta w' <= 1 /\
  (steps <= INR (length calls) -> beta w' = 1).
Proof. exact beta_schedule. Qed.
Print Assumptions C49_beta_schedule.

(** With betasteps None beta stays at beta0. *)
Theorem C49_beta_constant : forall al beta0 ep nm emin emax w calls w',
  pwe_init al beta0 None ep nm emin emax = Ok w -> weights_run w calls = Ok w' -> beta w' = beta0.
Proof. exact beta_constant. Qed.
Print Assumptions C49_beta_constant.

(** Priorities from errors are positive and grow with the error. *)
Theorem C49_priorities : forall w errors, 0 < eps w -> (forall d, In d errors -> 0 <= clip_error w d) ->
  exists ps, priority_from_errors w errors = Ok ps /\
    Forall2 (fun d p => 0 < p /\ p = Rpower (clip_error w d + eps w) (alpha w)) errors ps.
Proof. exact priorities_positive. Qed.
Print Assumptions C49_priorities.
Theorem C49_priorities_monotone : forall w d d', 0 < eps w -> 0 <= alpha w -> 0 <= clip_error w d -> d <= d' ->
  Rpower (clip_error w d + eps w) (alpha w) <= Rpower (clip_error w d' + eps w) (alpha w).
Proof. exact priorities_monotone. Qed.
Print Assumptions C49_priorities_monotone.

(** What enters the priority is the error, moved into [error_min, error_max] if these are given. *)
Theorem C49_clipping : forall w d, (forall lo hi, error_min w = Some lo -> error_max w = Some hi -> lo <= hi) ->
  (forall lo, error_min w = Some lo -> lo <= clip_error w d /\ (d <= lo -> clip_error w d = lo)) /\
  (forall hi, error_max w = Some hi -> clip_error w d <= hi /\ (hi <= d -> clip_error w d = hi)) /\
  ((forall lo, error_min w = Some lo -> lo <= d) -> (forall hi, error_max w = Some hi -> d <= hi) -> clip_error w d = d).
Proof.
  intros w d B. unfold clip_error, Rmax, Rmin. destruct (error_min w) as [lo|], (error_max w) as [hi|]; try specialize (B _ _ eq_refl eq_refl);
    repeat match goal with |- context [Rle_dec ?a ?b] => lazymatch b with context [Rle_dec] => fail | _ => destruct (Rle_dec a b) end end;
    (split; [|split]); try discriminate;
    try (intros ? E; injection E as <-; split; [|intros]; Lra.lra);
    intros L U; try specialize (L _ eq_refl); try specialize (U _ eq_refl); Lra.lra.
Qed.
Print Assumptions C49_clipping.

(** Two probabilities 1/4 and 1/2, beta = 1: weights 1 and 1/2. *)
Example C49_example : exists w', weights_from_probabilities (mkPwe 1 1 0 (1/100) NormBatch None None) 3 [1/4; 1/2] 0 = Ok (w', [1; / 2]).
Proof.
  unfold weights_from_probabilities. cbn [norm np_min rbind mapR beta].
  replace (Rmin (1/4) (1/2)) with (1/4) by (symmetry; apply Rmin_left; Lra.lra).
  rewrite !pypow_pos by Lra.lra. cbn [rbind]. eexists. repeat f_equal.
  - replace (1 / 4 / (1 / 4)) with 1 by field. apply Rpower_one.
  - replace (1 / 2 / (1 / 4)) with 2 by field. rewrite Rpower_Ropp, Rpower_1 by Lra.lra. reflexivity.
Qed.

Local Close Scope R_scope.
(** A reachable buffer that meets the hypotheses of C49_buffer_weights. *)
Definition ex49 : pbuf nat := fst (run pb_step (pb_init (Some 3) true 1%Q) [PAppend 5 (Some 2%Q); PAppend 6 None]).
Example C49_buffer_example : reachable ex49 /\ oracle_ok (length (data ex49)) (mkSo [] [0%Q; (1#2)%Q]) /\
  enough ex49 (mkSo [] [0%Q; (1#2)%Q]) 0 /\ wait_after ex49 && flag_wait ex49 = false.
Proof.
  split; [|split; [|split]].
  - exists (Some 3), true, 1%Q, [PAppend 5 (Some 2%Q); PAppend 6 None].
    destruct (sb_run (sb_init (Some 3) true 1%Q) [PAppend 5 (Some 2%Q); PAppend 6 None]) as [[s rs]|] eqn:E; [eauto|].
    vm_compute in E. discriminate.
  - split; [constructor|]. split; [constructor|]. repeat constructor; cbn; Lqa.lra.
  - split; vm_compute; repeat constructor.
  - reflexivity.
Qed.
