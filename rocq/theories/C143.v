(** C143: importance weights and the average loss. *)
From Coq Require Import Reals Qreals Lra Lia.
From Verif Require Import Base P_Base M_Prioritized S_Prioritized P_Prioritized P_PrioritizedProps M_PriorityWeights S_PriorityWeights P_PriorityWeights S_Importance P_Importance.
Local Open Scope R_scope.

(** The first element of a batch, with beta = 1 and weights not divided by the largest in the batch: its weighted loss has
    the mean that uniform sampling has, times a number that does not depend on the losses (1, or with "memory" the
    smallest probability times the number of elements). *)
Theorem C143_first {A} (w : pwe) (b : pbuf A) (loss : A -> R) : ready b -> norm w <> NormBatch -> beta w = 1 ->
  mean (weighted w b loss []) (scale w b * average b loss) /\ 0 < scale w b.
Proof.
  intros Rd Nn B1. destruct (ready_pos b Rd) as (_ & Ld & _). destruct (mean_next w b loss Rd Nn B1 [] [] Ld (Forall_nil _) eq_refl) as [M _]. split; [|now apply scale_pos].
  rewrite average_without_nil, part_nil in M. replace (scale w b / (1 - 0)) with (scale w b) in M by field. exact M.
Qed.

(** Each further element, given those drawn before it: it is drawn without replacement, while its weight is that of drawing
    with replacement.  The mean is exactly this: *)
Theorem C143_next {A} (w : pwe) (b : pbuf A) (loss : A -> R) (fs : list Q) (ds : list nat) : ready b -> norm w <> NormBatch -> beta w = 1 ->
  (length fs < length (data b))%nat -> Forall (fun f => 0 <= f < 1)%Q fs -> draws (weights b) fs = Some ds ->
  mean (weighted w b loss fs) (scale w b / (1 - part b ds) * average_without b loss ds).
Proof. intros Rd Nn B1 Lf Ff Ed. exact (proj1 (mean_next w b loss Rd Nn B1 fs ds Lf Ff Ed)). Qed.

(** ... so it differs from the average by a part that is small while the elements drawn have a small part of all priorities. *)
Theorem C143_bias_partial {A} (w : pwe) (b : pbuf A) (loss : A -> R) (fs : list Q) (ds : list nat) (B : R) : ready b -> norm w <> NormBatch -> beta w = 1 ->
  (length fs < length (data b))%nat -> Forall (fun f => 0 <= f < 1)%Q fs -> draws (weights b) fs = Some ds -> (forall x, Rabs (loss x) <= B) ->
  part b ds < 1 /\ exists m, mean (weighted w b loss fs) (scale w b * m) /\
    Rabs (m - average b loss) <= (part b ds + INR (length fs) / INR (length (data b))) * B / (1 - part b ds).
Proof.
  intros Rd Nn B1 Lf Ff Ed HB. destruct (mean_next w b loss Rd Nn B1 fs ds Lf Ff Ed) as [M P]. split; [exact P|]. exists (/ (1 - part b ds) * average_without b loss ds). split; [replace (scale w b * (/ (1 - part b ds) * average_without b loss ds)) with (scale w b / (1 - part b ds) * average_without b loss ds) by (field; lra); exact M|].
  pose proof Rd as (_ & _ & Ne & _). assert (Ll : length ds = length fs). { destruct (sample_form b fs Rd ltac:(lia) Ff) as (? & ds' & ? & ? & Ed' & _ & _ & _ & _ & _ & _ & L). congruence. }
  eapply Rle_trans; [apply (bias_bound (part b ds) (average b loss) (average_without b loss ds) B (INR (length ds) * B / INR (length (data b))))|].
  - split; [now apply part_nonneg|exact P].
  - now apply average_abs.
  - now apply average_diff.
  - rewrite Ll. right. field. split; [|lra]. apply not_0_INR. destruct (data b); [congruence|cbn; lia].
Qed.

(** Divided by the largest weight in the batch (the default), the weight of a batch of one is 1: nothing is corrected. *)
Theorem C143_batch_of_one {A} (w : pwe) (b : pbuf A) (loss : A -> R) : ready b -> norm w = NormBatch ->
  mean (weighted w b loss []) (Rsum (map (fun vx => Q2R (fst vx / Qsum (weights b)) * loss (snd vx)) (combine (weights b) (data b)))).
Proof. apply batch_one. Qed.

(** There is only one mean, so the theorems above give the mean. *)
Theorem C143_one_mean (g : Q -> R) m m' : mean g m -> mean g m' -> m = m'.
Proof. apply mean_unique. Qed.

(** A buffer with two elements, of priorities 3 and 1. *)
Definition ops : list (pb_op nat) := [PAppend 0%nat None; PAppend 1%nat None; PSample (mkSo [] [0; 0]%Q) 0%Q; PSetLast [3; 1]%Q].
Definition two : pbuf nat := fst (run pb_step (pb_init None true 1%Q) ops).
Example C143_ex_two : data two = [0; 1]%nat /\ weights two = [3; 1]%Q /\ priorities two = [3; 1]%Q.
Proof. vm_compute. auto. Qed.
Lemma two_ready : ready two.
Proof.
  split; [|split; [reflexivity|split; [discriminate|]]].
  - exists None, true, 1%Q, ops. destruct (sb_run (sb_init None true 1%Q) ops) as [[s rs]|] eqn:E; [|exfalso; revert E; vm_compute; discriminate]. exists s, rs. split; [exact eq_refl|reflexivity].
  - replace (weights two) with [3; 1]%Q by (vm_compute; reflexivity). repeat constructor.
Qed.
Definition weighting (n : normalize) : pwe := mkPwe 1 1 0 0 n None None.

(** The batch of one: with losses 1 and -2 the mean is positive though the average is negative. *)
Theorem C143_batch_of_one_refuted : exists loss, mean (weighted (weighting NormBatch) two loss []) (1 / 4) /\ average two loss < 0.
Proof.
  exists (fun x : nat => match x with O => 1 | _ => -2 end). destruct C143_ex_two as (Ed & Ew & _). split.
  - pose proof (C143_batch_of_one (weighting NormBatch) two (fun x : nat => match x with O => 1 | _ => -2 end) two_ready eq_refl) as M. rewrite Ed, Ew in M. cbn [combine map fst snd Rsum] in M. match type of M with mean _ ?v => replace (1 / 4) with v; [exact M|] end. unfold Q2R. cbn. field.
  - unfold average. rewrite Ed. cbn [map Rsum length INR]. lra.
Qed.

(** The whole buffer as the batch, with losses 2 and -1, under every way of dividing the weights and whatever is drawn: the
    weighted sum is negative though the average is positive. *)
Theorem C143_batch_of_two_refuted : exists loss, 0 < average two loss /\
  forall n f1 f2, (0 <= f1 < 1)%Q -> (0 <= f2 < 1)%Q -> weighted_sum (weighting n) two loss [f1; f2] < 0.
Proof.
  set (loss := fun x : nat => match x with O => 2 | _ => -1 end). exists loss. destruct C143_ex_two as (Ed & Ew & Ep). split; [unfold average, loss; rewrite Ed; cbn [map Rsum length INR]; lra|]. intros n f1 f2 H1 H2.
  assert (Ff : Forall (fun f => 0 <= f < 1)%Q [f1; f2]) by (repeat constructor; tauto).
  destruct (sample_form two [f1; f2] two_ready ltac:(rewrite Ed; cbn; lia) Ff) as (b1 & ds & ps & m & Eds & Es & _ & Hps & Em & _ & _ & Ll). rewrite Ew in *. rewrite Ed, Ep in *.
  destruct (draws_positive [f1; f2] [3; 1]%Q ds ltac:(repeat constructor; discriminate) Ff Eds) as [Nd _]. pose proof (draws_bounds _ _ _ Eds) as Bd. cbn [length] in Bd.
  destruct ds as [|i [|j [|k ds]]]; cbn in Ll; try lia. inversion Bd as [|? ? Hi Bd']; subst. inversion Bd' as [|? ? Hj _]; subst. inversion Nd as [|? ? Nij _]; subst.
  assert (Hij : (i = 0 /\ j = 1 \/ i = 1 /\ j = 0)%nat) by (assert (i <> j) by (intros ->; apply Nij; now left); lia).
  assert (Vm : Q2R m = 1 / 4) by (assert (Em' : (m == 1 # 4)%Q) by (rewrite Em; reflexivity); rewrite (Qeq_eqR _ _ Em'); unfold Q2R; cbn; lra).
  assert (V3 : forall p, (p == 3 / Qsum [3%Q; 1%Q])%Q -> Q2R p = 3 / 4) by (intros p0 Hp; assert (Hp' : (p0 == 3 # 4)%Q) by (rewrite Hp; reflexivity); rewrite (Qeq_eqR _ _ Hp'); unfold Q2R; cbn; lra).
  assert (V1 : forall p, (p == 1 / Qsum [3%Q; 1%Q])%Q -> Q2R p = 1 / 4) by (intros p0 Hp; assert (Hp' : (p0 == 1 # 4)%Q) by (rewrite Hp; reflexivity); rewrite (Qeq_eqR _ _ Hp'); unfold Q2R; cbn; lra).
  assert (P1 : forall x, 0 < x -> pypow x (- (1)) = Ok (/ x)) by (intros x Hx; rewrite pypow_pos by exact Hx; now rewrite Rpower_Ropp, Rpower_1).
  unfold weighted_sum, prb_sample. rewrite Ed. cbn [length Nat.leb passert rbind]. rewrite Es. cbn [rbind].
  destruct Hij as [[-> ->]|[-> ->]]; cbn [at_ixs flat_map nth_error app map] in *; inversion Hps as [|p q0 ps' l' Ep1 Hps' E1 E2]; subst; inversion Hps' as [|q q1 ps'' l'' Ep2 Hps'' E1 E2]; subst; inversion Hps''; subst; cbn [map].
  - rewrite (V3 _ Ep1), (V1 _ Ep2), Vm.
    unfold weights_from_probabilities, weighting. cbn [norm beta np_min rbind mapR]. rewrite Rmin_right by lra. destruct n; cbn [mapR rbind]; rewrite !P1 by (cbn [INR]; lra); cbn [rbind combine map Rsum fst snd loss INR]; unfold loss; lra.
  - rewrite (V1 _ Ep1), (V3 _ Ep2), Vm.
    unfold weights_from_probabilities, weighting. cbn [norm beta np_min rbind mapR]. rewrite Rmin_left by lra. destruct n; cbn [mapR rbind]; rewrite !P1 by (cbn [INR]; lra); cbn [rbind combine map Rsum fst snd loss INR]; unfold loss; lra.
Qed.

(** The hypotheses of the first theorems are met by this buffer; the mean without normalisation is the average: *)
Example C143_ex_first : mean (weighted (weighting NoNorm) two (fun x : nat => match x with O => 2 | _ => -1 end) []) (1 / 2).
Proof.
  destruct (C143_first (weighting NoNorm) two (fun x : nat => match x with O => 2 | _ => -1 end) two_ready ltac:(discriminate) eq_refl) as [M _]. unfold scale, average in M. cbn [norm weighting] in M. rewrite (proj1 C143_ex_two) in M. cbn [map Rsum length INR] in M.
  replace (1 / 2) with (1 * ((2 + (-1 + 0)) / (1 + 1))) by lra. exact M.
Qed.
(** After the first element is drawn only the second is left, with part 1/4 of the priorities: the mean is -2, not 1/2. *)
Example C143_ex_next : mean (weighted (weighting NoNorm) two (fun x : nat => match x with O => 2 | _ => -1 end) [0%Q]) (-2).
Proof.
  pose proof (C143_next (weighting NoNorm) two (fun x : nat => match x with O => 2 | _ => -1 end) [0%Q] [0%nat] two_ready ltac:(discriminate) eq_refl) as M. destruct C143_ex_two as (Ed & Ew & Ep). unfold scale, part, average_without in M. cbn [norm weighting] in M. rewrite Ed, Ew in M.
  specialize (M ltac:(cbn; lia) ltac:(constructor; [Lqa.lra|constructor]) ltac:(vm_compute; reflexivity)). cbn [length seq combine map fst snd existsb Nat.eqb orb Rsum INR at_ixs flat_map nth_error app] in M.
  match type of M with mean _ ?v => replace (-2) with v; [exact M|] end. unfold Q2R. cbn. field.
Qed.

Print Assumptions C143_first.
Print Assumptions C143_next.
Print Assumptions C143_bias_partial.
Print Assumptions C143_batch_of_one.
Print Assumptions C143_one_mean.
Print Assumptions C143_batch_of_one_refuted.
Print Assumptions C143_batch_of_two_refuted.
