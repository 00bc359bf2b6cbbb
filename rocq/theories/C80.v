(** C80: standardised advantages. *)
From Coq Require Import Reals Lra Lia Psatz Permutation.
From Verif Require Import Base M_PPOLoss S_PPOLoss P_PPOLoss.
Open Scope R_scope.

Definition all_equal (l : list R) : Prop := forall x y, In x l -> In y l -> x = y.

Lemma rvar_all_equal l : l <> [] -> (rvar l = 0 <-> all_equal l).
Proof.
  intros Hl. rewrite (rvar_zero l Hl). split.
  - intros H x y Hx Hy. rewrite (H x Hx), (H y Hy). reflexivity.
  - intros H x Hx. symmetry. apply rmean_const; [exact Hl|]. intros y Hy. apply H; assumption.
Qed.
Lemma rstd_pos l : l <> [] -> (0 < rstd l <-> ~ all_equal l).
Proof.
  intros Hl. rewrite <- (rvar_all_equal l Hl). pose proof (rvar_nonneg l). unfold rstd. split.
  - intros H1 E. rewrite E, sqrt_0 in H1. lra.
  - intros H1. apply sqrt_lt_R0. lra.
Qed.
Lemma rstd_nonneg l : 0 <= rstd l. Proof. apply sqrt_pos. Qed.
Lemma denom_pos l : 0 < rstd l + / 100000000. Proof. pose proof (rstd_nonneg l). lra. Qed.

Lemma total_perm {A} (f : A -> R) l l' : Permutation l l' -> total f l = total f l'.
Proof. induction 1; cbn; lra. Qed.

(** Without recurrence: the update succeeds on every dataset, and however the dataset is cut into minibatches, the advantages used have over the dataset
    mean zero and variance at most one (exactly var / (std + 1e-8)^2), keep their order, and do not depend on a constant added to all advantages. *)
Theorem C80_standardized (advs : list R) (batches : list (list R)) :
  advs <> [] -> Permutation (concat batches) advs ->
  exists out, Forall2 (fun b o => minibatch_advs true advs b = Ok o) batches out /\
    average (fun x => x) (concat out) = 0 /\
    average (fun x => x ^ 2) (concat out) = rvar advs / (rstd advs + / 100000000) ^ 2 /\
    average (fun x => x ^ 2) (concat out) <= 1 /\
    (forall b o i j x y x' y', In (b, o) (combine batches out) -> nth_error b i = Some x -> nth_error b j = Some y -> nth_error o i = Some x' -> nth_error o j = Some y' -> x <= y -> x' <= y') /\
    (forall k, Forall2 (fun b o => minibatch_advs true (map (fun x => x + k) advs) (map (fun x => x + k) b) = Ok o) batches out).
Proof.
  intros Hne HP. exists (map (standardize (rstd advs) (rmean advs)) batches). pose proof (denom_pos advs) as Hd. pose proof (len_pos advs Hne) as HL.
  assert (EC : concat (map (standardize (rstd advs) (rmean advs)) batches) = map (fun a => (a - rmean advs) / (rstd advs + / 100000000)) (concat batches)).
  { unfold standardize. rewrite concat_map. reflexivity. }
  assert (AV : forall f : R -> R, average f (map (fun a => (a - rmean advs) / (rstd advs + / 100000000)) (concat batches)) = average (fun a => f ((a - rmean advs) / (rstd advs + / 100000000))) advs).
  { intros f. unfold average. rewrite total_map, map_length, (Permutation_length HP). f_equal. apply total_perm, HP. }
  assert (M0 : total (fun a => a - rmean advs) advs = 0).
  { rewrite (total_add (fun x => x) (fun _ => - rmean advs)), total_const. unfold rmean. rewrite rsum_total. field. lra. }
  assert (V : average (fun x => x ^ 2) (concat (map (standardize (rstd advs) (rmean advs)) batches)) = rvar advs / (rstd advs + / 100000000) ^ 2).
  { rewrite EC, AV. unfold rvar. rewrite rmean_average. unfold average.
    rewrite (total_ext _ (fun a => / (rstd advs + / 100000000) ^ 2 * ((a - rmean advs) * (a - rmean advs)))) by (intros; field; lra).
    rewrite total_scale. field. split; lra. }
  split; [|split; [|split; [|split; [|split]]]].
  - clear. induction batches; constructor; [reflexivity|assumption].
  - rewrite EC, AV. unfold average.
    rewrite (total_ext _ (fun a => / (rstd advs + / 100000000) * (a - rmean advs))) by (intros; field; lra). rewrite total_scale, M0. unfold Rdiv. ring.
  - exact V.
  - rewrite V. pose proof (rvar_nonneg advs) as Hv. assert (S2 : rvar advs = rstd advs ^ 2) by (unfold rstd; rewrite <- Rsqr_pow2, Rsqr_sqrt; lra). rewrite S2. pose proof (rstd_nonneg advs) as Hs.
    apply Rmult_le_reg_r with ((rstd advs + / 100000000) ^ 2); [nra|]. unfold Rdiv. rewrite Rmult_assoc, Rinv_l by nra. nra.
  - intros b o i j x y x' y' Hin Hx Hy Hx' Hy' Hle.
    assert (o = standardize (rstd advs) (rmean advs) b) as ->.
    { clear - Hin. revert Hin. induction batches as [|c cs IH]; cbn; [intros []|]. intros [[= <- <-]|H]; [reflexivity|apply IH, H]. }
    unfold standardize in Hx', Hy'. rewrite nth_error_map in Hx', Hy'. rewrite Hx in Hx'. rewrite Hy in Hy'. cbn in Hx', Hy'. injection Hx' as <-. injection Hy' as <-.
    apply Rmult_le_compat_r; [left; apply Rinv_0_lt_compat; lra|lra].
  - intros k.
    assert (EM : rmean (map (fun x => x + k) advs) = rmean advs + k).
    { rewrite rmean_average. unfold average. rewrite total_add, total_const. unfold rmean. rewrite rsum_total. field. lra. }
    assert (ES : rstd (map (fun x => x + k) advs) = rstd advs).
    { unfold rstd. f_equal. unfold rvar. rewrite map_map, EM, !rmean_average. apply average_ext. intros x _. ring. }
    assert (G : forall b, minibatch_advs true (map (fun x => x + k) advs) (map (fun x => x + k) b) = Ok (standardize (rstd advs) (rmean advs) b)).
    { intros b. unfold minibatch_advs, standardize. rewrite EM, ES, map_map. f_equal. apply map_ext. intros x. f_equal. ring. }
    clear - G. induction batches; constructor; [apply G|assumption].
Qed.

(** With a recurrent model the claim "the update succeeds on every dataset" fails: an assertion demands a positive standard deviation. *)
Theorem C80_recurrent_refuted : ~ (forall advs batch : list R, advs <> [] -> exists out, minibatch_advs_recurrent true advs batch = Ok out).
Proof.
  intros H. destruct (H [0; 0] [0; 0]) as (o & E); [discriminate|]. unfold minibatch_advs_recurrent in E. destruct (Rlt_dec 0 (rstd [0; 0])) as [G|G]; [|discriminate E].
  apply rstd_pos in G; [|discriminate]. apply G. intros x y [<-|[<-|[]]] [<-|[<-|[]]]; reflexivity.
Qed.
(** It fails exactly when all advantages of the dataset are equal (for instance all zero); otherwise it uses the same advantages as without recurrence. *)
Theorem C80_recurrent_partial (advs batch : list R) : advs <> [] ->
  (all_equal advs -> minibatch_advs_recurrent true advs batch = Err AssertionError) /\
  (~ all_equal advs -> minibatch_advs_recurrent true advs batch = minibatch_advs true advs batch) /\
  minibatch_advs_recurrent false advs batch = Ok batch.
Proof.
  intros Hne. unfold minibatch_advs_recurrent, minibatch_advs. split; [|split; [|reflexivity]].
  - intros H. destruct (Rlt_dec 0 (rstd advs)) as [G|G]; [|reflexivity]. apply rstd_pos in G; [contradiction|exact Hne].
  - intros H. destruct (Rlt_dec 0 (rstd advs)) as [G|G]; [reflexivity|]. exfalso. apply G, rstd_pos; assumption.
Qed.

(** A case: advantages 1, 3 in two minibatches. *)
Example C80_case : [1; 3] <> [] /\ Permutation (concat [[3]; [1]]) [1; 3] /\ ~ all_equal [1; 3] /\ rvar [1; 3] = 1 /\
  minibatch_advs true [1; 3] [3] = Ok [1 / (1 + / 100000000)].
Proof.
  split; [discriminate|]. split; [apply perm_swap|]. split; [intros H; specialize (H 1 3 (or_introl eq_refl) (or_intror (or_introl eq_refl))); lra|].
  assert (V : rvar [1; 3] = 1) by (unfold rvar, rmean; cbn; field). split; [exact V|]. unfold minibatch_advs, standardize, rstd. rewrite V, sqrt_1. unfold rmean. cbn [rsum length INR map]. repeat f_equal. field.
Qed.

Print Assumptions C80_standardized.
Print Assumptions C80_recurrent_refuted.
Print Assumptions C80_recurrent_partial.
