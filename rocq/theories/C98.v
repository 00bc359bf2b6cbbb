(** C98: deterministic actions of stochastic policies are modes. *)
From Coq Require Import Reals Lra Lia Psatz Rtrigo_def Rpower.
From Verif Require Import Base M_Mode.
Open Scope R_scope.

(** Specification: probability masses and densities. *)
Definition phi (m s x : R) : R := exp (- ((x - m) * (x - m)) / (2 * (s * s))) / (s * sqrt (2 * PI)).
Fixpoint normal_density (ms ss xs : list R) : R := match ms, ss, xs with m :: ms, s :: ss, x :: xs => phi m s x * normal_density ms ss xs | _, _, _ => 1 end.
Fixpoint inner (a b : list R) : R := match a, b with x :: a, y :: b => x * y + inner a b | _, _ => 0 end.
Definition diff (a b : list R) : list R := map (fun p => fst p - snd p) (combine a b).
Definition quad (P : list (list R)) (v : list R) : R := inner v (map (fun row => inner row v) P).
(** derivative of a transform at x: change of variables divides the density by its absolute value *)
Definition slope (t : transform) (x : R) : R := match t with Affine _ s => s | Tanh => 1 - tanh x * tanh x end.
Fixpoint slopes (ts : list transform) (x : R) : R := match ts with [] => 1 | t :: ts => slope t x * slopes ts (transform_fwd t x) end.
Fixpoint image (ts : list transform) (x : R) : R := match ts with [] => x | t :: ts => image ts (transform_fwd t x) end.
Definition jacobian (ts : list transform) (xs : list R) : R := fold_right (fun x acc => Rabs (slopes ts x) * acc) 1 xs.

(** densities; that of the multivariate normal without its constant factor, which does not matter for its mode *)
Inductive density : distribution -> list R -> R -> Prop :=
| d_cat probs i : (i < length probs)%nat -> density (Categorical probs) [INR i] (nth i probs 0)
| d_normal ms ss xs : length xs = length ms -> density (Normal ms ss) xs (normal_density ms ss xs)
| d_mvn m P xs : length xs = length m -> density (MultivariateNormal m P) xs (exp (- quad P (diff xs m) / 2))
| d_trans b ts xs p : density b xs p -> density (Transformed b ts) (map (image ts) xs) (p / jacobian ts xs)
| d_ind b xs p : density b xs p -> density (Independent b) xs p.
Definition is_mode (d : distribution) (y : list R) : Prop := exists p, density d y p /\ forall y' p', density d y' p' -> p' <= p.

(** [slope] is the derivative. *)
Lemma cosh_pos x : 0 < cosh x. Proof. unfold cosh. pose proof (exp_pos x). pose proof (exp_pos (- x)). lra. Qed.
Lemma cosh_sinh x : cosh x * cosh x - sinh x * sinh x = 1.
Proof.
  unfold cosh, sinh. replace ((exp x + exp (- x)) / 2 * ((exp x + exp (- x)) / 2) - (exp x - exp (- x)) / 2 * ((exp x - exp (- x)) / 2)) with (exp x * exp (- x)) by field.
  rewrite <- exp_plus. replace (x + - x) with 0 by ring. apply exp_0.
Qed.
Lemma slope_is_derivative t x : derivable_pt_lim (transform_fwd t) x (slope t x).
Proof.
  destruct t as [l s|]; cbn [slope].
  - replace s with (0 + s * 1) at 2 by ring. change (transform_fwd (Affine l s)) with (fun x => l + s * x). apply (derivable_pt_lim_plus (fun _ => l) (fun x => s * x)); [apply derivable_pt_lim_const|].
    apply (derivable_pt_lim_scal id s x 1). apply derivable_pt_lim_id.
  - change (transform_fwd Tanh) with (sinh / cosh)%F. pose proof (cosh_pos x) as C.
    replace (1 - tanh x * tanh x) with ((cosh x * cosh x - sinh x * sinh x) / Rsqr (cosh x)) by (unfold tanh, Rsqr; field; lra).
    apply derivable_pt_lim_div; [apply derivable_pt_lim_sinh|apply derivable_pt_lim_cosh|lra].
Qed.

Lemma argmax_from_spec l : forall i best v, (forall x, In x l -> x <= v) \/ (exists k, (k < length l)%nat /\ argmax_from i best v l = (i + k)%nat /\ v < nth k l 0 /\ forall x, In x l -> x <= nth k l 0).
Proof.
  induction l as [|y l IH]; intros i best v; [left; intros x []|]. cbn [argmax_from]. destruct (Rlt_dec v y) as [H|H].
  - right. destruct (IH (S i) i y) as [A|(k & K & E & G & A)].
    + exists 0%nat. cbn [length nth]. split; [lia|]. split; [|split; [exact H|intros x [<-|X]; [lra|now apply A]]].
      assert (Z : forall l i best v, (forall x, In x l -> x <= v) -> argmax_from i best v l = best).
      { clear. induction l as [|z l IH]; intros i best v A; [reflexivity|]. cbn [argmax_from]. destruct (Rlt_dec v z) as [H|H]; [specialize (A z (or_introl eq_refl)); lra|]. apply IH. intros x X. apply A. now right. }
      rewrite Z by exact A. lia.
    + exists (S k). cbn [length nth]. split; [lia|]. split; [rewrite E; lia|]. split; [lra|]. intros x [<-|X]; [lra|now apply A].
  - destruct (IH (S i) best v) as [A|(k & K & E & G & A)].
    + left. intros x [<-|X]; [lra|now apply A].
    + right. exists (S k). cbn [length nth]. split; [lia|]. split; [rewrite E; lia|]. split; [exact G|]. intros x [<-|X]; [lra|now apply A].
Qed.
Lemma argmax_stay l : forall i best v, (forall x, In x l -> x <= v) -> argmax_from i best v l = best.
Proof. induction l as [|z l IH]; intros i best v A; [reflexivity|]. cbn [argmax_from]. destruct (Rlt_dec v z) as [H|H]; [specialize (A z (or_introl eq_refl)); lra|]. apply IH. intros x X. apply A. now right. Qed.
Lemma argmax_spec l : l <> [] -> (argmax l < length l)%nat /\ forall x, In x l -> x <= nth (argmax l) l 0.
Proof.
  destruct l as [|v l]; [congruence|]. intros _. cbn [argmax length]. destruct (argmax_from_spec l 1 0 v) as [A|(k & K & E & G & A)].
  - rewrite argmax_stay by exact A. split; [lia|]. cbn [nth]. intros x [<-|X]; [lra|now apply A].
  - rewrite E. cbn [Nat.add nth]. split; [lia|]. intros x [<-|X]; [lra|now apply A].
Qed.

Lemma exp_neg_le1 x : 0 <= x -> exp (- x) <= 1.
Proof. intros H. rewrite <- exp_0. destruct (Req_dec x 0) as [->|]; [rewrite Ropp_0; lra|]. left. apply exp_increasing. lra. Qed.
Lemma phi_pos m s x : 0 < s -> 0 < phi m s x.
Proof. intros S. unfold phi. apply Rdiv_lt_0_compat; [apply exp_pos|]. apply Rmult_lt_0_compat; [exact S|]. apply sqrt_lt_R0. pose proof PI_RGT_0. lra. Qed.
Lemma phi_le m s x : 0 < s -> phi m s x <= phi m s m.
Proof.
  intros S. unfold phi. assert (0 < s * sqrt (2 * PI)) by (apply Rmult_lt_0_compat; [exact S|]; apply sqrt_lt_R0; pose proof PI_RGT_0; lra).
  apply Rmult_le_compat_r; [left; now apply Rinv_0_lt_compat|]. replace (- ((m - m) * (m - m)) / (2 * (s * s))) with 0 by (field; lra). rewrite exp_0.
  replace (- ((x - m) * (x - m)) / (2 * (s * s))) with (- ((x - m) * (x - m) / (2 * (s * s)))) by (field; lra). apply exp_neg_le1.
  apply Rmult_le_pos; [apply Rle_0_sqr|]. left. apply Rinv_0_lt_compat. nra.
Qed.
Lemma normal_le ms : forall ss xs, Forall (fun s => 0 < s) ss -> length ss = length ms -> length xs = length ms ->
  0 < normal_density ms ss xs <= normal_density ms ss ms.
Proof.
  induction ms as [|m ms IH]; intros [|s ss] [|x xs] F L X; try discriminate; [cbn; lra|]. inversion F; subst. cbn [normal_density].
  destruct (IH ss xs H2 ltac:(cbn in *; lia) ltac:(cbn in *; lia)) as [A B]. pose proof (phi_le m s x H1). pose proof (phi_pos m s x H1).
  split; [now apply Rmult_lt_0_compat|]. apply Rmult_le_compat; lra.
Qed.

(** The distributions for which the returned value is a mode. *)
Fixpoint regular (d : distribution) : Prop :=
  match d with
  | Categorical probs => probs <> []
  | Normal ms ss => length ss = length ms /\ Forall (fun s => 0 < s) ss
  | MultivariateNormal m P => forall v, 0 <= quad P v
  | Transformed b ts => regular b /\ Forall (fun t => match t with Affine _ s => s <> 0 | Tanh => False end) ts
  | Independent b => regular b
  | Delta _ | OtherDistribution => False
  end.

Lemma affine_slopes ts : Forall (fun t => match t with Affine _ s => s <> 0 | Tanh => False end) ts -> exists c, c <> 0 /\ forall x, slopes ts x = c.
Proof.
  induction 1 as [|t ts T F (c & C & E)]; [exists 1; split; [lra|reflexivity]|]. destruct t as [l s|]; [|contradiction].
  exists (s * c). split; [now apply Rmult_integral_contrapositive|]. intros x. cbn. now rewrite E.
Qed.
Lemma image_fold ts : forall xs, fold_left (fun x t => map (transform_fwd t) x) ts xs = map (image ts) xs.
Proof. induction ts as [|t ts IH]; intros xs; cbn; [now rewrite map_id|]. rewrite IH, map_map. reflexivity. Qed.
Lemma density_length d : forall y p y' p', density d y p -> density d y' p' -> length y = length y'.
Proof.
  induction d; intros y q y' q' H H'; inversion H; inversion H'; subst; try reflexivity; try congruence.
  - rewrite !map_length. eapply IHd; eassumption.
  - eapply IHd; eassumption.
Qed.

(** The value acted with under act_deterministically has the highest probability (density) of all. *)
Theorem C98_mode_partial d : regular d -> exists y, mode_of_distribution d = Ok y /\ is_mode d y.
Proof.
  induction d as [probs|ms ss|m P|b IH ts|b IH|loc|]; intros G; cbn [regular mode_of_distribution] in *.
  - exists [INR (argmax probs)]. split; [destruct probs; [congruence|reflexivity]|]. destruct (argmax_spec probs G) as [L A].
    exists (nth (argmax probs) probs 0). split; [now constructor|]. intros y' p' D. inversion D; subst. apply A. now apply nth_In.
  - destruct G as [L F]. exists ms. split; [reflexivity|]. exists (normal_density ms ss ms). split; [now constructor|]. intros y' p' D. inversion D; subst.
    now apply normal_le.
  - exists m. split; [reflexivity|]. eexists. split; [now constructor|]. intros y' p' D. inversion D; subst.
    assert (Z : quad P (diff m m) = 0).
    { assert (Z0 : Forall (fun v => v = 0) (diff m m)) by (unfold diff; clear; induction m; cbn; constructor; [lra|assumption]).
      unfold quad. revert Z0. generalize (diff m m) as v. intros v V. generalize (map (fun row => inner row v) P). clear - V. induction V; intros [|z zs]; cbn; try reflexivity. subst. rewrite IHV. ring. }
    rewrite Z. replace (- 0 / 2) with 0 by field. rewrite exp_0. replace (- quad P (diff y' m) / 2) with (- (quad P (diff y' m) / 2)) by field. apply exp_neg_le1.
    specialize (G (diff y' m)). lra.
  - destruct G as [GB GT]. destruct (IH GB) as (x & M & (p & D & B)). rewrite M. cbn [rbind]. rewrite image_fold. eexists. split; [reflexivity|].
    exists (p / jacobian ts x). split; [now constructor|]. intros y' p' D'. inversion D' as [| | |b' ts' xs p0 DB E1 E2 E3|]; subst.
    destruct (affine_slopes ts GT) as (c & C & SL).
    assert (J : forall l, jacobian ts l = Rabs c ^ length l) by (induction l; cbn; [reflexivity|]; unfold jacobian in *; rewrite SL, IHl; reflexivity).
    rewrite !J. rewrite (density_length b _ _ _ _ D DB). apply Rmult_le_compat_r; [left; apply Rinv_0_lt_compat, pow_lt, Rabs_pos_lt, C|]. eapply B; eassumption.
  - destruct (IH G) as (y & M & (p & D & B)). exists y. split; [exact M|]. exists p. split; [now constructor|]. intros y' p' D'. inversion D'; subst. eapply B; eassumption.
  - contradiction.
  - contradiction.
Qed.

(** The heads: means, standard deviations (square roots of the variances asked for) and the action taken. *)
Theorem C98_heads (var_func : R -> R) (mean : list R) : (forall v, 0 < var_func v) ->
  (forall pre, length pre = length mean -> mean <> [] -> exists d, diagonal_head var_func (mean ++ pre) = Ok d /\ d = Independent (Normal mean (map (fun v => sqrt (var_func v)) pre)) /\ is_mode d mean /\ mode_of_distribution d = Ok mean) /\
  (forall v, exists d, state_independent_head var_func [v] mean = Ok d /\ d = Independent (Normal mean (repeat (sqrt (var_func v)) (length mean))) /\ is_mode d mean /\ mode_of_distribution d = Ok mean) /\
  (forall vs, length vs = length mean -> exists d, state_independent_head var_func vs mean = Ok d /\ d = Independent (Normal mean (map (fun v => sqrt (var_func v)) vs)) /\ is_mode d mean /\ mode_of_distribution d = Ok mean) /\
  (forall s, 0 < s -> is_mode (fixed_head s mean) mean /\ mode_of_distribution (fixed_head s mean) = Ok mean).
Proof.
  intros VP.
  assert (M : forall ss, length ss = length mean -> Forall (fun s => 0 < s) ss -> is_mode (Independent (Normal mean ss)) mean).
  { intros ss L F. destruct (C98_mode_partial (Independent (Normal mean ss))) as (y & E & I); [split; assumption|]. injection E as <-. exact I. }
  assert (SQ : forall l, Forall (fun s => 0 < s) (map (fun v => sqrt (var_func v)) l)) by (intros; apply Forall_map, Forall_forall; intros; now apply sqrt_lt_R0).
  assert (BR : forall l, length l = length mean -> broadcast (length mean) l = Ok l).
  { intros l L. unfold broadcast. destruct l as [|a [|b l]]; cbn [length] in L; rewrite <- L; [reflexivity|reflexivity|]. cbn [length]. now rewrite Nat.eqb_refl. }
  repeat split.
  - intros pre L N. exists (Independent (Normal mean (map (fun v => sqrt (var_func v)) pre))). repeat split; [|apply M; [now rewrite map_length|apply SQ]].
    unfold diagonal_head. rewrite app_length, L. replace ((length mean + length mean + 1) / 2)%nat with (length mean) by (replace (length mean + length mean + 1)%nat with (1 + length mean * 2)%nat by lia; rewrite Nat.div_add by lia; reflexivity).
    rewrite firstn_app, Nat.sub_diag, firstn_all, skipn_app, Nat.sub_diag, skipn_all. cbn [firstn skipn app]. rewrite app_nil_r.
    destruct pre as [|v pre]; [destruct mean; [congruence|discriminate]|]. rewrite BR; [reflexivity|]. now rewrite map_length.
  - intros v. eexists. repeat split. apply M; [apply repeat_length|]. apply Forall_forall. intros x X. apply repeat_spec in X. subst. now apply sqrt_lt_R0.
  - intros vs L. exists (Independent (Normal mean (map (fun v => sqrt (var_func v)) vs))). repeat split; [|apply M; [now rewrite map_length|apply SQ]].
    unfold state_independent_head. rewrite BR; [reflexivity|]. now rewrite map_length.
  - apply M; [apply repeat_length|]. apply Forall_forall. intros x X. apply repeat_spec in X. now subst.
Qed.

(** For the squashed Gaussian of the soft actor-critic examples the returned value is not a mode: the density can even have a local minimum there. *)
Theorem C98_act_with_mode_refuted : exists d y, d = Transformed (Independent (Normal [0] [2])) [Tanh] /\ mode_of_distribution d = Ok y /\ ~ is_mode d y.
Proof.
  eexists _, [tanh 0]. split; [reflexivity|]. split; [reflexivity|]. intros (p & D & B).
  inversion D as [| | |b' ts' xs p0 DB E1 E2 E3|]; subst. inversion DB as [| | | |b'' xs' p'' DN]; subst. inversion DN as [|ms ss xs' LX | | |]; subst.
  destruct xs as [|x [|z xs]]; try discriminate. injection E2 as E2. cbn in E2.
  assert (X0 : x = 0).
  { assert (INJ : forall u v, u < v -> tanh u < tanh v).
    { intros u v H. unfold tanh. pose proof (cosh_pos u) as CU. pose proof (cosh_pos v) as CV. apply (Rmult_lt_reg_r (cosh u * cosh v)); [nra|].
      replace (sinh u / cosh u * (cosh u * cosh v)) with (sinh u * cosh v) by (field; lra). replace (sinh v / cosh v * (cosh u * cosh v)) with (sinh v * cosh u) by (field; lra).
      unfold sinh, cosh. pose proof (exp_increasing u v H). pose proof (exp_increasing (- v) (- u) ltac:(lra)). pose proof (exp_pos u). pose proof (exp_pos (- v)). nra. }
    destruct (Rtotal_order x 0) as [H|[H|H]]; [|exact H|]; specialize (INJ _ _ H); lra. }
  subst x.
  specialize (B (map (image [Tanh]) [1]) (normal_density [0] [2] [1] / jacobian [Tanh] [1]) ltac:(now repeat constructor)).
  cbn [normal_density jacobian fold_right slopes slope transform_fwd] in B.
  assert (T0 : tanh 0 = 0) by (unfold tanh; rewrite sinh_0; unfold Rdiv; ring). rewrite T0 in B. rewrite !Rmult_1_r in B.
  replace (1 - 0 * 0) with 1 in B by ring. rewrite Rabs_R1 in B.
  assert (EE : 2 <= exp 1) by (pose proof (exp_ineq1 1 ltac:(lra)); lra).
  set (c := 2 * sqrt (2 * PI)). assert (C : 0 < c) by (unfold c; assert (0 < sqrt (2 * PI)) by (apply sqrt_lt_R0; pose proof PI_RGT_0; lra); lra).
  assert (P0 : phi 0 2 0 = 1 / c) by (unfold phi; replace (- ((0 - 0) * (0 - 0)) / (2 * (2 * 2))) with 0 by field; rewrite exp_0; reflexivity).
  assert (P1 : 7 / 8 / c <= phi 0 2 1).
  { unfold phi. fold c. apply Rmult_le_compat_r; [left; now apply Rinv_0_lt_compat|]. replace (- ((1 - 0) * (1 - 0)) / (2 * (2 * 2))) with (- (1 / 8)) by field. pose proof (exp_ineq1 (- (1 / 8)) ltac:(lra)). lra. }
  assert (SL : 0 < 1 - tanh 1 * tanh 1 <= 16 / 25).
  { unfold tanh. pose proof (cosh_pos 1) as CP. replace (1 - sinh 1 / cosh 1 * (sinh 1 / cosh 1)) with (1 / (cosh 1 * cosh 1)).
    2:{ pose proof (cosh_sinh 1) as CS. apply (Rmult_eq_reg_r (cosh 1 * cosh 1)); [|nra].
        replace (1 / (cosh 1 * cosh 1) * (cosh 1 * cosh 1)) with 1 by (field; lra).
        replace ((1 - sinh 1 / cosh 1 * (sinh 1 / cosh 1)) * (cosh 1 * cosh 1)) with (cosh 1 * cosh 1 - sinh 1 * sinh 1) by (field; lra). lra. }
    assert (5 / 4 <= cosh 1). { unfold cosh. rewrite exp_Ropp. assert (exp 1 * / exp 1 = 1) by (apply Rinv_r; lra). assert (0 < / exp 1) by (apply Rinv_0_lt_compat; lra). nra. }
    split; [apply Rdiv_lt_0_compat; nra|]. apply (Rmult_le_reg_r (cosh 1 * cosh 1)); [nra|]. unfold Rdiv. rewrite Rmult_assoc, Rinv_l by nra. nra. }
  rewrite (Rabs_right (1 - tanh 1 * tanh 1)) in B by lra. rewrite P0 in B.
  assert (L : 7 / 8 / c * (25 / 16) <= phi 0 2 1 / (1 - tanh 1 * tanh 1)).
  { apply Rmult_le_compat; [apply Rmult_le_pos; [lra|left; now apply Rinv_0_lt_compat]|lra|exact P1|]. apply (Rmult_le_reg_r (1 - tanh 1 * tanh 1)); [lra|]. rewrite Rinv_l by lra. lra. }
  assert (IC : 0 < / c) by now apply Rinv_0_lt_compat. unfold Rdiv in *. rewrite Rinv_1 in B. lra.
Qed.

(** What is returned then: the image of the mode (here the mean) of the base distribution; for squashing by tanh this is the median - the images
    of values below (above) the mean are below (above) it. *)
Theorem C98_squashed_partial (m s : list R) : mode_of_distribution (Transformed (Independent (Normal m s)) [Tanh]) = Ok (map tanh m) /\
  forall x i, (i < length m)%nat -> (x < nth i m 0 <-> tanh x < nth i (map tanh m) 0) /\ (nth i m 0 < x <-> nth i (map tanh m) 0 < tanh x).
Proof.
  split; [reflexivity|]. intros x i I.
  assert (INC : forall u v, u < v -> tanh u < tanh v).
  { intros u v H. unfold tanh. pose proof (cosh_pos u) as CU. pose proof (cosh_pos v) as CV. apply (Rmult_lt_reg_r (cosh u * cosh v)); [nra|].
    replace (sinh u / cosh u * (cosh u * cosh v)) with (sinh u * cosh v) by (field; lra). replace (sinh v / cosh v * (cosh u * cosh v)) with (sinh v * cosh u) by (field; lra).
    unfold sinh, cosh. pose proof (exp_increasing u v H). pose proof (exp_increasing (- v) (- u) ltac:(lra)). pose proof (exp_pos u). pose proof (exp_pos (- v)). nra. }
  rewrite (nth_indep (map tanh m) 0 (tanh 0)) by now rewrite map_length. rewrite map_nth.
  assert (IFF : forall u v, u < v <-> tanh u < tanh v).
  { intros u v. split; [apply INC|]. intros H. destruct (Rtotal_order u v) as [Q|[Q|Q]]; [exact Q|subst; lra|apply INC in Q; lra]. }
  split; apply IFF.
Qed.
(** Unsupported distributions are reported. *)
Theorem C98_unsupported loc : mode_of_distribution (deterministic_head loc) = Err RuntimeError /\ mode_of_distribution OtherDistribution = Err RuntimeError.
Proof. split; reflexivity. Qed.

Example C98_ex : mode_of_distribution (Categorical [1 / 5; 3 / 5; 1 / 5]) = Ok [1] /\ regular (Transformed (Independent (Normal [1; 2] [1; 3])) [Affine 1 2]) /\
  diagonal_head (fun v => v) [1; 2; 4; 9] = Ok (Independent (Normal [1; 2] [2; 3])).
Proof.
  split; [|split].
  - cbn. destruct (Rlt_dec (1 / 5) (3 / 5)); [|lra]. destruct (Rlt_dec (3 / 5) (1 / 5)); [lra|]. reflexivity.
  - cbn. repeat split; repeat constructor; lra.
  - unfold diagonal_head. cbn. replace 4 with (2 * 2) by ring. replace 9 with (3 * 3) by ring. now rewrite !sqrt_square by lra.
Qed.
Print Assumptions C98_mode_partial.
Print Assumptions C98_heads.
Print Assumptions C98_act_with_mode_refuted.
Print Assumptions C98_squashed_partial.
Print Assumptions C98_unsupported.
