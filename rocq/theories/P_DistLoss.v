(** Proofs about the losses of distributional agents. *)
From Coq Require Import QArith Qminmax Qabs Reals Qreals Lra.
From Verif Require Import Base P_Base M_ReplayBuffer M_Batch S_Batch M_ActionValue M_Categorical M_Targets M_Losses M_DistLoss S_Targets S_Categorical S_Losses S_DistLoss P_Targets P_Categorical.
Open Scope nat_scope.

(** * Sums *)
Lemma Rtotal_le {X} (f g : X -> R) l : (forall x, In x l -> (f x <= g x)%R) -> (Rtotal (map f l) <= Rtotal (map g l))%R.
Proof. induction l as [|x l IH]; intros H; cbn [map Rtotal fold_right]; [lra|]. fold (Rtotal (map f l)). fold (Rtotal (map g l)). pose proof (H x (or_introl eq_refl)). assert (Rtotal (map f l) <= Rtotal (map g l))%R by (apply IH; intros; apply H; right; assumption). lra. Qed.
Lemma Rtotal_eq_all {X} (f g : X -> R) l : (forall x, In x l -> (f x <= g x)%R) -> Rtotal (map f l) = Rtotal (map g l) -> forall x, In x l -> f x = g x.
Proof.
  induction l as [|x l IH]; intros H E y Hy; [destruct Hy|]. cbn [map Rtotal fold_right] in E. fold (Rtotal (map f l)) in E. fold (Rtotal (map g l)) in E.
  pose proof (H x (or_introl eq_refl)). assert (HL : forall x, In x l -> (f x <= g x)%R) by (intros; apply H; right; assumption). pose proof (Rtotal_le f g l HL).
  destruct Hy as [<-|Hy]; [lra|]. apply IH; [exact HL|lra|exact Hy].
Qed.
Lemma Rtotal_ext {X} (f g : X -> R) l : (forall x, In x l -> f x = g x) -> Rtotal (map f l) = Rtotal (map g l).
Proof. intros H. f_equal. apply map_ext_in. exact H. Qed.
Lemma Rtotal_minus {X} (f g : X -> R) l : Rtotal (map (fun x => f x - g x)%R l) = (Rtotal (map f l) - Rtotal (map g l))%R.
Proof. induction l as [|x l IH]; cbn [map Rtotal fold_right]; [ring|]. fold (Rtotal (map f l)). fold (Rtotal (map g l)). fold (Rtotal (map (fun x => f x - g x)%R l)). rewrite IH. ring. Qed.
Lemma Rtotal_scale {X} (c : R) (f : X -> R) l : Rtotal (map (fun x => c * f x)%R l) = (c * Rtotal (map f l))%R.
Proof. induction l as [|x l IH]; cbn [map Rtotal fold_right]; [ring|]. fold (Rtotal (map f l)). fold (Rtotal (map (fun x => c * f x)%R l)). rewrite IH. ring. Qed.
Lemma Rtotal_const {X} (c : R) (l : list X) : Rtotal (map (fun _ => c) l) = (INR (length l) * c)%R.
Proof. induction l as [|x l IH]; [cbn; ring|]. cbn [map Rtotal fold_right length]. fold (Rtotal (map (fun _ : X => c) l)). rewrite IH, S_INR. ring. Qed.
Lemma Q2R_total l : Q2R (S_Targets.total l) = Rtotal (map Q2R l).
Proof. induction l as [|x l IH]; [cbn; lra|]. cbn [S_Targets.total map Rtotal fold_right]. fold (Rtotal (map Q2R l)). rewrite Q2R_plus, IH. reflexivity. Qed.
Lemma nth_seq_map {X} (l : list X) d : map (fun i => nth i l d) (seq 0 (length l)) = l.
Proof. induction l as [|x l IH]; [reflexivity|]. cbn [length seq map nth]. f_equal. rewrite <- seq_shift, map_map. exact IH. Qed.
Lemma Rtotal_nth l : Rtotal (map Q2R l) = Rtotal (map (fun j => Q2R (nth j l 0%Q)) (seq 0 (length l))).
Proof. rewrite <- (map_map (fun j => nth j l 0%Q) Q2R). rewrite nth_seq_map. reflexivity. Qed.

(** * The logarithm *)
Lemma ln_le_pred x : (0 < x)%R -> (ln x <= x - 1)%R /\ (ln x = x - 1 -> x = 1)%R.
Proof.
  intros Hx. destruct (Req_dec x 1) as [->|N]; [rewrite ln_1; split; [lra|reflexivity]|].
  assert (NL : ln x <> 0%R). { intros E. apply N. rewrite <- ln_1 in E. apply ln_inv in E; [exact E|exact Hx|lra]. }
  pose proof (exp_ineq1 (ln x) NL) as H. rewrite exp_ln in H by exact Hx. split; [lra|intros E; exfalso; lra].
Qed.
(** p ln(p / c) >= p - c, with equality only for c = p *)
Lemma gibbs_term p c : (0 < p)%R -> (0 < c)%R -> (p - c <= p * ln p - p * ln c)%R /\ (p * ln p - p * ln c = p - c -> c = p)%R.
Proof.
  intros Hp Hc. assert (Hr : (0 < c / p)%R) by (apply Rdiv_lt_0_compat; assumption). destruct (ln_le_pred (c / p) Hr) as [L E].
  assert (D : ln (c / p) = (ln c - ln p)%R) by (unfold Rdiv; rewrite ln_mult, ln_Rinv; [reflexivity|assumption|assumption|apply Rinv_0_lt_compat; assumption]).
  assert (M : (p * (c / p) = c)%R) by (field; lra).
  split.
  - assert (p * ln (c / p) <= p * (c / p - 1))%R by (apply Rmult_le_compat_l; lra). rewrite D in H. lra.
  - intros H. assert (X : (p * ln (c / p) = p * (c / p - 1))%R) by (rewrite D; lra). apply Rmult_eq_reg_l in X; [|lra]. apply E in X. rewrite X in M. lra.
Qed.
Lemma tiny_pos : (0 < / 10 ^ 10)%R.
Proof. apply Rinv_0_lt_compat. apply pow_lt. lra. Qed.
Lemma tiny_le : (/ 10 ^ 10 <= 1)%R.
Proof. rewrite <- Rinv_1. apply Rinv_le_contravar; [lra|]. apply pow_R1_Rle. lra. Qed.
Lemma ln_tiny : ln (/ 10 ^ 10) = (- (10 * ln 10))%R.
Proof. rewrite ln_Rinv by (apply pow_lt; lra). rewrite ln_pow by lra. rewrite (INR_IZR_INZ 10). cbn [Z.of_nat Pos.of_succ_nat Pos.succ]. reflexivity. Qed.
Lemma Q2R_tiny : Q2R clip_at = (/ 10 ^ 10)%R.
Proof. unfold Q2R, clip_at. cbn [Qnum Qden]. rewrite Rmult_1_l. f_equal. rewrite (pow_IZR 10 10). reflexivity. Qed.

(** * Cross entropy *)
Lemma clamp_max y : (y <= 1)%Q -> Q2R (clamp clip_at 1 y) = Rmax (Q2R y) (/ 10 ^ 10).
Proof.
  intros H. rewrite <- Q2R_tiny. unfold clamp.
  assert (C1 : (clip_at <= 1)%Q) by (unfold clip_at; discriminate).
  destruct (Qlt_le_dec y clip_at) as [L|L].
  - rewrite Rmax_right by (apply Qle_Rle; apply Qlt_le_weak; exact L). apply Qeq_eqR. rewrite (Q.max_r y clip_at) by (apply Qlt_le_weak; exact L). apply Q.min_l. exact C1.
  - rewrite Rmax_left by (apply Qle_Rle; exact L). apply Qeq_eqR. rewrite (Q.max_l y clip_at) by exact L. apply Q.min_l. exact H.
Qed.
Lemma row_cross_entropy t : forall y, length y = length t -> Forall (fun q => (q <= 1)%Q) y -> rsum (cat_eltwise y t) = cross_entropy t y.
Proof.
  induction t as [|a t IH]; intros [|b y] L F; try discriminate L; [reflexivity|]. injection L as L. inversion F as [|? ? F1 F2]; subst.
  unfold cat_eltwise, cross_entropy. cbn [zip_with rsum fold_right length seq map Rtotal nth]. fold (cat_eltwise y t). fold (rsum (cat_eltwise y t)).
  rewrite (IH y L F2). rewrite (clamp_max b F1). unfold cross_entropy. rewrite <- seq_shift, map_map. cbn [nth]. unfold Rtotal. ring.
Qed.

Lemma total_nonneg l : Forall (fun q => (0 <= q)%Q) l -> (0 <= S_Targets.total l)%Q.
Proof. induction 1 as [|x l H F IH]; cbn [S_Targets.total fold_right]; [apply Qle_refl|]. rewrite <- (Qplus_0_r 0). apply Qplus_le_compat; assumption. Qed.
Lemma dist_le1 n p : distribution n p -> Forall (fun q => (q <= 1)%Q) p.
Proof.
  intros (_ & F & T). assert (X : Forall (fun q => (q <= S_Targets.total p)%Q) p).
  - clear T. induction F as [|x l H F IH]; constructor.
    + cbn [S_Targets.total]. pose proof (total_nonneg l F) as N. rewrite <- (Qplus_0_r x) at 1. apply Qplus_le_compat; [apply Qle_refl|exact N].
    + eapply Forall_impl; [|exact IH]. intros q Hq. cbn [S_Targets.total]. rewrite <- (Qplus_0_l q). apply Qplus_le_compat; [exact H|exact Hq].
  - eapply Forall_impl; [|exact X]. intros q Hq. cbn beta in Hq. rewrite T in Hq. exact Hq.
Qed.
Lemma dist_sum n p : distribution n p -> Rtotal (map (fun j => Q2R (nth j p 0%Q)) (seq 0 n)) = 1%R.
Proof. intros (L & _ & T). rewrite <- L, <- Rtotal_nth, <- Q2R_total, (Qeq_eqR _ _ T). lra. Qed.
Lemma dist_nth n p j : distribution n p -> (0 <= Q2R (nth j p 0%Q) <= 1)%R.
Proof.
  intros D. assert (X : (0 <= nth j p 0 <= 1)%Q).
  { pose proof (dist_le1 n p D) as F1. destruct D as (_ & F & _). rewrite Forall_forall in F, F1. destruct (nth_in_or_default j p 0%Q) as [I|E]; [split; auto|]. rewrite E. split; discriminate. }
  destruct X as [A B]. apply Qle_Rle in A, B. lra.
Qed.

Lemma clip_pos x : (0 < Rmax x (/ 10 ^ 10))%R.
Proof. pose proof tiny_pos. pose proof (Rmax_r x (/ 10 ^ 10)). lra. Qed.

Lemma cross_bounds n t y : distribution n t -> distribution n y -> (0 <= cross_entropy t y <= 10 * ln 10)%R.
Proof.
  intros Dt Dy. pose proof (dist_sum n t Dt) as S1. assert (L : length t = n) by apply Dt. unfold cross_entropy. rewrite L. split.
  - replace 0%R with (Rtotal (map (fun _ : nat => 0%R) (seq 0 n))) by (rewrite Rtotal_const; ring). apply Rtotal_le. intros j _.
    pose proof (dist_nth n t j Dt) as [T0 T1]. pose proof (dist_nth n y j Dy) as [Y0 Y1]. pose proof (clip_pos (Q2R (nth j y 0%Q))) as C.
    assert (C1 : (Rmax (Q2R (nth j y 0%Q)) (/ 10 ^ 10) <= 1)%R) by (apply Rmax_lub; [exact Y1|exact tiny_le]).
    assert (ln (Rmax (Q2R (nth j y 0%Q)) (/ 10 ^ 10)) <= 0)%R by (pose proof (proj1 (ln_le_pred _ C)); lra). nra.
  - replace (10 * ln 10)%R with ((10 * ln 10) * 1)%R by ring. rewrite <- S1, <- Rtotal_scale. apply Rtotal_le. intros j _.
    pose proof (dist_nth n t j Dt) as [T0 T1]. pose proof (Rmax_r (Q2R (nth j y 0%Q)) (/ 10 ^ 10)) as C.
    assert (K : (ln (/ 10 ^ 10) <= ln (Rmax (Q2R (nth j y 0%Q)) (/ 10 ^ 10)))%R). { destruct C as [C|C]; [left; apply ln_increasing; [exact tiny_pos|exact C]|right; rewrite <- C; reflexivity]. }
    rewrite ln_tiny in K. nra.
Qed.

Lemma entropy_term p : (if Qeq_bool p 0 then 0%R else (- (Q2R p * ln (Q2R p)))%R) = (- (Q2R p * ln (Q2R p)))%R.
Proof. destruct (Qeq_bool p 0) eqn:E; [|reflexivity]. apply Qeq_bool_iff, Qeq_eqR in E. rewrite E. replace (Q2R 0) with 0%R by (unfold Q2R; cbn; lra). ring. Qed.

(** Gibbs' inequality, up to what clipping can add. *)
Lemma gibbs_general n t y : distribution n t -> distribution n y -> (entropy t - INR n * / 10 ^ 10 <= cross_entropy t y)%R.
Proof.
  intros Dt Dy. pose proof (dist_sum n t Dt) as S1. pose proof (dist_sum n y Dy) as S2. assert (L : length t = n) by apply Dt. unfold cross_entropy, entropy. rewrite L.
  set (c := fun j => Rmax (Q2R (nth j y 0%Q)) (/ 10 ^ 10)).
  assert (H : (Rtotal (map (fun j => (Q2R (nth j t 0%Q) - (Q2R (nth j y 0%Q)) - / 10 ^ 10)) (seq 0 n)) <=
     Rtotal (map (fun j => (- (Q2R (nth j t 0%Q) * ln (c j)) - (if Qeq_bool (nth j t 0%Q) 0%Q then 0 else - (Q2R (nth j t 0%Q) * ln (Q2R (nth j t 0%Q)))))) (seq 0 n)))%R).
  { apply Rtotal_le. intros j _. rewrite entropy_term. pose proof (dist_nth n t j Dt) as [T0 T1]. pose proof (dist_nth n y j Dy) as [Y0 Y1]. pose proof tiny_pos.
    destruct T0 as [T0|T0]; [|rewrite <- T0; lra]. pose proof (clip_pos (Q2R (nth j y 0%Q))) as C. fold (c j) in C. destruct (gibbs_term _ _ T0 C) as [G _].
    assert (c j <= Q2R (nth j y 0%Q) + / 10 ^ 10)%R by (unfold c; apply Rmax_lub; lra). lra. }
  rewrite !Rtotal_minus, Rtotal_const, seq_length, S1, S2 in H. fold c. cbv zeta. cbv beta in H. unfold c in *. lra.
Qed.

Lemma gibbs n t y : distribution n t -> distribution n y -> (forall j, j < n -> (0 < nth j t 0)%Q -> (clip_at <= nth j y 0)%Q) ->
  (entropy t <= cross_entropy t y)%R /\ (cross_entropy t y = entropy t <-> Forall2 Qeq y t).
Proof.
  intros Dt Dy Hc. pose proof (dist_sum n t Dt) as S1. pose proof (dist_sum n y Dy) as S2. assert (L : length t = n) by apply Dt. assert (Ly : length y = n) by apply Dy.
  set (c := fun j => Rmax (Q2R (nth j y 0%Q)) (/ 10 ^ 10)).
  set (f := fun j => (Q2R (nth j t 0%Q) - (Q2R (nth j y 0%Q)))%R).
  set (g := fun j => (- (Q2R (nth j t 0%Q) * ln (c j)) - (if Qeq_bool (nth j t 0%Q) 0%Q then 0 else - (Q2R (nth j t 0%Q) * ln (Q2R (nth j t 0%Q)))))%R).
  assert (TM : forall j, In j (seq 0 n) -> (f j <= g j)%R /\ (f j = g j -> Q2R (nth j y 0%Q) = Q2R (nth j t 0%Q))).
  { intros j Hj. apply in_seq in Hj. unfold f, g. rewrite entropy_term. pose proof (dist_nth n t j Dt) as [T0 T1]. pose proof (dist_nth n y j Dy) as [Y0 Y1].
    destruct T0 as [T0|T0].
    - assert (Cj : c j = Q2R (nth j y 0%Q)). { unfold c. apply Rmax_left. rewrite <- Q2R_tiny. apply Qle_Rle. apply Hc; [lia|]. apply Rlt_Qlt. replace (Q2R 0) with 0%R by (unfold Q2R; cbn; lra). exact T0. }
      pose proof (clip_pos (Q2R (nth j y 0%Q))) as C. fold (c j) in C. rewrite Cj in *. destruct (gibbs_term _ _ T0 C) as [G1 G2]. split; [lra|]. intros E. apply G2. lra.
    - rewrite <- T0. split; [lra|]. intros E. lra. }
  assert (F1 : Rtotal (map f (seq 0 n)) = 0%R) by (unfold f; rewrite Rtotal_minus, S1, S2; ring).
  assert (G1 : Rtotal (map g (seq 0 n)) = (cross_entropy t y - entropy t)%R). { unfold g. rewrite Rtotal_minus. unfold cross_entropy, entropy. rewrite L. reflexivity. }
  split; [|split].
  - pose proof (Rtotal_le f g (seq 0 n) (fun j Hj => proj1 (TM j Hj))). lra.
  - intros E. assert (EQ : Rtotal (map f (seq 0 n)) = Rtotal (map g (seq 0 n))) by lra.
    pose proof (Rtotal_eq_all f g (seq 0 n) (fun j Hj => proj1 (TM j Hj)) EQ) as A.
    assert (Z : forall j, j < n -> (nth j y 0 == nth j t 0)%Q). { intros j Hj. assert (I : In j (seq 0 n)) by (apply in_seq; lia). apply eqR_Qeq. apply TM; [exact I|]. apply A. exact I. }
    clear - Z L Ly. revert n t L Ly Z. induction y as [|b y IH]; intros [|n] [|a t] L Ly Z; try discriminate; constructor.
    + exact (Z 0 ltac:(lia)).
    + apply (IH n t); [now injection L|now injection Ly|]. intros j Hj. exact (Z (S j) ltac:(lia)).
  - intros F. assert (Z : forall j, (nth j y 0 == nth j t 0)%Q). { clear - F. intros j. revert j. induction F as [|b a y t H F IH]; intros [|j]; cbn [nth]; try reflexivity; auto. }
    assert (G0 : Rtotal (map g (seq 0 n)) = 0%R). 2: lra.
    rewrite (Rtotal_ext g (fun _ => 0%R)); [rewrite Rtotal_const; ring|]. intros j Hj. apply in_seq in Hj. unfold g. rewrite entropy_term. pose proof (dist_nth n t j Dt) as [T0 T1].
    destruct T0 as [T0|T0]; [|rewrite <- T0; ring].
    assert (Cj : c j = Q2R (nth j y 0%Q)). { unfold c. apply Rmax_left. rewrite <- Q2R_tiny. apply Qle_Rle. apply Hc; [lia|]. apply Rlt_Qlt. replace (Q2R 0) with 0%R by (unfold Q2R; cbn; lra). exact T0. }
    rewrite Cj, (Qeq_eqR _ _ (Z j)). ring.
Qed.

(** * Batches *)
Lemma from_to_fun {S A} (w : list (trans (exper S A))) s a s' s2 a2 s2' : from_to w s a s' -> from_to w s2 a2 s2' -> s = s2 /\ a = a2 /\ s' = s2'.
Proof.
  intros (f & l & i & r & E1 & E2 & -> & -> & ->) (f2 & l2 & i2 & r2 & K1 & K2 & -> & -> & ->).
  rewrite E1 in K1. injection K1 as -> _. rewrite E2 in K2. apply app_inj_tail in K2 as [_ ->]. auto.
Qed.

Lemma cat_y_ok {S} gamma n (exps : list (list (trans (exper S nat)))) (b : batch S nat) (model : S -> list (list Q)) :
  Forall (fun w => w <> []) exps -> batch_experiences gamma exps = Ok b ->
  (forall s, Forall (distribution n) (model s)) -> Forall (fun w => forall s a s', from_to w s a s' -> a < length (model s)) exps ->
  exists y, rmapM (fun p => evaluate_action_as_distribution (model (fst p)) (snd p)) (combine (b_state b) (b_action b)) = Ok y /\
    Forall2 (fun w y => exists s a s', from_to w s a s' /\ nth_error (model s) a = Some y /\ distribution n y) exps y.
Proof.
  intros Hne Eb HM HA. destruct (batch_rows gamma exps Hne) as (b' & rows & E & E1 & E2 & _ & _ & _ & _ & F). rewrite Eb in E. injection E as <-. rewrite E1, E2.
  assert (EC : combine (map r_s rows) (map r_a rows) = map (fun x => (r_s x, r_a x)) rows) by (clear; induction rows as [|x l IH]; cbn; [reflexivity|now rewrite IH]). rewrite EC. clear EC.
  assert (F' : Forall2 (fun w (x : row S nat) => from_to w (r_s x) (r_a x) (r_ns x)) exps rows).
  { revert F. apply Forall2_imp. intros w x H. exact (proj2 (entry_target gamma w _ _ _ _ _ _ 0%Q H)). }
  clear - F' HM HA. revert HA. induction F' as [|w x exps rows H F IH]; intros HA; [exists []; split; constructor|]. inversion HA as [|? ? HA1 HA2]; subst.
  destruct (IH HA2) as (y & Ey & Fy). pose proof (HA1 _ _ _ H) as Lt. apply nth_error_Some in Lt. destruct (nth_error (model (r_s x)) (r_a x)) as [d|] eqn:N; [|congruence].
  exists (d :: y). cbn [map rmapM fst snd]. unfold evaluate_action_as_distribution at 1, gather. rewrite N. cbn [rbind]. rewrite Ey. split; [reflexivity|].
  constructor; [|exact Fy]. exists (r_s x), (r_a x), (r_ns x). split; [exact H|]. split; [exact N|]. specialize (HM (r_s x)). rewrite Forall_forall in HM. apply HM. eapply nth_error_In. exact N.
Qed.

Lemma rsum_total l : rsum l = Rtotal l.
Proof. reflexivity. Qed.

(** Given the targets, the whole loss. *)
Lemma cat_loss_ok {S} gamma v_min delta n (exps : list (list (trans (exper S nat)))) (b : batch S nat) (double : bool) (model target_model : S -> list (list Q)) ts (P : list (trans (exper S nat)) -> list Q -> Prop) :
  Forall (fun w => w <> []) exps -> batch_experiences gamma exps = Ok b ->
  (forall s, Forall (distribution n) (model s)) -> Forall (fun w => forall s a s', from_to w s a s' -> a < length (model s)) exps ->
  (if double then categorical_double_target model target_model (atoms v_min delta n) b else categorical_target target_model (atoms v_min delta n) b) = Ok ts ->
  Forall2 (fun w t => P w t /\ distribution n t) exps ts ->
  forall weights mean errors_out, match weights with Some ws => length ws = length exps | None => True end ->
  exists loss errors, cat_compute_loss double model target_model (atoms v_min delta n) b weights mean errors_out = Ok (loss, option_map (fun _ => errors) errors_out) /\
    Forall2 (fun w e => exists s a s' y t, from_to w s a s' /\ nth_error (model s) a = Some y /\ P w t /\ distribution n t /\ distribution n y /\ e = cross_entropy t y) exps errors /\
    loss = Rreduced mean (Rweighted weights errors).
Proof.
  intros Hne Eb HM HA Et Ft weights mean errors_out HW. destruct (cat_y_ok gamma n exps b model Hne Eb HM HA) as (ys & Ey & Fy).
  assert (La : length (atoms v_min delta n) = n) by (unfold atoms; rewrite map_length, seq_length; reflexivity).
  unfold cat_compute_loss, cat_y_and_t. rewrite Ey. cbn [rbind]. rewrite La.
  assert (A1 : forallb (fun row => length row =? n) ys = true).
  { apply forallb_forall. intros y Hy. apply Nat.eqb_eq. clear - Fy Hy. induction Fy as [|w z exps ys (s & a & s' & _ & _ & D) F IH]; [destruct Hy|]. destruct Hy as [<-|Hy]; [apply D|auto]. }
  assert (A2 : forallb (fun row => length row =? n) ts = true).
  { apply forallb_forall. intros t Hy. apply Nat.eqb_eq. clear - Ft Hy. induction Ft as [|w z exps ys (_ & D) F IH]; [destruct Hy|]. destruct Hy as [<-|Hy]; [apply D|auto]. }
  rewrite A1. cbn [passert rbind]. rewrite Et. cbn [rbind]. rewrite A2. cbn [passert rbind].
  set (e := zip_with cat_eltwise ys ts).
  assert (Fe : Forall2 (fun w e => exists s a s' y t, from_to w s a s' /\ nth_error (model s) a = Some y /\ P w t /\ distribution n t /\ distribution n y /\ e = cross_entropy t y) exps (map rsum e)).
  { unfold e. clear - Fy Ft. revert ts Ft. induction Fy as [|w y exps ys (s & a & s' & H1 & H2 & H3) F IH]; intros ts Ft; inversion Ft as [|? t ? ts' [H4 H5] Ft']; subst; cbn [zip_with map]; constructor; [|apply IH; exact Ft'].
    exists s, a, s', y, t. split; [exact H1|]. split; [exact H2|]. split; [exact H4|]. split; [exact H5|]. split; [exact H3|].
    apply row_cross_entropy; [|eapply dist_le1; exact H3]. destruct H3 as [L1 _], H5 as [L2 _]. congruence. }
  assert (Le : length (map rsum e) = length exps) by (symmetry; eapply Forall2_len; exact Fe).
  assert (Ly : length ys = length exps) by (symmetry; eapply Forall2_len; exact Fy).
  exists (Rreduced mean (Rweighted weights (map rsum e))), (map rsum e). split; [|split; [exact Fe|reflexivity]].
  refine (f_equal Ok (f_equal2 pair _ _)); [|destruct errors_out; reflexivity].
  destruct weights as [ws|]; unfold Rreduced, Rweighted.
  - unfold cat_weighted_value_loss. assert (Z : zip_with (fun e0 w => (e0 * Q2R w)%R) (map rsum e) ws = map (fun p => (fst p * Q2R (snd p))%R) (combine (map rsum e) ws)).
    { generalize (map rsum e). clear. intros l. revert ws. induction l as [|x l IH]; intros [|w ws]; cbn; try reflexivity. now rewrite IH. }
    rewrite Z, rsum_total, map_length, combine_length, Le, HW, Ly, Nat.min_id. reflexivity.
  - unfold cat_value_loss. rewrite rsum_total. rewrite map_length in *. reflexivity.
Qed.
