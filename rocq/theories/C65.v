(** C65: value losses. *)
From Coq Require Import QArith Qabs Qfield Lqa.
From Verif Require Import Base P_Base M_ActionValue M_Losses S_Losses P_Targets.
Open Scope Q_scope.

Lemma sum_ext l l' : Forall2 Qeq l l' -> sum l == sum l'.
Proof. induction 1; cbn [sum]; [reflexivity|]. rewrite H, IHForall2. reflexivity. Qed.
Lemma zip_ones l n : n = length l -> Forall2 Qeq (zip_with Qmult l (repeat 1 n)) l.
Proof. intros ->. induction l; cbn; constructor; [ring|assumption]. Qed.
Lemma zip_len {A B C} (f : A -> B -> C) l l' : length l = length l' -> length (zip_with f l l') = length l.
Proof. revert l'. induction l as [|a l IH]; intros [|b l'] L; cbn in *; try discriminate; [reflexivity|]. f_equal. apply IH. congruence. Qed.
Lemma len_pos n : (0 < n)%nat -> 0 < len n.
Proof. intros H. unfold len, Qlt. cbn. lia. Qed.

Lemma Qabs_case x : (0 <= x /\ Qabs x == x) \/ (x < 0 /\ Qabs x == - x).
Proof. destruct (Qlt_le_dec x 0) as [H|H]; [right|left]; split; try assumption; [apply Qabs_neg; lra|apply Qabs_pos; lra]. Qed.
Lemma smooth_case y t : (1 <= y - t /\ smooth_l1 y t == y - t - (1 # 2)) \/ (y - t <= -1 /\ smooth_l1 y t == t - y - (1 # 2)) \/
  (-1 < y - t < 1 /\ smooth_l1 y t == (1 # 2) * ((y - t) * (y - t))).
Proof.
  unfold smooth_l1. destruct (Qle_bool 1 (Qabs (y - t))) eqn:E; destruct (Qabs_case (y - t)) as [[A1 A2]|[A1 A2]].
  - apply Qle_bool_iff in E. left. rewrite A2 in *. split; [exact E|reflexivity].
  - apply Qle_bool_iff in E. right. left. rewrite A2 in *. split; [lra|ring].
  - apply Qle_bool_false in E. right. right. rewrite A2 in *. split; [lra|ring].
  - apply Qle_bool_false in E. right. right. rewrite A2 in *. split; [lra|ring].
Qed.
Lemma sq_nonneg x : 0 <= x * x.
Proof. destruct (Qlt_le_dec x 0); nra. Qed.
Lemma half_mse_eq y t : half_mse y t == (1 # 2) * ((y - t) * (y - t)).
Proof. unfold half_mse. field. Qed.
Lemma lipschitz y y' t : smooth_l1 y t - smooth_l1 y' t <= Qabs (y - y').
Proof.
  assert (G : smooth_l1 y t - smooth_l1 y' t <= y - y' \/ smooth_l1 y t - smooth_l1 y' t <= y' - y).
  { destruct (Qlt_le_dec y y') as [L|L]; [right|left];
    destruct (smooth_case y t) as [[H1 H2]|[[H1 H2]|[H1 H2]]]; destruct (smooth_case y' t) as [[K1 K2]|[[K1 K2]|[K1 K2]]]; rewrite H2, K2; try lra; try nra. }
  destruct G; eapply Qle_trans; try eassumption; [apply Qle_Qabs|]. setoid_replace (y - y') with (- (y' - y)) by ring. rewrite Qabs_opp. apply Qle_Qabs.
Qed.

(** The Huber loss: half the squared error for errors up to 1, linear with slope 1 beyond; 0 exactly for equal values, never above half the
    squared error, and moving the prediction by d changes the loss by at most |d| (so gradients are within [-1, 1]). *)
Theorem C65_huber (y t : Q) : 0 <= smooth_l1 y t /\ (smooth_l1 y t == 0 <-> y == t) /\
  (Qabs (y - t) <= 1 -> smooth_l1 y t == (y - t) * (y - t) / 2) /\ (1 <= Qabs (y - t) -> smooth_l1 y t == Qabs (y - t) - (1 # 2)) /\
  smooth_l1 y t <= half_mse y t /\ forall y', Qabs (smooth_l1 y t - smooth_l1 y' t) <= Qabs (y - y').
Proof.
  split; [|split; [|split; [|split; [|split]]]].
  - pose proof (sq_nonneg (y - t)). destruct (smooth_case y t) as [[H1 H2]|[[H1 H2]|[H1 H2]]]; rewrite H2; lra.
  - destruct (smooth_case y t) as [[H1 H2]|[[H1 H2]|[H1 H2]]]; rewrite H2; split; intros H; try lra.
    + assert (y - t == 0); [|lra]. destruct (Qlt_le_dec (y - t) 0); [nra|]. destruct (Qlt_le_dec 0 (y - t)); [nra|lra].
    + rewrite H. ring.
  - intros H. apply Qabs_Qle_condition in H. change ((y - t) * (y - t) / 2) with (half_mse y t). rewrite half_mse_eq.
    destruct (smooth_case y t) as [[H1 H2]|[[H1 H2]|[H1 H2]]]; rewrite H2; [| |reflexivity].
    + setoid_replace (y - t) with 1 by lra. reflexivity.
    + setoid_replace (y - t) with (-1) by lra. setoid_replace (t - y) with 1 by lra. reflexivity.
  - intros H. destruct (Qabs_case (y - t)) as [[A1 A2]|[A1 A2]]; rewrite A2 in *; destruct (smooth_case y t) as [[H1 H2]|[[H1 H2]|[H1 H2]]]; rewrite H2; lra.
  - rewrite half_mse_eq. pose proof (sq_nonneg (y - t - 1)). pose proof (sq_nonneg (y - t + 1)). destruct (smooth_case y t) as [[H1 H2]|[[H1 H2]|[H1 H2]]]; rewrite H2; lra.
  - intros y'. apply Qabs_Qle_condition. split; [|apply lipschitz]. pose proof (lipschitz y' y t) as L. assert (E : Qabs (y' - y) == Qabs (y - y')).
    { setoid_replace (y' - y) with (- (y - y')) by ring. apply Qabs_opp. } rewrite E in L. lra.
Qed.

(** Importance weights that are all 1 change nothing: the weighted losses equal the unweighted ones. *)
Theorem C65_unit_weights (y t : list Q) clip_delta mean : length y = length t ->
  compute_weighted_value_loss y t (repeat 1 (length y)) clip_delta mean == compute_value_loss y t clip_delta mean.
Proof.
  intros L. unfold compute_weighted_value_loss, compute_value_loss. pose proof (zip_len (eltwise clip_delta) y t L) as E. rewrite E.
  assert (G : sum (zip_with Qmult (zip_with (eltwise clip_delta) y t) (repeat 1 (length y))) == sum (zip_with (eltwise clip_delta) y t)).
  { apply sum_ext. apply zip_ones. congruence. }
  destruct mean; rewrite G; reflexivity.
Qed.
Theorem C65_unit_weights_categorical (eltwise_loss : list (list Q)) mean :
  categorical_weighted_value_loss eltwise_loss (length eltwise_loss) (repeat 1 (length eltwise_loss)) mean == categorical_value_loss eltwise_loss mean.
Proof.
  unfold categorical_weighted_value_loss, categorical_value_loss.
  assert (G : sum (zip_with Qmult (map sum eltwise_loss) (repeat 1 (length eltwise_loss))) == sum (map sum eltwise_loss)) by (apply sum_ext; apply zip_ones; now rewrite map_length).
  destruct mean; rewrite G; reflexivity.
Qed.

Lemma sum_map_plus {A} (f g : A -> Q) l : sum (map (fun x => f x + g x) l) == sum (map f l) + sum (map g l).
Proof. induction l as [|x l IH]; cbn [map sum]; [ring|]. rewrite IH. ring. Qed.
Lemma sum_map_scale {A} (f : A -> Q) c l : sum (map (fun x => f x / c) l) == sum (map f l) / c.
Proof. unfold Qdiv. induction l as [|x l IH]; cbn [map sum]; [ring|]. rewrite IH. ring. Qed.
Lemma sum_map_ext {A} (f g : A -> Q) l : (forall x, In x l -> f x == g x) -> sum (map f l) == sum (map g l).
Proof. induction l as [|x l IH]; intros H; cbn [map sum]; [reflexivity|]. rewrite (H x (or_introl eq_refl)), IH; [reflexivity|]. intros y Hy. apply H. right. exact Hy. Qed.
Lemma sum_zero {A} (l : list A) : sum (map (fun _ => 0) l) == 0.
Proof. induction l as [|x l IH]; cbn [map sum]; [reflexivity|]. rewrite IH. ring. Qed.
Lemma sum_rows ex n c : length ex = n -> sum (map (fun i => sum (row_at i ex) / c) (seq 0 n)) == sum (map (fun row => sum row / c) ex).
Proof.
  revert n. induction ex as [|r ex IH]; intros n <-; [reflexivity|]. cbn [length seq map sum]. rewrite <- seq_shift, map_map. rewrite <- (IH _ eq_refl). reflexivity.
Qed.
Lemma sum_swap (xs : list (list (list Q))) n c : Forall (fun ex => length ex = n) xs ->
  sum (map (fun i => sum (map (fun ex => sum (row_at i ex)) xs) / c) (seq 0 n)) == sum (map (fun ex => sum (map (fun row => sum row / c) ex)) xs).
Proof.
  intros F. induction F as [|ex xs H F IH].
  - cbn [map sum]. rewrite <- (sum_zero (seq 0 n)). apply sum_map_ext. intros. unfold Qdiv. ring.
  - cbn [map sum]. rewrite <- IH, <- (sum_rows ex n c H). rewrite <- sum_map_plus. apply sum_map_ext. intros i _. cbn [map sum]. unfold Qdiv. ring.
Qed.

Theorem C65_unit_weights_iqn (eltwise_loss : list (list (list Q))) (n n' : nat) mean : Forall (fun ex => length ex = n) eltwise_loss ->
  iqn_weighted_value_loss eltwise_loss n' (repeat 1 (length eltwise_loss)) mean == iqn_value_loss eltwise_loss n n' mean.
Proof.
  intros F. unfold iqn_weighted_value_loss, iqn_value_loss.
  assert (G : sum (zip_with Qmult (map (fun ex => sum (map (fun row => sum row / len n') ex)) eltwise_loss) (repeat 1 (length eltwise_loss))) == sum (map (fun ex => sum (map (fun row => sum row / len n') ex)) eltwise_loss))
    by (apply sum_ext; apply zip_ones; now rewrite map_length).
  destruct mean; rewrite G; [|reflexivity]. rewrite <- (sum_swap eltwise_loss n (len n') F). rewrite <- sum_map_scale. apply sum_map_ext. intros i _. unfold Qdiv. rewrite Qinv_mult_distr. ring.
Qed.

(** An example's weight multiplies its contribution and nothing else. *)
Theorem C65_weight_scales (y t weights : list Q) clip_delta i w w' yi ti : length t = length y -> length weights = length y ->
  nth_error y i = Some yi -> nth_error t i = Some ti -> nth_error weights i = Some w ->
  compute_weighted_value_loss y t (list_set weights i w') clip_delta false - compute_weighted_value_loss y t weights clip_delta false == (w' - w) * eltwise clip_delta yi ti.
Proof.
  unfold compute_weighted_value_loss. revert t weights i. induction y as [|a y IH]; intros [|b t] [|v ws] [|i]; cbn [length nth_error list_set zip_with sum]; intros L1 L2 H1 H2 H3; try discriminate.
  - injection H1 as ->. injection H2 as ->. injection H3 as ->. ring.
  - injection L1 as L1. injection L2 as L2. pose proof (IH t ws i L1 L2 H1 H2 H3) as G.
    setoid_replace ((w' - w) * eltwise clip_delta yi ti) with (sum (zip_with Qmult (zip_with (eltwise clip_delta) y t) (list_set ws i w')) - sum (zip_with Qmult (zip_with (eltwise clip_delta) y t) ws)) by (symmetry; exact G). ring.
Qed.

(** The errors handed to a prioritized buffer: one per example, in order, each the absolute difference. *)
Theorem C65_errors (y t : list Q) : length y = length t -> length (td_errors y t) = length y /\
  forall i a b, nth_error y i = Some a -> nth_error t i = Some b -> nth_error (td_errors y t) i = Some (Qabs (a - b)).
Proof.
  intros L. split; [apply zip_len; exact L|]. revert t L. induction y as [|a y IH]; intros [|b t] L [|i] a' b'; cbn; intros H1 H2; try discriminate; [congruence|]. apply (IH t); [cbn in L; congruence|assumption|assumption].
Qed.

(** Quantile regression loss: not negative, 0 for equal values; errors below the target are weighted by tau and errors above by 1 - tau. *)
Theorem C65_quantile (tau y t : Q) : 0 <= tau <= 1 -> 0 <= huber_quantile tau y t /\ (y == t -> huber_quantile tau y t == 0) /\
  (y < t -> huber_quantile tau y t == tau * smooth_l1 y t) /\ (t < y -> huber_quantile tau y t == (1 - tau) * smooth_l1 y t).
Proof.
  intros Ht. destruct (C65_huber y t) as (P & Z & _). unfold huber_quantile. split; [|split; [|split]].
  - pose proof (Qabs_nonneg (tau - (if Qle_bool y t then 0 else 1))). nra.
  - intros E. apply Z in E. rewrite E. ring.
  - intros L. assert (B : Qle_bool y t = true) by (apply Qle_bool_iff; lra). rewrite B. rewrite Qabs_pos by lra. ring.
  - intros L. destruct (Qle_bool y t) eqn:B; [apply Qle_bool_iff in B; lra|]. rewrite Qabs_neg by lra. ring.
Qed.

(** What the losses are: every example contributes half its squared error (or its Huber loss with clip_delta), times its weight if there are
    weights; the contributions are added up, and divided by the number of examples (not by the weights) if batch_accumulator is "mean". *)
Lemma eltwise_loss clip y t : loss_of clip y t (eltwise clip y t).
Proof. destruct (C65_huber y t) as (_ & _ & H1 & H2 & _). destruct clip; cbn; [split; assumption|reflexivity]. Qed.
Lemma zip_F2 clip y t : length y = length t -> Forall2 (fun p l => loss_of clip (fst p) (snd p) l) (combine y t) (zip_with (eltwise clip) y t).
Proof. revert t. induction y as [|a y IH]; intros [|b t] L; cbn in *; try discriminate; constructor; [apply eltwise_loss|apply IH; congruence]. Qed.
Lemma sum_total l : sum l = total l.
Proof. induction l as [|x l IH]; [reflexivity|]. cbn [sum total fold_right]. fold (total l). now rewrite IH. Qed.
Lemma zip_map_combine (f : Q -> Q -> Q) l l' : zip_with f l l' = map (fun p => f (fst p) (snd p)) (combine l l').
Proof. revert l'. induction l as [|a l IH]; intros [|b l']; cbn; try reflexivity. now rewrite IH. Qed.
Theorem C65_value_loss (y t : list Q) (clip_delta mean : bool) : length y = length t -> exists losses,
  Forall2 (fun p l => loss_of clip_delta (fst p) (snd p) l) (combine y t) losses /\ compute_value_loss y t clip_delta mean == reduced mean losses /\
  forall weights, length weights = length y -> compute_weighted_value_loss y t weights clip_delta mean == reduced mean (map (fun p => fst p * snd p) (combine losses weights)).
Proof.
  intros L. exists (zip_with (eltwise clip_delta) y t). split; [apply zip_F2; exact L|]. split.
  - unfold compute_value_loss, reduced. rewrite sum_total. destruct mean; reflexivity.
  - intros ws Lw. unfold compute_weighted_value_loss, reduced. rewrite sum_total, zip_map_combine. destruct mean; [|reflexivity]. rewrite map_length, combine_length, zip_len, Lw, Nat.min_id by exact L. reflexivity.
Qed.
Theorem C65_value_loss_categorical (eltwise_loss : list (list Q)) (mean : bool) :
  categorical_value_loss eltwise_loss mean == reduced mean (map total eltwise_loss) /\
  forall weights, length weights = length eltwise_loss ->
    categorical_weighted_value_loss eltwise_loss (length eltwise_loss) weights mean == reduced mean (map (fun p => total (fst p) * snd p) (combine eltwise_loss weights)).
Proof.
  assert (E : map sum eltwise_loss = map total eltwise_loss) by (apply map_ext; exact sum_total). split.
  - unfold categorical_value_loss, reduced. rewrite E, sum_total, map_length. destruct mean; reflexivity.
  - intros ws Lw. unfold categorical_weighted_value_loss, reduced. rewrite E, sum_total, zip_map_combine, map_length, combine_length, Lw, Nat.min_id.
    assert (G : map (fun p : Q * Q => fst p * snd p) (combine (map total eltwise_loss) ws) = map (fun p => total (fst p) * snd p) (combine eltwise_loss ws)).
    { clear. revert ws. induction eltwise_loss as [|x l IH]; intros [|w ws]; cbn; try reflexivity. now rewrite IH. }
    rewrite G. destruct mean; reflexivity.
Qed.
(** Quantile losses: entry (i, j) compares prediction i, at threshold i, with target j; a pair's loss is averaged over the targets and added up
    over the predictions, then combined over the examples as above. *)
Theorem C65_value_loss_iqn (y t taus : list Q) : length y = length taus -> forall i j yi tau tj, nth_error y i = Some yi -> nth_error taus i = Some tau -> nth_error t j = Some tj ->
  length (eltwise_huber_quantile_loss y t taus) = length y /\ exists row, nth_error (eltwise_huber_quantile_loss y t taus) i = Some row /\ length row = length t /\
    exists v l, nth_error row j = Some v /\ loss_of true yi tj l /\ (yi <= tj -> v == Qabs tau * l) /\ (tj < yi -> v == Qabs (tau - 1) * l).
Proof.
  intros L i j yi tau tj H1 H2 H3. unfold eltwise_huber_quantile_loss. split; [apply zip_len; exact L|]. exists (map (huber_quantile tau yi) t).
  split; [|split; [apply map_length|]].
  - clear H3. revert taus i L H1 H2. induction y as [|a y IH]; intros [|b taus] [|i] L H1 H2; cbn in *; try discriminate; [congruence|]. apply (IH taus); [congruence|assumption|assumption].
  - exists (huber_quantile tau yi tj), (smooth_l1 yi tj). split; [rewrite nth_error_map, H3; reflexivity|]. split; [apply (eltwise_loss true)|]. unfold huber_quantile. split; intros H.
    + apply Qle_bool_iff in H. rewrite H. setoid_replace (tau - 0) with tau by ring. reflexivity.
    + destruct (Qle_bool yi tj) eqn:B; [apply Qle_bool_iff in B; lra|]. reflexivity.
Qed.
Theorem C65_value_loss_iqn_batch (eltwise_loss : list (list (list Q))) (n n' : nat) (mean : bool) : Forall (fun ex => length ex = n) eltwise_loss ->
  iqn_value_loss eltwise_loss n n' mean == reduced mean (map (fun ex => total (map (fun row => total row / number n') ex)) eltwise_loss) /\
  forall weights, length weights = length eltwise_loss ->
    iqn_weighted_value_loss eltwise_loss n' weights mean == reduced mean (map (fun p => total (map (fun row => total row / number n') (fst p)) * snd p) (combine eltwise_loss weights)).
Proof.
  intros F.
  assert (E : forall ex, sum (map (fun row => sum row / len n') ex) = total (map (fun row => total row / number n') ex)).
  { intros ex. rewrite sum_total. reflexivity. }
  assert (W : forall weights, length weights = length eltwise_loss ->
    iqn_weighted_value_loss eltwise_loss n' weights mean == reduced mean (map (fun p => total (map (fun row => total row / number n') (fst p)) * snd p) (combine eltwise_loss weights))).
  { intros ws Lw. unfold iqn_weighted_value_loss, reduced. rewrite sum_total, zip_map_combine, map_length, combine_length, Lw, Nat.min_id.
    assert (G : map (fun p : Q * Q => fst p * snd p) (combine (map (fun ex => sum (map (fun row => sum row / len n') ex)) eltwise_loss) ws) =
                map (fun p => total (map (fun row => total row / number n') (fst p)) * snd p) (combine eltwise_loss ws)).
    { clear F Lw. revert ws. induction eltwise_loss as [|x l IH]; intros [|w ws]; cbn [map combine fst snd]; try reflexivity. now rewrite IH, E. }
    rewrite G. destruct mean; reflexivity. }
  split; [|exact W]. rewrite <- (C65_unit_weights_iqn _ _ n' mean F). rewrite (W _ (repeat_length _ _)).
  assert (G : Forall2 Qeq (map (fun p => total (map (fun row => total row / number n') (fst p)) * snd p) (combine eltwise_loss (repeat 1 (length eltwise_loss)))) (map (fun ex => total (map (fun row => total row / number n') ex)) eltwise_loss)).
  { clear. induction eltwise_loss as [|x l IH]; cbn [length repeat combine map fst snd]; constructor; [ring|exact IH]. }
  unfold reduced. rewrite (Forall2_len _ _ _ G). apply sum_ext in G. rewrite !sum_total in G. destruct mean; rewrite G; reflexivity.
Qed.

Example C65_ex : map Qred (map (smooth_l1 0) [1 # 2; 1; 3; -3]) = [1 # 8; 1 # 2; 5 # 2; 5 # 2] /\
  Qred (compute_weighted_value_loss [0; 0] [1 # 2; 3] [2; 4] true true) = 41 # 8 /\ Qred (compute_value_loss [0; 0] [1 # 2; 3] true true) = 21 # 16 /\
  Qred (compute_value_loss [0; 0] [1 # 2; 3] false false) = 37 # 8 /\
  Qred (iqn_value_loss [[[1; 2]; [3; 4]]; [[0; 1]; [1; 0]]] 2 2 true) = 3 /\
  map (map Qred) (eltwise_huber_quantile_loss [0; 1] [1 # 2; 3] [1 # 4; 1 # 2]) = [[1 # 32; 5 # 8]; [1 # 16; 3 # 4]].
Proof. vm_compute. repeat split. Qed.

Print Assumptions C65_huber.
Print Assumptions C65_unit_weights.
Print Assumptions C65_unit_weights_categorical.
Print Assumptions C65_unit_weights_iqn.
Print Assumptions C65_weight_scales.
Print Assumptions C65_errors.
Print Assumptions C65_quantile.
Print Assumptions C65_value_loss.
Print Assumptions C65_value_loss_categorical.
Print Assumptions C65_value_loss_iqn.
Print Assumptions C65_value_loss_iqn_batch.
