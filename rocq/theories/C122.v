(** C122: the losses of the distributional agents. *)
From Coq Require Import QArith Qminmax Qabs Reals Qreals Lra Lqa.
From Verif Require Import Base P_Base M_ReplayBuffer M_Batch S_Batch M_ActionValue M_Categorical M_Targets M_Losses M_DistLoss S_Targets S_Categorical S_Losses S_DistLoss P_Targets P_Categorical P_DistLoss C37 C38 C65.
Open Scope nat_scope.

(** CategoricalDQN: for every sampled experience the error is the cross entropy between the target distribution (C38: the next state's
    distribution with the largest mean, moved by the n-step return and projected) and the predicted distribution of the action taken; it is
    between 0 and 10 ln 10, so it can serve as a priority.  The loss combines exactly these errors, with their weights if there are any, and
    the caller's list of errors is replaced by them, in the order of the batch. *)
Theorem C122_categorical_dqn {S} gamma v_min delta n (exps : list (list (trans (exper S nat)))) (model target_model : S -> list (list Q)) :
  Forall (fun w => w <> []) exps -> 2 <= n -> (0 < delta)%Q ->
  (forall s, target_model s <> [] /\ Forall (distribution n) (target_model s)) -> (forall s, Forall (distribution n) (model s)) ->
  Forall (fun w => forall s a s', from_to w s a s' -> a < length (model s)) exps ->
  exists b, batch_experiences gamma exps = Ok b /\ forall weights mean errors_out, match weights with Some ws => length ws = length exps | None => True end ->
  exists loss errors, cat_compute_loss false model target_model (atoms v_min delta n) b weights mean errors_out = Ok (loss, option_map (fun _ => errors) errors_out) /\
    Forall2 (fun w e => exists s a s' y dist t, from_to w s a s' /\ nth_error (model s) a = Some y /\
       (In dist (target_model s') /\ forall d, In d (target_model s') -> (mean_of d (atoms v_min delta n) <= mean_of dist (atoms v_min delta n))%Q) /\
       is_target gamma w v_min delta n dist t /\ distribution n t /\ distribution n y /\ e = cross_entropy t y /\ (0 <= e <= 10 * ln 10)%R) exps errors /\
    loss = Rreduced mean (Rweighted weights errors).
Proof.
  intros Hne Hn Hd HT HM HA.
  destruct (C38_categorical_dqn gamma v_min delta n exps target_model Hne Hn Hd) as (b & Eb & ts & Et & Ft).
  { intros s. destruct (HT s) as [H1 H2]. split; [exact H1|]. eapply Forall_impl; [|exact H2]. intros d D. apply D. }
  exists b. split; [exact Eb|]. intros weights mean errors_out HW.
  set (P := fun (w : list (trans (exper S nat))) (t : list Q) => exists s a s' dist, from_to w s a s' /\
       (In dist (target_model s') /\ forall d, In d (target_model s') -> (mean_of d (atoms v_min delta n) <= mean_of dist (atoms v_min delta n))%Q) /\
       is_target gamma w v_min delta n dist t).
  destruct (cat_loss_ok gamma v_min delta n exps b false model target_model ts P Hne Eb HM HA Et) with (weights := weights) (mean := mean) (errors_out := errors_out) as (loss & errors & E & F & EL); [|exact HW|].
  { revert Ft. apply Forall2_imp. intros w t (s & a & s' & dist & H1 & H2 & H3 & H4). split; [exists s, a, s', dist; auto|].
    destruct (HT s') as [_ HD]. rewrite Forall_forall in HD. destruct (HD dist (proj1 H2)) as (D1 & D2 & D3). destruct H3 as (c & _ & L & _ & T & _). split; [exact L|]. split; [apply H4; exact D2|]. rewrite T. exact D3. }
  exists loss, errors. split; [exact E|]. split; [|exact EL]. revert F. apply Forall2_imp. intros w e (s & a & s' & y & t & H1 & H2 & (s2 & a2 & s2' & dist & H3 & H4 & H5) & H6 & H7 & H8).
  destruct (from_to_fun w _ _ _ _ _ _ H1 H3) as (<- & <- & <-). exists s, a, s', y, dist, t. repeat split; auto; try apply H4; try apply H6; try apply H7; rewrite H8; apply (cross_bounds n t y H6 H7).
Qed.

(** CategoricalDoubleDQN: the same with the action chosen by the online network. *)
Theorem C122_categorical_double_dqn {S} gamma v_min delta n (exps : list (list (trans (exper S nat)))) (model target_model : S -> list (list Q)) :
  Forall (fun w => w <> []) exps -> 2 <= n -> (0 < delta)%Q ->
  (forall s, model s <> [] /\ length (target_model s) = length (model s) /\ Forall (distribution n) (target_model s)) -> (forall s, Forall (distribution n) (model s)) ->
  Forall (fun w => forall s a s', from_to w s a s' -> a < length (model s)) exps ->
  exists b, batch_experiences gamma exps = Ok b /\ forall weights mean errors_out, match weights with Some ws => length ws = length exps | None => True end ->
  exists loss errors, cat_compute_loss true model target_model (atoms v_min delta n) b weights mean errors_out = Ok (loss, option_map (fun _ => errors) errors_out) /\
    Forall2 (fun w e => exists s a s' y i own dist t, from_to w s a s' /\ nth_error (model s) a = Some y /\
       (nth_error (model s') i = Some own /\ forall d, In d (model s') -> (mean_of d (atoms v_min delta n) <= mean_of own (atoms v_min delta n))%Q) /\ nth_error (target_model s') i = Some dist /\
       is_target gamma w v_min delta n dist t /\ distribution n t /\ distribution n y /\ e = cross_entropy t y /\ (0 <= e <= 10 * ln 10)%R) exps errors /\
    loss = Rreduced mean (Rweighted weights errors).
Proof.
  intros Hne Hn Hd HT HM HA.
  destruct (C38_categorical_double_dqn gamma v_min delta n exps model target_model Hne Hn Hd) as (b & Eb & ts & Et & Ft).
  { intros s. destruct (HT s) as (H1 & H2 & H3). split; [exact H1|]. split; [exact H2|]. eapply Forall_impl; [|exact H3]. intros d D. apply D. }
  exists b. split; [exact Eb|]. intros weights mean errors_out HW.
  set (P := fun (w : list (trans (exper S nat))) (t : list Q) => exists s a s' i own dist, from_to w s a s' /\
       (nth_error (model s') i = Some own /\ forall d, In d (model s') -> (mean_of d (atoms v_min delta n) <= mean_of own (atoms v_min delta n))%Q) /\ nth_error (target_model s') i = Some dist /\
       is_target gamma w v_min delta n dist t).
  destruct (cat_loss_ok gamma v_min delta n exps b true model target_model ts P Hne Eb HM HA Et) with (weights := weights) (mean := mean) (errors_out := errors_out) as (loss & errors & E & F & EL); [|exact HW|].
  { revert Ft. apply Forall2_imp. intros w t (s & a & s' & i & own & dist & H1 & H2 & H3 & H4 & H5). split; [exists s, a, s', i, own, dist; auto|].
    destruct (HT s') as (_ & _ & HD). rewrite Forall_forall in HD. destruct (HD dist (nth_error_In _ _ H3)) as (D1 & D2 & D3). destruct H4 as (c & _ & L & _ & T & _). split; [exact L|]. split; [apply H5; exact D2|]. rewrite T. exact D3. }
  exists loss, errors. split; [exact E|]. split; [|exact EL]. revert F. apply Forall2_imp. intros w e (s & a & s' & y & t & H1 & H2 & (s2 & a2 & s2' & i & own & dist & H3 & H4 & H5 & H6) & H7 & H8 & H9).
  destruct (from_to_fun w _ _ _ _ _ _ H1 H3) as (<- & <- & <-). exists s, a, s', y, i, own, dist, t. repeat split; auto; try apply H4; try apply H7; try apply H8; rewrite H9; apply (cross_bounds n t y H7 H8).
Qed.

(** Minimising that error fits the prediction to the target: no prediction has a smaller error than the entropy of the target (up to 10^-10 per
    atom, because of the clipping), and if the prediction gives at least 10^-10 to every value the target considers possible, the error is the
    entropy exactly when the prediction is the target. *)
Theorem C122_minimum n (t y : list Q) : distribution n t -> distribution n y ->
  (entropy t - INR n * / 10 ^ 10 <= cross_entropy t y)%R /\
  ((forall j, j < n -> (0 < nth j t 0)%Q -> (1 # 10000000000 <= nth j y 0)%Q) ->
   (entropy t <= cross_entropy t y)%R /\ (cross_entropy t y = entropy t <-> Forall2 Qeq y t)).
Proof. intros Dt Dy. split; [apply gibbs_general; assumption|]. exact (gibbs n t y Dt Dy). Qed.

(** * IQN *)
Section Quantiles.
  Open Scope Q_scope.
  Lemma pair_ok tau y t : 0 <= tau <= 1 -> pair_loss tau y t (huber_quantile tau y t).
  Proof.
    intros H. exists (smooth_l1 y t). split; [apply (eltwise_loss true)|]. unfold huber_quantile. split; intros L.
    - apply Qle_bool_iff in L. rewrite L. rewrite Qabs_pos by lra. ring.
    - destruct (Qle_bool y t) eqn:B; [apply Qle_bool_iff in B; lra|]. rewrite Qabs_neg by lra. ring.
  Qed.
  Lemma pair_zero tau y t : 0 < tau < 1 -> (huber_quantile tau y t == 0 <-> y == t).
  Proof.
    intros H. destruct (C65_huber y t) as (P & Z & _). destruct (C65_quantile tau y t ltac:(lra)) as (_ & Z2 & L1 & L2). split; [|exact Z2].
    intros E. destruct (Q_dec y t) as [[L|L]|L]; [| |exact L].
    - specialize (L1 L). rewrite E in L1. apply Z. symmetry in L1. apply Qmult_integral in L1. destruct L1; lra.
    - specialize (L2 L). rewrite E in L2. apply Z. symmetry in L2. apply Qmult_integral in L2. destruct L2; lra.
  Qed.
  Lemma sum_app l l' : sum (l ++ l') == sum l + sum l'.
  Proof. induction l as [|x l IH]; cbn [sum app]; [ring|]. rewrite IH. ring. Qed.
  Lemma sum_concat ex : sum (concat ex) == sum (map sum ex).
  Proof. induction ex as [|x l IH]; cbn [concat map sum]; [reflexivity|]. rewrite sum_app, IH. reflexivity. Qed.
  Lemma sum_nonneg l : Forall (fun q => 0 <= q) l -> 0 <= sum l.
  Proof. induction 1; cbn [sum]; lra. Qed.
  Lemma sum_zero l : Forall (fun q => 0 <= q) l -> (sum l == 0 <-> Forall (fun q => q == 0) l).
  Proof.
    induction 1 as [|x l H F IH]; cbn [sum]; [split; [constructor|reflexivity]|]. pose proof (sum_nonneg l F). split.
    - intros E. constructor; [lra|]. apply IH. lra.
    - intros A. inversion A; subst. apply IH in H4. lra.
  Qed.
  Lemma sum_div n' l : sum (map (fun row => sum row / len n') l) == sum (map sum l) / len n'.
  Proof. induction l as [|x l IH]; cbn [map sum]; [unfold Qdiv; ring|]. rewrite IH. unfold Qdiv. ring. Qed.

  (** the matrix of one example *)
  Lemma example_ok y t taus n n' : length y = n -> length taus = n -> length t = n' -> (0 < n)%nat -> (0 < n')%nat -> Forall (fun tau => 0 <= tau <= 1) taus ->
    let ex := eltwise_huber_quantile_loss y t taus in length ex = n /\
    quantile_error taus y t (mean12 ex) /\ 0 <= mean12 ex /\
    (Forall (fun tau => 0 < tau < 1) taus -> (mean12 ex == 0 <-> forall yi tj, In yi y -> In tj t -> yi == tj)) /\
    sum (map (fun row => sum row / len n') ex) == number n * mean12 ex.
  Proof.
    intros Ly Lt Ln Hn Hn' HT ex.
    assert (Lex : length ex = n) by (unfold ex, eltwise_huber_quantile_loss; rewrite zip_len; congruence).
    assert (Lrow : Forall (fun row => length row = n') ex).
    { unfold ex, eltwise_huber_quantile_loss. clear - Ln. revert taus. induction y as [|a y IH]; intros [|b taus]; cbn [zip_with]; constructor; [rewrite map_length; exact Ln|apply IH]. }
    assert (Lc : length (concat ex) = (n * n')%nat).
    { rewrite <- Lex. clear - Lrow. induction Lrow as [|r l H F IH]; cbn [concat length]; [reflexivity|]. rewrite app_length, IH, H. reflexivity. }
    assert (NN : Forall (fun q => 0 <= q) (concat ex)).
    { unfold ex, eltwise_huber_quantile_loss. clear - HT. revert taus HT. induction y as [|a y IH]; intros [|b taus] HT; cbn [zip_with concat]; try constructor. inversion HT as [|? ? H1 H2]; subst. apply Forall_app. split; [|apply IH; exact H2].
      apply Forall_forall. intros v Hv. apply in_map_iff in Hv as (x & <- & _). apply (C65_quantile b a x H1). }
    assert (P1 : 0 < len n) by (apply len_pos; exact Hn). assert (P2 : 0 < len n') by (apply len_pos; exact Hn').
    assert (EM : mean12 ex == sum (map sum ex) / (len n * len n')).
    { unfold mean12, M_ActionValue.mean. rewrite sum_concat, Lc. unfold len. rewrite Nat2Z.inj_mul, inject_Z_mult. reflexivity. }
    split; [exact Lex|]. split; [|split; [|split]].
    - exists ex. split.
      + unfold ex, eltwise_huber_quantile_loss. clear - Ly Lt HT. revert taus n Lt Ly HT. induction y as [|a y IH]; intros [|b taus] n Lt Ly HT; cbn [zip_with combine]; constructor.
        * inversion HT as [|? ? H1 H2]; subst. cbn [fst snd]. clear - H1. induction t as [|x t IHt]; cbn [map]; constructor; [apply pair_ok; exact H1|exact IHt].
        * inversion HT as [|? ? H1 H2]; subst. cbn [length] in *. eapply (IH taus (length taus)); [reflexivity|congruence|exact H2].
      + rewrite EM, Ly, Ln. assert (ET : S_Losses.total (map S_Losses.total ex) = sum (map sum ex)) by (rewrite (sum_total (map sum ex)); f_equal; apply map_ext; intros; symmetry; apply sum_total). rewrite ET. reflexivity.
    - unfold mean12, M_ActionValue.mean. rewrite Lc. pose proof (sum_nonneg _ NN). apply Qle_shift_div_l; [|lra]. change 0 with (inject_Z 0). rewrite <- Zlt_Qlt. nia.
    - intros HT2. assert (Z : mean12 ex == 0 <-> Forall (fun q => q == 0) (concat ex)).
      { rewrite <- (sum_zero _ NN). rewrite EM, sum_concat. split.
        - intros E. assert (E2 : sum (map sum ex) == 0 * (len n * len n')) by (rewrite <- E; field; split; lra). rewrite E2. ring.
        - intros E. rewrite E. unfold Qdiv. ring. }
      rewrite Z. unfold ex, eltwise_huber_quantile_loss. clear - HT2 Ly Lt. revert taus n Lt Ly HT2. induction y as [|a y IH]; intros [|b taus] n Lt Ly HT; cbn [length] in *; subst; try discriminate.
      + cbn. split; [intros _ ? ? []|constructor].
      + inversion HT as [|? ? H1 H2]; subst. cbn [zip_with concat]. rewrite Forall_app. injection Ly as Ly. rewrite (IH taus (length taus) eq_refl Ly H2). split.
        * intros [A1 A2] yi tj [<-|I] J; [|apply A2; assumption]. rewrite Forall_forall in A1. apply (pair_zero b a tj H1). apply A1. apply in_map. exact J.
        * intros A. split; [|intros yi tj I J; apply A; [right; exact I|exact J]]. apply Forall_forall. intros v Hv. apply in_map_iff in Hv as (x & <- & Hx). apply (pair_zero b a x H1). apply A; [left; reflexivity|exact Hx].
    - rewrite sum_div, EM. unfold number. fold (len n). field. split; lra.
  Qed.
End Quantiles.

Lemma nth_zip_with {A B C} (f : A -> B -> C) l : forall l' k a b, nth_error l k = Some a -> nth_error l' k = Some b -> nth_error (zip_with f l l') k = Some (f a b).
Proof. induction l as [|x l IH]; intros [|y l'] [|k] a b H1 H2; cbn in *; try discriminate; [congruence|]. apply IH; assumption. Qed.
Lemma nth_comb {A B} (l : list A) : forall (l' : list B) k a b, nth_error l k = Some a -> nth_error l' k = Some b -> nth_error (combine l l') k = Some (a, b).
Proof. induction l as [|x l IH]; intros [|y l'] [|k] a b H1 H2; cbn in *; try discriminate; [congruence|]. apply IH; assumption. Qed.
Lemma nth_lt {A} (l : list A) k : k < length l -> exists x, nth_error l k = Some x.
Proof. intros H. apply nth_error_Some in H. destruct (nth_error l k); [eauto|congruence]. Qed.
Lemma reduced_ext mean a b : Forall2 Qeq a b -> (reduced mean a == reduced mean b)%Q.
Proof.
  intros F. unfold reduced. rewrite (Forall2_len _ _ _ F). assert (E : (S_Losses.total a == S_Losses.total b)%Q). { clear mean. induction F as [|x y a b H F IH]; [reflexivity|]. unfold S_Losses.total in *. cbn [fold_right]. rewrite H, IH. reflexivity. }
  destruct mean; rewrite E; reflexivity.
Qed.

(** IQN: the error of an experience is the average quantile regression loss over all pairs of a predicted quantile of the action taken and a
    target quantile (C37); it is never negative, and 0 exactly when all of them agree (for thresholds strictly between 0 and 1).  What an
    experience contributes to the loss is N times its error, N being the number of predicted quantiles. *)
Theorem C122_iqn {S} gamma (exps : list (list (trans (exper S nat)))) (Z Z' : S -> list Q -> list (list Q)) nA N N' (taus taus_tilde taus_prime : list (list Q)) :
  Forall (fun w => w <> []) exps -> 0 < nA -> 0 < N -> 0 < N' ->
  (forall s taus, length (Z s taus) = length taus /\ Forall (fun row => length row = nA) (Z s taus)) ->
  (forall s taus, length (Z' s taus) = length taus /\ Forall (fun row => length row = nA) (Z' s taus)) ->
  Forall (fun w => forall s a s', from_to w s a s' -> a < nA) exps ->
  length taus = length exps -> length taus_tilde = length exps -> length taus_prime = length exps ->
  Forall (fun l => length l = N /\ Forall (fun tau => (0 <= tau <= 1)%Q) l) taus -> Forall (fun l => l <> []) taus_tilde -> Forall (fun l => length l = N') taus_prime ->
  exists b, batch_experiences gamma exps = Ok b /\ forall weights mean errors_out, match weights with Some ws => length ws = length exps | None => True end ->
  exists loss errors, iqn_compute_loss Z Z' N N' taus taus_tilde taus_prime b weights mean errors_out = Ok (loss, option_map (fun _ => errors) errors_out) /\
    length errors = length exps /\
    (forall k w tau td tp, nth_error exps k = Some w -> nth_error taus k = Some tau -> nth_error taus_tilde k = Some td -> nth_error taus_prime k = Some tp ->
      exists s a s' i y t e, from_to w s a s' /\ Forall2 (fun row q => nth_error row a = Some q) (Z s tau) y /\
        best_average (Z' s' td) i /\ Forall2 (fun row x => exists z, nth_error row i = Some z /\ (x == nstep gamma w z)%Q) (Z' s' tp) t /\
        nth_error errors k = Some e /\ quantile_error tau y t e /\ (0 <= e)%Q /\
        (Forall (fun tau => (0 < tau < 1)%Q) tau -> ((e == 0)%Q <-> forall yi tj, In yi y -> In tj t -> (yi == tj)%Q))) /\
    (loss == reduced mean (weighted weights (map (fun e => number N * e) errors)))%Q.
Proof.
  intros Hne HnA HN HN' HZ HZ' HA L1 L2 L3 HT HTd HTp.
  destruct (C37_iqn gamma exps Z' nA taus_tilde taus_prime Hne HnA HZ' L2 L3 HTd) as (b & Eb & ts & Et & Ft).
  { eapply Forall_impl; [|exact HTp]. intros l Hl E. cbn beta in Hl. rewrite E in Hl. cbn in Hl. lia. }
  exists b. split; [exact Eb|]. intros weights mean errors_out HW.
  destruct (batch_rows gamma exps Hne) as (b' & rows & E & E1 & E2 & _ & _ & _ & _ & F). rewrite Eb in E. injection E as <-.
  assert (F' : Forall2 (fun w (x : row S nat) => from_to w (r_s x) (r_a x) (r_ns x)) exps rows).
  { revert F. apply Forall2_imp. intros w x H. exact (proj2 (entry_target gamma w _ _ _ _ _ _ 0%Q H)). }
  assert (HR : Forall (fun x => r_a x < nA) rows). { clear - F' HA. induction F' as [|w x exps rows H F IH]; constructor; inversion HA; subst; eauto. }
  assert (Lr : length rows = length exps) by (symmetry; eapply Forall2_len; exact F').
  assert (Y : exists ys, iqn_predicted Z taus b = Ok ys /\ Forall2 (fun p y => Forall2 (fun row q => nth_error row (r_a (fst p)) = Some q) (Z (r_s (fst p)) (snd p)) y) (combine rows taus) ys).
  { unfold iqn_predicted. rewrite E1, E2.
    assert (EC : combine (combine (map r_s rows) (map r_a rows)) taus = map (fun p => (r_s (fst p), r_a (fst p), snd p)) (combine rows taus)).
    { clear. revert taus. induction rows as [|x l IH]; intros [|t taus]; cbn; try reflexivity. now rewrite IH. }
    rewrite EC. apply rmapM_rows. intros [x tau] Hin. cbn [fst snd]. pose proof (in_combine_l _ _ _ _ Hin) as Hx. pose proof (in_combine_r _ _ _ _ Hin) as Htau.
    rewrite Forall_forall in HR, HT. specialize (HR _ Hx). specialize (HT _ Htau). destruct (HZ (r_s x) tau) as [Lz Fz].
    unfold evaluate_action_as_quantiles. assert (NA : n_actions (Z (r_s x) tau) = nA). { destruct (Z (r_s x) tau) as [|r rs] eqn:EZ; [cbn in Lz; destruct HT; lia|]. inversion Fz; subst. reflexivity. }
    rewrite NA. replace (r_a x <? nA) with true by (symmetry; apply Nat.ltb_lt; exact HR). eexists. split; [reflexivity|]. apply (column_F2 nA); assumption. }
  destruct Y as (ys & Ey & Fy).
  assert (Ly : length ys = length exps). { apply Forall2_len in Fy. rewrite combine_length in Fy. lia. }
  assert (Lt : length ts = length exps). { apply Forall2_len in Ft. rewrite !combine_length in Ft. lia. }
  set (elt := zip_with (fun yt taus => eltwise_huber_quantile_loss (fst yt) (snd yt) taus) (combine ys ts) taus).
  assert (Le : length elt = length exps). { unfold elt. rewrite zip_len; rewrite combine_length; lia. }
  assert (K : forall k w tau td tp, nth_error exps k = Some w -> nth_error taus k = Some tau -> nth_error taus_tilde k = Some td -> nth_error taus_prime k = Some tp ->
     exists s a s' i y t ex, from_to w s a s' /\ Forall2 (fun row q => nth_error row a = Some q) (Z s tau) y /\
        best_average (Z' s' td) i /\ Forall2 (fun row x => exists z, nth_error row i = Some z /\ (x == nstep gamma w z)%Q) (Z' s' tp) t /\
        nth_error elt k = Some ex /\ length ex = N /\ quantile_error tau y t (mean12 ex) /\ (0 <= mean12 ex)%Q /\
        (Forall (fun tau => (0 < tau < 1)%Q) tau -> ((mean12 ex == 0)%Q <-> forall yi tj, In yi y -> In tj t -> (yi == tj)%Q)) /\
        (M_ActionValue.sum (map (fun row => M_ActionValue.sum row / len N') ex) == number N * mean12 ex)%Q).
  { intros k w tau td tp K1 K2 K3 K4. destruct (P_Batch.Forall2_nth _ _ _ F' k w K1) as (x & Kx & Hx).
    destruct (P_Batch.Forall2_nth _ _ _ Fy k (x, tau) (nth_comb _ _ _ _ _ Kx K2)) as (y & Ky & Hy). cbn [fst snd] in Hy.
    destruct (P_Batch.Forall2_nth _ _ _ Ft k (w, td, tp) (nth_comb _ _ _ _ _ (nth_comb _ _ _ _ _ K1 K3) K4)) as (t & Kt & s & a & s' & i & H1 & H2 & H3).
    destruct (from_to_fun w _ _ _ _ _ _ H1 Hx) as (-> & -> & ->).
    rewrite Forall_forall in HT, HTp. destruct (HT _ (nth_error_In _ _ K2)) as [LN H01]. specialize (HTp _ (nth_error_In _ _ K4)).
    assert (Lyk : length y = N). { rewrite <- (Forall2_len _ _ _ Hy). destruct (HZ (r_s x) tau) as [-> _]. exact LN. }
    assert (Ltk : length t = N'). { rewrite <- (Forall2_len _ _ _ H3). destruct (HZ' (r_ns x) tp) as [-> _]. exact HTp. }
    destruct (example_ok y t tau N N' Lyk LN Ltk HN HN' H01) as (X1 & X2 & X3 & X4 & X5).
    exists (r_s x), (r_a x), (r_ns x), i, y, t, (eltwise_huber_quantile_loss y t tau).
    split; [exact Hx|]. split; [exact Hy|]. split; [exact H2|]. split; [exact H3|]. split; [exact (nth_zip_with _ _ _ _ _ _ (nth_comb _ _ _ _ _ Ky Kt) K2)|]. auto. }
  assert (KF : Forall (fun ex => length ex = N /\ (M_ActionValue.sum (map (fun row => M_ActionValue.sum row / len N') ex) == number N * mean12 ex)%Q) elt).
  { apply Forall_forall. intros ex Hex. apply In_nth_error in Hex as (k & Hk). assert (Lk : k < length exps) by (rewrite <- Le; apply nth_error_Some; congruence).
    destruct (nth_lt exps k Lk) as (w & Kw). destruct (nth_lt taus k ltac:(lia)) as (tau & K2). destruct (nth_lt taus_tilde k ltac:(lia)) as (td & K3). destruct (nth_lt taus_prime k ltac:(lia)) as (tp & K4).
    destruct (K k w tau td tp Kw K2 K3 K4) as (s & a & s' & i & y & t & ex' & _ & _ & _ & _ & H5 & H6 & _ & _ & _ & H7). rewrite Hk in H5. injection H5 as <-. auto. }
  eexists _, (map mean12 elt). split; [unfold iqn_compute_loss; rewrite Ey; cbn [rbind]; rewrite Et; cbn [rbind]; fold elt; refine (f_equal Ok (f_equal2 pair eq_refl _)); destruct errors_out; reflexivity|].
  split; [rewrite map_length; exact Le|]. split.
  - intros k w tau td tp K1 K2 K3 K4. destruct (K k w tau td tp K1 K2 K3 K4) as (s & a & s' & i & y & t & ex & H1 & H2 & H3 & H4 & H5 & _ & H6 & H7 & H8 & _).
    exists s, a, s', i, y, t, (mean12 ex). split; [exact H1|]. split; [exact H2|]. split; [exact H3|]. split; [exact H4|]. split; [rewrite nth_error_map, H5; reflexivity|]. auto.
  - assert (LN : Forall (fun ex => length ex = N) elt) by (eapply Forall_impl; [|exact KF]; intros ex H; apply H).
    destruct (C65_value_loss_iqn_batch elt N N' mean LN) as [V1 V2].
    assert (G : Forall2 Qeq (map (fun ex => S_Losses.total (map (fun row => (S_Losses.total row / number N')%Q) ex)) elt) (map (fun e => number N * e)%Q (map mean12 elt))).
    { clear - KF. induction KF as [|ex l [_ H] KF IH]; cbn [map]; constructor; [|exact IH]. rewrite <- H. assert (M : map (fun row => (S_Losses.total row / number N')%Q) ex = map (fun row => (M_ActionValue.sum row / len N')%Q) ex) by (apply map_ext; intros r; rewrite (sum_total r); reflexivity). rewrite (sum_total (map (fun row => (M_ActionValue.sum row / len N')%Q) ex)), <- M. reflexivity. }
    destruct weights as [ws|]; unfold weighted.
    + rewrite V2 by congruence. apply reduced_ext. revert G. generalize (map (fun e => number N * e)%Q (map mean12 elt)). clear. revert ws. induction elt as [|ex elt IH]; intros ws l G; inversion G; subst; cbn [combine map]; [constructor|].
      destruct ws as [|w ws]; cbn [combine map fst snd]; constructor; [|apply IH; assumption]. cbn beta in *. rewrite H1. reflexivity.
    + rewrite V1. apply reduced_ext. exact G.
Qed.

(** Two atoms 0 and 1; a one-step and a two-step experience; predictions of two actions.  Target distributions: all return 1/2 shared between the
    atoms, and 3/4 and 1/4. *)
Definition etr (s a : nat) (r : Q) (tm : bool) : trans (exper nat nat) := mkTrans (mkEx s a r (Datatypes.S s) None) tm.
Definition eexps : list (list (trans (exper nat nat))) := [[etr 1 0 (1 # 2) true]; [etr 1 1 0 false; etr 2 0 (1 # 4) true]].
Definition emodel (s : nat) : list (list Q) := [[1 # 2; 1 # 2]; [1 # 4; 3 # 4]]%Q.
Lemma emodel_ok s : emodel s <> [] /\ Forall (distribution 2) (emodel s).
Proof. split; [discriminate|]. repeat constructor; try discriminate. Qed.
Example C122_ex : exists b, batch_experiences 1 eexps = Ok b /\
  rmap (fun p => (fst p, map (map Qred) (snd p))) (cat_y_and_t false emodel emodel (atoms 0 1 2) b) = Ok ([[1 # 2; 1 # 2]; [1 # 4; 3 # 4]], [[1 # 2; 1 # 2]; [3 # 4; 1 # 4]])%Q /\
  (exists loss errors, cat_compute_loss false emodel emodel (atoms 0 1 2) b (Some [1; 2]%Q) true (Some [5%R]) = Ok (loss, Some errors) /\ length errors = 2 /\ loss = Rreduced true (Rweighted (Some [1; 2]%Q) errors)) /\
  (cross_entropy [1 # 2; 1 # 2] [1 # 2; 1 # 2] = entropy [1 # 2; 1 # 2])%Q /\ (entropy [1 # 2; 1 # 2]%Q < cross_entropy [1 # 2; 1 # 2]%Q [1 # 4; 3 # 4]%Q)%R.
Proof.
  destruct (C122_categorical_dqn 1 0 1 2 eexps emodel emodel) as (b & Eb & H).
  { repeat constructor; discriminate. } { lia. } { reflexivity. } { exact emodel_ok. } { intros s. apply emodel_ok. }
  { apply Forall_forall. intros w [<-|[<-|[]]] s a s' (f & l & i & r & E1 & _ & _ & -> & _); injection E1 as <- _; cbn; lia. }
  exists b. split; [exact Eb|]. split; [|split; [|split]].
  - vm_compute in Eb. injection Eb as <-. vm_compute. reflexivity.
  - destruct (H (Some [1; 2]%Q) true (Some [5%R]) eq_refl) as (loss & errors & E & F & EL). exists loss, errors. split; [exact E|]. split; [symmetry; exact (Forall2_len _ _ _ F)|exact EL].
  - assert (D : distribution 2 [1 # 2; 1 # 2]%Q) by (exact (Forall_inv (proj2 (emodel_ok 0)))). apply (proj2 (C122_minimum 2 _ _ D D)).
    + intros [|[|j]] Hj _; [discriminate|discriminate|lia].
    + repeat constructor; reflexivity.
  - assert (D : distribution 2 [1 # 2; 1 # 2]%Q) by (exact (Forall_inv (proj2 (emodel_ok 0)))). assert (D2 : distribution 2 [1 # 4; 3 # 4]%Q) by (exact (Forall_inv (Forall_inv_tail (proj2 (emodel_ok 0))))).
    destruct (proj2 (C122_minimum 2 _ _ D D2)) as [L1 L2]. { intros [|[|j]] Hj _; [discriminate|discriminate|lia]. }
    destruct L1 as [L1|L1]; [exact L1|]. symmetry in L1. apply L2 in L1. inversion L1 as [|? ? ? ? X]; subst. discriminate X.
Qed.
(** IQN with two thresholds: predictions 1/2 and 1 of the first action against targets 1/2 and 1/2: only one of the predictions is off. *)
Example C122_ex_iqn : exists b, batch_experiences 1 [[etr 1 0 (1 # 2) true]] = Ok b /\
  rmap (fun p => (Qred (fst p), option_map (map Qred) (snd p))) (iqn_compute_loss (fun s taus => map (fun t => [2 * t; 0]%Q) taus) (fun s taus => map (fun t => [t; 0]%Q) taus) 2 2 [[1 # 4; 1 # 2]]%Q [[1 # 4]]%Q [[1 # 4; 1 # 2]]%Q b None true (Some [7%Q])) =
    Ok (1 # 16, Some [1 # 32])%Q.
Proof. eexists. split; [vm_compute; reflexivity|]. vm_compute. reflexivity. Qed.

Print Assumptions C122_categorical_dqn.
Print Assumptions C122_categorical_double_dqn.
Print Assumptions C122_minimum.
Print Assumptions C122_iqn.
