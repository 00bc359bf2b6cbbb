(** C99: nothing is learned from what follows a terminal state. *)
From Coq Require Import QArith Qminmax Lqa.
From Verif Require Import Base P_Base M_ReplayBuffer M_Batch S_Batch P_Batch M_ActionValue M_Targets S_Targets P_Targets M_Categorical S_Categorical P_Categorical M_PAL.
Open Scope nat_scope.

(** Two lists agree except where the terminal flag is 1. *)
Inductive agree {X} : list Q -> list X -> list X -> Prop :=
| agree_nil : agree [] [] []
| agree_cons tm tms x x' l l' : ((tm == 1)%Q \/ x = x') -> agree tms l l' -> agree (tm :: tms) (x :: l) (x' :: l').
(** Two batches that are equal except for the next states of the examples whose window ended in a terminal state. *)
Definition same_but_after_terminal {S A} (b b' : batch S A) : Prop :=
  b_state b' = b_state b /\ b_action b' = b_action b /\ b_reward b' = b_reward b /\ b_terminal b' = b_terminal b /\ b_discount b' = b_discount b /\
  agree (b_terminal b) (b_next_state b) (b_next_state b').
(** Two batches of targets (numbers) are equal. *)
Definition equal (r r' : result (list Q)) : Prop := forall ts ts', r = Ok ts -> r' = Ok ts' -> Forall2 Qeq ts ts'.

Lemma agree_map {X Y} (f : X -> Y) tms l l' : agree tms l l' -> agree tms (map f l) (map f l').
Proof. induction 1 as [|tm tms x x' l l' H A IH]; cbn; constructor; [|exact IH]. destruct H as [H| ->]; auto. Qed.
Lemma agree_refl {X} tms (l : list X) : length tms = length l -> agree tms l l.
Proof. revert l. induction tms; intros [|x l] H; try discriminate; constructor; auto. Qed.
Lemma agree_rmapM {X Y} (f : X -> result Y) tms l l' : agree tms l l' -> forall r r', rmapM f l = Ok r -> rmapM f l' = Ok r' -> agree tms r r'.
Proof.
  induction 1 as [|tm tms x x' l l' H A IH]; intros r r' E E'; cbn in E, E'; [injection E as <-; injection E' as <-; constructor|].
  destruct (f x) as [y|] eqn:F; [|discriminate]. destruct (f x') as [y'|] eqn:F'; [|discriminate]. cbn in E, E'.
  destruct (rmapM f l) as [ys|]; [|discriminate]. destruct (rmapM f l') as [ys'|]; [|discriminate]. injection E as <-. injection E' as <-. constructor; [|now apply IH].
  destruct H as [H| ->]; [auto|]. right. congruence.
Qed.
Lemma agree_combine {X Y} tms (l l' : list X) : agree tms l l' -> forall (m m' : list Y), agree tms m m' -> agree tms (combine l m) (combine l' m').
Proof.
  induction 1 as [|tm tms x x' l l' H A IH]; intros m m' B; inversion B as [|? ? y y' k k' H' B']; subst; cbn [combine]; constructor; [|now apply IH].
  destruct H as [H| ->]; [auto|]. destruct H' as [H'| ->]; auto.
Qed.
Lemma agree_len {X} tms (l l' : list X) : agree tms l l' -> length l = length tms /\ length l' = length tms.
Proof. induction 1 as [|? ? ? ? ? ? ? ? [A B]]; cbn; lia. Qed.
Lemma bellman_agree : forall rs ds tms q q', agree tms q q' -> Forall2 Qeq (bellman rs ds tms q) (bellman rs ds tms q').
Proof.
  induction rs as [|r rs IH]; intros ds tms q q' A; [constructor|]. destruct ds as [|d ds]; [constructor|]. inversion A as [|tm tms' x x' l l' H A']; subst; [constructor|].
  cbn [bellman]. constructor; [|now apply IH]. destruct H as [H| ->]; [|reflexivity]. rewrite H. ring.
Qed.
Lemma Forall2_add_scaled alpha a a' : Forall2 Qeq a a' -> forall b, Forall2 Qeq (add_scaled alpha a b) (add_scaled alpha a' b).
Proof. unfold add_scaled. induction 1 as [|x x' a a' H F IH]; intros [|y b]; cbn [combine map]; constructor; [cbn; now rewrite H|apply IH]. Qed.

Ltac fields H := destruct H as (E1 & E2 & E3 & E4 & E5 & AG).
Ltac okb H := match type of H with rbind ?e _ = _ => let E := fresh "E" in destruct e eqn:E; [cbn [rbind] in H|discriminate H] end.

(** DQN, Double DQN, advantage learning and dynamic policy programming. *)
Theorem C99_discrete_partial {S : Type} (model target_model : S -> list Q) alpha l_operator (b b' : batch S nat) : same_but_after_terminal b b' ->
  equal (dqn_target target_model b) (dqn_target target_model b') /\
  equal (double_dqn_target model target_model b) (double_dqn_target model target_model b') /\
  equal (al_target alpha target_model b) (al_target alpha target_model b') /\
  equal (dpp_target l_operator target_model b) (dpp_target l_operator target_model b').
Proof.
  intros H. fields H. pose proof (agree_map target_model _ _ _ AG) as AT. pose proof (agree_map model _ _ _ AG) as AM.
  repeat split; intros ts ts' R R'.
  - unfold dqn_target in *. okb R. okb R'. injection R as <-. injection R' as <-. rewrite E3, E4, E5. apply bellman_agree. eapply agree_rmapM; [exact AT|eassumption|eassumption].
  - unfold double_dqn_target in *. okb R. okb R. okb R'. okb R'. injection R as <-. injection R' as <-. rewrite E3, E4, E5. apply bellman_agree.
    eapply agree_rmapM; [|eassumption|eassumption]. apply agree_combine; [exact AT|]. eapply agree_rmapM; [exact AM|eassumption|eassumption].
  - unfold al_target in *. rewrite E1, E2 in R'. okb R. okb R. okb R'. injection R as <-. injection R' as <-. rewrite E3, E4, E5.
    apply Forall2_add_scaled. apply bellman_agree. eapply agree_rmapM; [exact AT|eassumption|eassumption].
  - unfold dpp_target in *. rewrite E1, E2 in R'. okb R. okb R. okb R. cbn [rbind] in R'. okb R'. injection R as <-. injection R' as <-. rewrite E3, E4, E5.
    match goal with |- Forall2 _ (map _ (combine (combine _ ?x) _)) (map _ (combine (combine _ ?y) _)) => assert (B : Forall2 Qeq x y) by (apply bellman_agree; eapply agree_rmapM; [exact AT|eassumption|eassumption]); revert B; generalize x y end.
    clear. intros x y B. revert a a0. induction B as [|u v x y H F IH]; intros [|p a] [|q a0]; cbn [combine map]; try constructor; [now rewrite H|apply IH].
Qed.

(** DDPG, TD3 and soft actor-critic; the next actions (and their log-probabilities) of such examples do not matter either. *)
Theorem C99_continuous_partial {S A : Type} (q q1 q2 : S -> A -> Q) gamma temperature (acts acts' : list A) (samples samples' : list (A * Q)) (b b' : batch S A) : same_but_after_terminal b b' ->
  agree (b_terminal b) acts acts' -> agree (b_terminal b) samples samples' ->
  Forall2 Qeq (ddpg_target gamma q acts b) (ddpg_target gamma q acts' b') /\
  Forall2 Qeq (td3_target q1 q2 acts b) (td3_target q1 q2 acts' b') /\
  Forall2 Qeq (sac_target q1 q2 temperature samples b) (sac_target q1 q2 temperature samples' b').
Proof.
  intros H AA AS. fields H. pose proof (agree_combine _ _ _ AG _ _ AA) as C. pose proof (agree_combine _ _ _ AG _ _ AS) as CS.
  unfold ddpg_target, td3_target, sac_target. rewrite E3, E4, E5. repeat split; apply bellman_agree; repeat first [assumption | apply agree_map | apply agree_combine].
Qed.

(** Implicit quantile networks; thresholds of such examples do not matter either. *)
Theorem C99_quantile_partial {S A : Type} (target_model : S -> list Q -> list (list Q)) taus taus' tp tp' n nA (b b' : batch S A) ts ts' : same_but_after_terminal b b' ->
  agree (b_terminal b) taus taus' -> agree (b_terminal b) tp tp' -> Forall (fun t => length t = n) tp -> Forall (fun t => length t = n) tp' ->
  (forall s t, length (target_model s t) = length t /\ Forall (fun row => length row = nA) (target_model s t)) ->
  iqn_target target_model taus tp b = Ok ts -> iqn_target target_model taus' tp' b' = Ok ts' -> Forall2 (Forall2 Qeq) ts ts'.
Proof.
  intros H AT AP N N' SH R R'. fields H. unfold iqn_target in *. okb R. okb R. okb R'. okb R'. injection R as <-. injection R' as <-. rewrite E3, E4, E5.
  pose proof (agree_combine _ _ _ AG _ _ AT) as C. pose proof (agree_combine _ _ _ AG _ _ AP) as CP.
  assert (AGR : agree (b_terminal b) a a1) by (eapply agree_rmapM; [|eassumption|eassumption]; now apply agree_map).
  assert (AZ : agree (b_terminal b) a0 a2) by (eapply agree_rmapM; [|eassumption|eassumption]; apply agree_combine; [now apply agree_map|exact AGR]).
  assert (LN : forall {ns g z tpl}, Forall (fun t => length t = n) tpl -> rmapM (fun p => evaluate_action_as_quantiles (fst p) (snd p)) (combine (map (fun p => target_model (fst p) (snd p)) (combine ns tpl)) g) = Ok z -> Forall (fun r => length r = n) z).
  { clear - SH. intros ns g z tpl F E. revert g z tpl F E. induction ns as [|s ns IH]; intros g z tpl F E.
    - cbn in E. injection E as <-. constructor.
    - destruct tpl as [|t tpl]; [cbn in E; injection E as <-; constructor|]. destruct g as [|i g]; [cbn in E; injection E as <-; constructor|]. inversion F; subst. cbn [combine map rmapM fst snd] in E. okb E. okb E. injection E as <-. constructor; [|eapply IH; eassumption].
      unfold evaluate_action_as_quantiles in E0. destruct (_ <? _) in E0; [|discriminate]. injection E0 as <-. unfold column. rewrite map_length. apply SH. }
  pose proof (LN _ _ _ _ N E0) as L1. pose proof (LN _ _ _ _ N' E7) as L2. clear - AZ L1 L2.
  generalize (b_reward b) as rs, (b_discount b) as ds. revert L1 L2. induction AZ as [|tm tms x x' l l' H AZ IH]; intros L1 L2 rs ds.
  - destruct rs, ds; cbn; constructor.
  - inversion L1 as [|? ? X1 L1']; inversion L2 as [|? ? X2 L2']; clear L1 L2; subst x0 l0 x1 l1. destruct rs as [|r rs]; [constructor|]. destruct ds as [|d ds]; [constructor|]. cbn [combine map]. constructor; [|now apply IH].
    destruct H as [H| ->]; [|clear; induction x'; cbn; constructor; [reflexivity|assumption]].
    clear - H X1 X2. revert x' n X1 X2. induction x as [|u x IHx]; intros [|u' x'] m L L'; cbn in *; subst; try discriminate; constructor; [rewrite H; ring|]. eapply IHx; [reflexivity|]. congruence.
Qed.

(** Categorical DQN and categorical Double DQN, for networks that return probability distributions. *)
Lemma mean_const p : forall l k, length l = length p -> Forall (fun c => (c == k)%Q) l -> (mean_of p l == total p * k)%Q.
Proof.
  induction p as [|x p IH]; intros [|c l] k L F; try discriminate; cbn [mean_of total]; [ring|]. inversion F; subst. rewrite IH with (k := k); [|cbn in L; lia|assumption]. rewrite H1. ring.
Qed.
Lemma nearest_eq lo hi x x' c c' : (x == x')%Q -> nearest_in lo hi x c -> nearest_in lo hi x' c' -> (c == c')%Q.
Proof.
  intros E (B & M & L & H) (B' & M' & L' & H').
  destruct (Qlt_le_dec x lo) as [Q1|Q1]; [rewrite (L Q1), L'; [reflexivity|now rewrite <- E]|].
  destruct (Qlt_le_dec hi x) as [Q2|Q2]; [rewrite (H Q2), H'; [reflexivity|now rewrite <- E]|].
  rewrite M by (split; assumption). rewrite M'; [exact E|]. rewrite <- E. split; assumption.
Qed.
Lemma project_terminal v_min delta n r d tm (p p' t t' : list Q) : 2 <= n -> (0 < delta)%Q -> (tm == 1)%Q -> length p = n -> length p' = n -> (total p == total p')%Q ->
  apply_categorical_projection (shifted_atoms r d tm (atoms v_min delta n)) p (atoms v_min delta n) = Ok t ->
  apply_categorical_projection (shifted_atoms r d tm (atoms v_min delta n)) p' (atoms v_min delta n) = Ok t' -> Forall2 Qeq t t'.
Proof.
  intros N D T L L' TS E E'. set (z := atoms v_min delta n) in *.
  assert (LZ : length (shifted_atoms r d tm z) = n) by (unfold shifted_atoms, z, atoms; now rewrite !map_length, seq_length).
  destruct (project_spec v_min delta n (shifted_atoms r d tm z) p N D LZ L) as (t1 & c & E1 & LT & F & SH & _). fold z in E1. rewrite E in E1. injection E1 as <-.
  destruct (project_spec v_min delta n (shifted_atoms r d tm z) p' N D LZ L') as (t1 & c' & E1 & LT' & F' & SH' & _). fold z in E1. rewrite E' in E1. injection E1 as <-.
  remember (v_min + delta * inject_Z (Z.of_nat (n - 1)))%Q as hi eqn:HI. clear HI.
  assert (Y : Forall (fun y => (y == r)%Q) (shifted_atoms r d tm z)) by (unfold shifted_atoms; apply Forall_map, Forall_forall; intros x _; rewrite T; ring).
  assert (K : exists k, Forall (fun x => (x == k)%Q) c /\ Forall (fun x => (x == k)%Q) c').
  { destruct (shifted_atoms r d tm z) as [|y ys]; [cbn in LZ; lia|]. destruct c as [|k c]; [inversion F|]. inversion F as [|? ? ? ? N0 F0]; subst. inversion Y as [|? ? Y0 YS]; subst.
    assert (G : forall ys c, Forall (fun y => (y == r)%Q) ys -> Forall2 (nearest_in v_min hi) ys c -> Forall (fun x => (x == k)%Q) c).
    { clear - N0 Y0. intros ys c YS F. revert YS. induction F as [|y' c' ys cs N F IH]; intros YS; constructor; inversion YS; subst; [|auto]. eapply nearest_eq; [|exact N|exact N0]. now rewrite H1. }
    exists k. split; apply (G (y :: ys)); assumption. }
  destruct K as (k & K & K').
  assert (LC : length c = n) by (rewrite <- LZ; symmetry; clear - F; induction F; cbn; congruence).
  assert (LC' : length c' = n) by (rewrite <- LZ; symmetry; clear - F'; induction F'; cbn; congruence).
  assert (P : forall j, j < n -> (nth j t 0 == nth j t' 0)%Q).
  { intros j J. rewrite SH, SH' by exact J.
    assert (HS : forall l, Forall (fun x => (x == k)%Q) l -> Forall (fun x => (x == share delta (k - nth j (atoms v_min delta n) 0))%Q) (map (fun c => share delta (c - nth j (atoms v_min delta n) 0)%Q) l)).
    { intros l. induction 1 as [|x l X FL IH]; cbn; constructor; [|exact IH]. unfold share. rewrite X. reflexivity. }
    rewrite (mean_const p _ _ (eq_trans (map_length _ c) (eq_trans LC (eq_sym L))) (HS c K)), (mean_const p' _ _ (eq_trans (map_length _ c') (eq_trans LC' (eq_sym L'))) (HS c' K')), TS. reflexivity. }
  clear - LT LT' P. revert t t' LT LT' P. induction n as [|n IH]; intros [|x t] [|x' t'] L L' P; try discriminate; constructor; [apply (P 0); lia|]. apply IH; [cbn in *; lia|cbn in *; lia|].
  intros j J. apply (P (S j)). lia.
Qed.
Lemma rmapM_dist (P : list Q -> Prop) z l r : Forall (fun q => Forall P q) l -> rmapM (fun q => max_as_distribution q z) l = Ok r -> Forall P r.
Proof.
  intros F. revert r. induction F as [|q l H F IH]; intros r E; cbn [rmapM] in E; [injection E as <-; constructor|]. okb E. okb E. injection E as <-. constructor; [|now apply IH].
  unfold max_as_distribution in E0. okb E0. unfold gather in E0. destruct (nth_error q a1) eqn:N; [|discriminate]. injection E0 as <-. rewrite Forall_forall in H. apply H. apply nth_error_In in N. exact N.
Qed.
Lemma rmapM_dist2 (P : list Q -> Prop) l g r : Forall (fun q => Forall P q) l -> rmapM (fun p => evaluate_action_as_distribution (fst p) (snd p)) (combine l g) = Ok r -> Forall P r.
Proof.
  intros F. revert g r. induction F as [|q l H F IH]; intros g r E; [cbn in E; injection E as <-; constructor|]. destruct g as [|i g]; [cbn in E; injection E as <-; constructor|].
  cbn [combine rmapM fst snd] in E. okb E. okb E. injection E as <-. constructor; [|eapply IH; eassumption].
  unfold evaluate_action_as_distribution, gather in E0. destruct (nth_error q i) eqn:N; [|discriminate]. injection E0 as <-. rewrite Forall_forall in H. apply H. apply nth_error_In in N. exact N.
Qed.
Theorem C99_categorical_partial {S A : Type} (model target_model : S -> list (list Q)) v_min delta n (b b' : batch S A) ts ts' ds ds' : same_but_after_terminal b b' ->
  2 <= n -> (0 < delta)%Q -> (forall s, Forall (fun d => length d = n /\ (total d == 1)%Q) (target_model s)) ->
  (categorical_target target_model (atoms v_min delta n) b = Ok ts -> categorical_target target_model (atoms v_min delta n) b' = Ok ts' -> Forall2 (Forall2 Qeq) ts ts') /\
  (categorical_double_target model target_model (atoms v_min delta n) b = Ok ds -> categorical_double_target model target_model (atoms v_min delta n) b' = Ok ds' -> Forall2 (Forall2 Qeq) ds ds').
Proof.
  intros H N D SH. fields H. pose proof (agree_map target_model _ _ _ AG) as AT. pose proof (agree_map model _ _ _ AG) as AM.
  assert (FT : forall l, Forall (fun q => Forall (fun d => length d = n /\ (total d == 1)%Q) q) (map target_model l)) by (intros; apply Forall_map, Forall_forall; intros; apply SH).
  assert (PR : forall x x' r r', agree (b_terminal b) x x' -> Forall (fun d => length d = n /\ (total d == 1)%Q) x -> Forall (fun d => length d = n /\ (total d == 1)%Q) x' ->
     project_rows b x (atoms v_min delta n) = Ok r -> project_rows b' x' (atoms v_min delta n) = Ok r' -> Forall2 (Forall2 Qeq) r r').
  { unfold project_rows. rewrite E3, E4, E5. generalize (b_reward b) as rs, (b_discount b) as dc. intros rs dc x x' r r' AA. clear - AA N D. revert rs dc r r'.
    induction AA as [|tm tms x x' l l' H A' IH]; intros rs dc r r' F F' E E'.
    - destruct rs, dc; cbn in E, E'; injection E as <-; injection E' as <-; constructor.
    - destruct rs as [|r0 rs]; [cbn in E, E'; injection E as <-; injection E' as <-; constructor|]. destruct dc as [|d0 dc]; [cbn in E, E'; injection E as <-; injection E' as <-; constructor|].
      inversion F as [|? ? [L1 T1] F1]; subst. inversion F' as [|? ? [L2 T2] F2]; subst. cbn [combine rmapM] in E, E'. okb E. okb E. okb E'. okb E'. injection E as <-. injection E' as <-.
      constructor; [|eapply IH; eassumption]. destruct H as [H| ->].
      + eapply (project_terminal v_min delta (length x) r0 d0 tm x x'); try eassumption; try reflexivity. now rewrite T1, T2.
      + replace a1 with a by congruence. clear. induction a; constructor; [reflexivity|assumption]. }
  split; intros R R'.
  - unfold categorical_target in *. okb R. okb R'. eapply (PR a a0); [eapply agree_rmapM; [exact AT|eassumption|eassumption]| | |exact R|exact R'].
    + eapply rmapM_dist; [|exact E]. apply FT.
    + eapply rmapM_dist; [|exact E0]. apply FT.
  - unfold categorical_double_target in *. okb R. okb R. okb R'. okb R'. eapply (PR a0 a2); [| | |exact R|exact R'].
    + eapply agree_rmapM; [|eassumption|eassumption]. apply agree_combine; [exact AT|]. eapply agree_rmapM; [exact AM|eassumption|eassumption].
    + eapply rmapM_dist2; [|exact E0]. apply FT.
    + eapply rmapM_dist2; [|exact E7]. apply FT.
Qed.

(** False for persistent advantage learning (PAL, DoublePAL): the advantage in the next state enters the target although the episode is over. *)
Definition b1 (s' : nat) : batch nat nat := mkBatch [0] [0] [1%Q] [s'] [1%Q] [1%Q] None.
Definition net (s : nat) : list Q := match s with 1 => [0; 1]%Q | 2 => [1; 0]%Q | _ => [0; 3]%Q end.
Theorem C99_every_target_refuted : exists (b b' : batch nat nat) (q : nat -> list Q) alpha, same_but_after_terminal b b' /\ (0 < alpha)%Q /\ (alpha < 1)%Q /\
  ~ equal (pal_target alpha q b) (pal_target alpha q b') /\ ~ equal (double_pal_target alpha q q b) (double_pal_target alpha q q b').
Proof.
  exists (b1 1), (b1 2), net, (1 # 2)%Q. split; [|split; [reflexivity|split; [reflexivity|split]]].
  - repeat split. cbn. constructor; [left; reflexivity|constructor].
  - intros H. specialize (H _ _ eq_refl eq_refl). vm_compute in H. inversion H as [|? ? ? ? Q]. discriminate Q.
  - intros H. specialize (H _ _ eq_refl eq_refl). vm_compute in H. inversion H as [|? ? ? ? Q]. discriminate Q.
Qed.
(** What holds for them: non-terminal examples aside, the difference comes from that advantage alone; DoublePAL's operator per example. *)
Theorem C99_double_pal_partial {S : Type} alpha (model target_model : S -> list Q) (b : batch S nat) ts : double_pal_target alpha model target_model b = Ok ts ->
  forall i s a r s' tm d, nth_error (b_state b) i = Some s -> nth_error (b_action b) i = Some a -> nth_error (b_reward b) i = Some r -> nth_error (b_next_state b) i = Some s' ->
    nth_error (b_terminal b) i = Some tm -> nth_error (b_discount b) i = Some d ->
    exists t g m m' q q' v, nth_error ts i = Some t /\ is_argmax (model s') g /\ nth_error (target_model s') g = Some v /\ is_max (target_model s) m /\ is_max (target_model s') m' /\
      nth_error (target_model s) a = Some q /\ nth_error (target_model s') a = Some q' /\ (t == r + d * (1 - tm) * v + alpha * Qmax (q - m) (q' - m'))%Q.
Proof.
  unfold double_pal_target. intros R i s a r s' tm d HS HA HR HN HT HD. okb R. okb R. okb R. okb R. injection R as <-.
  assert (GET : forall {X Y} (f : X -> result Y) l r i x, rmapM f l = Ok r -> nth_error l i = Some x -> exists y, f x = Ok y /\ nth_error r i = Some y).
  { clear. intros X Y f. induction l as [|x l IH]; intros r i x0 E H; [destruct i; discriminate|]. cbn in E. okb E. okb E. injection E as <-. destruct i as [|i]; cbn in H; [injection H as <-; exists a; auto|].
    apply (IH a0 i x0 eq_refl H). }
  assert (COMB : forall {X Y} (l : list X) (m : list Y) i x y, nth_error l i = Some x -> nth_error m i = Some y -> nth_error (combine l m) i = Some (x, y)).
  { clear. intros X Y. induction l as [|x l IH]; intros m i x0 y0 H H'; [destruct i; discriminate|]. destruct m as [|y m]; [destruct i; discriminate|]. destruct i; cbn in *; [congruence|]. now apply IH. }
  assert (NM : forall (f : S -> list Q) l x, nth_error l i = Some x -> nth_error (map f l) i = Some (f x)) by (intros; rewrite nth_error_map, H; reflexivity).
  destruct (GET _ _ _ _ _ i _ E (NM model _ _ HN)) as (g & G1 & G2).
  destruct (GET _ _ _ _ _ i _ E0 (COMB _ _ _ _ i _ _ (NM target_model _ _ HN) G2)) as (v & V1 & V2). cbn [fst snd] in V1.
  destruct (GET _ _ _ _ _ i _ E1 (COMB _ _ _ _ i _ _ (NM target_model _ _ HS) HA)) as (c & C1 & C2). cbn [fst snd] in C1.
  destruct (GET _ _ _ _ _ i _ E2 (COMB _ _ _ _ i _ _ (NM target_model _ _ HN) HA)) as (c' & D1 & D2). cbn [fst snd] in D1.
  assert (ADV : forall q c, compute_advantage q a = Ok c -> exists m x, is_max q m /\ nth_error q a = Some x /\ c = (x - m)%Q).
  { intros q c0 A. unfold compute_advantage, evaluate_action, gather in A. destruct (nth_error q a) as [x|] eqn:N; [|discriminate]. cbn [rbind] in A.
    destruct (max_ok q) as (m & M1 & M2). { intros ->. destruct a; discriminate. } rewrite M1 in A. injection A as <-. exists m, x. auto. }
  destruct (ADV _ _ C1) as (m & q & M & NQ & ->). destruct (ADV _ _ D1) as (m' & q' & M' & NQ' & ->).
  assert (GA : is_argmax (model s') g).
  { unfold greedy_action in G1. destruct (argmax_ok (model s')) as (g' & A1 & A2). { intros Z. rewrite Z in G1. discriminate. } rewrite A1 in G1. injection G1 as <-. exact A2. }
  assert (BE : forall rs ds tms nq i r d tm v, nth_error rs i = Some r -> nth_error ds i = Some d -> nth_error tms i = Some tm -> nth_error nq i = Some v -> nth_error (bellman rs ds tms nq) i = Some (r + d * (1 - tm) * v)%Q).
  { clear. induction rs as [|r0 rs IH]; intros ds tms nq i r d tm v H1 H2 H3 H4; [destruct i; discriminate|]. destruct ds; [destruct i; discriminate|]. destruct tms; [destruct i; discriminate|]. destruct nq; [destruct i; discriminate|].
    destruct i; cbn in *; [congruence|]. now apply IH. }
  eexists _, g, m, m', q, q', v. split.
  { unfold add_scaled. rewrite nth_error_map. rewrite (COMB _ _ _ _ i _ _ (BE _ _ _ _ i _ _ _ _ HR HD HT V2) (eq_trans (nth_error_map _ _ _) (f_equal _ (COMB _ _ _ _ i _ _ C2 D2)))). reflexivity. }
  split; [exact GA|]. split; [unfold evaluate_action, gather in V1; destruct (nth_error (target_model s') g); [congruence|discriminate]|].
  split; [exact M|]. split; [exact M'|]. split; [exact NQ|]. split; [exact NQ'|]. reflexivity.
Qed.

(** Two examples, the first one terminal; only its next state differs. *)
Definition b2 (s' : nat) : batch nat nat := mkBatch [0; 1] [0; 1] [1; 2]%Q [s'; 2] [1; 0]%Q [1; 1]%Q None.
Example C99_ex : same_but_after_terminal (b2 1) (b2 2) /\ rmap (map Qred) (dqn_target net (b2 1)) = Ok [1; 3]%Q /\ rmap (map Qred) (dqn_target net (b2 2)) = Ok [1; 3]%Q.
Proof. split; [repeat split; cbn; repeat constructor; left; reflexivity|]. split; reflexivity. Qed.
Print Assumptions C99_discrete_partial.
Print Assumptions C99_continuous_partial.
Print Assumptions C99_quantile_partial.
Print Assumptions C99_categorical_partial.
Print Assumptions C99_every_target_refuted.
Print Assumptions C99_double_pal_partial.
