(** C139: lower losses mean better policies for DDPG, TD3 and SAC; the temperature moves towards the wanted entropy. *)
From Coq Require Import Reals QArith Qreals Lra.
From Verif Require Import Base M_Boltzmann M_PolicyLoss S_ValueIteration S_PolicyEvaluation S_PolicyImprovement P_PolicyEvaluation P_PolicyImprovement C138.
Close Scope Q_scope. Close Scope R_scope. Open Scope nat_scope.

(** SAC.  Critics within [eps] of what the old policy is worth; at every state the expected loss of the new policy is at most [slack] above that of the old one: then the new policy is worth at
    least as much for every state and action, up to gamma (2 eps + slack) / (1 - gamma) (nothing for exact critics and slack 0). *)
Theorem C139_soft_improves D gamma temperature pi pi' U U' q1 q2 eps slack : well_formed D -> (0 <= gamma < 1)%Q -> proper D (listed D pi) -> proper D (listed D pi') ->
  worth D gamma (listed D pi) (entropy_charge temperature pi) U -> worth D gamma (listed D pi') (entropy_charge temperature pi') U' ->
  near D q1 U eps -> near D q2 U eps -> (0 <= 2 * eps + slack)%R ->
  (forall s, s < states D -> (expected_soft D temperature pi' q1 q2 s <= expected_soft D temperature pi q1 q2 s + slack)%R) ->
  forall s a, s < states D -> a <= last_action D -> (U s a - Q2R gamma * (2 * eps + slack) / (1 - Q2R gamma) <= U' s a)%R.
Proof.
  intros W Hg P P' HU HU' H1 H2 Hc H. apply (improve D W gamma (C138_gamma _ Hg) _ _ P P' _ _ U U' _ HU HU' eps slack (near_min D q1 q2 U eps H1 H2) Hc).
  intros s Hs. specialize (H s Hs). now rewrite !soft_worth in H.
Qed.
(** If no policy has a loss lower by more than [slack] at any state, then no policy is worth more, up to the same error. *)
Theorem C139_soft_optimal D gamma temperature pi U q1 q2 eps slack : well_formed D -> (0 <= gamma < 1)%Q -> proper D (listed D pi) ->
  worth D gamma (listed D pi) (entropy_charge temperature pi) U -> near D q1 U eps -> near D q2 U eps -> (0 <= 2 * eps + slack)%R ->
  (forall pi' s, proper D (listed D pi') -> s < states D -> (expected_soft D temperature pi q1 q2 s <= expected_soft D temperature pi' q1 q2 s + slack)%R) ->
  forall pi' U', proper D (listed D pi') -> worth D gamma (listed D pi') (entropy_charge temperature pi') U' ->
  forall s a, s < states D -> a <= last_action D -> (U' s a <= U s a + Q2R gamma * (2 * eps + slack) / (1 - Q2R gamma))%R.
Proof.
  intros W Hg P HU H1 H2 Hc H pi' U' P' HU'. apply (no_better D W gamma (C138_gamma _ Hg) _ _ P P' _ _ U U' _ HU HU' eps slack (near_min D q1 q2 U eps H1 H2) Hc).
  intros s Hs. specialize (H pi' s P' Hs). now rewrite !soft_worth in H.
Qed.
(** The loss at a state is smallest for the policy that draws by the softmax of the smaller critic divided by the temperature. *)
Theorem C139_softmax D temperature q1 q2 pi s : (0 < temperature)%R -> s < states D -> proper D (listed D pi) ->
  let e := fun s a => exp (Rmin (q1 s a) (q2 s a) / temperature) in
  let best := fun s a => (e s a / sumR (map (e s) (seq 0 (S (last_action D)))))%R in
  proper D (listed D best) /\ (expected_soft D temperature best q1 q2 s <= expected_soft D temperature pi q1 q2 s)%R /\
  expected_soft D temperature best q1 q2 s = (- (temperature * ln (sumR (map (e s) (seq 0 (S (last_action D)))))))%R.
Proof.
  intros Ht Hs P e best. assert (HZ : forall s, (0 < sumR (map (e s) (seq 0 (S (last_action D)))))%R) by (intros s'; apply (exps_pos (fun a => Rmin (q1 s' a) (q2 s' a) / temperature)%R); discriminate).
  assert (PB : proper D (listed D best)).
  { intros s' _. unfold listed, best. split; [rewrite (weights_sum _ (e s')) by (specialize (HZ s'); lra); field; specialize (HZ s'); lra|]. apply Forall_map, Forall_forall. intros a Ha. apply in_seq in Ha. cbn [fst snd]. split; [|lia].
    left. apply Rmult_lt_0_compat; [apply exp_pos|apply Rinv_0_lt_compat, HZ]. }
  assert (E : expected_soft D temperature best q1 q2 s = (- (temperature * ln (sumR (map (e s) (seq 0 (S (last_action D)))))))%R).
  { rewrite soft_worth. f_equal. unfold state_worth, entropy_charge, listed. destruct (PB s Hs) as [P1 _]. unfold listed in P1. specialize (HZ s). unfold best, e in *.
    rewrite (gibbs_eq temperature _ (fun a => Rmin (q1 s a) (q2 s a)) _ Ht HZ). rewrite P1. ring. }
  split; [exact PB|split; [|exact E]]. rewrite E, soft_worth. apply Ropp_le_contravar. unfold state_worth, entropy_charge, listed. destruct (P s Hs) as [P1 P2]. unfold listed in P1, P2. specialize (HZ s). unfold e in *.
  pose proof (gibbs temperature _ (pi s) (fun a => Rmin (q1 s a) (q2 s a)) (seq 0 (S (last_action D))) Ht HZ) as G. rewrite P1 in G. cbn beta in G. eapply Rle_trans; [apply G|].
  - intros a Ha. rewrite Forall_map, Forall_forall in P2. exact (proj1 (P2 a Ha)).
  - right. field. lra.
Qed.

(** DDPG and TD3: the same for the loss -q (no charge for the choices). *)
Theorem C139_neg_q_improves D gamma pi pi' U U' q eps slack : well_formed D -> (0 <= gamma < 1)%Q -> proper D (listed D pi) -> proper D (listed D pi') ->
  worth D gamma (listed D pi) free U -> worth D gamma (listed D pi') free U' -> near D q U eps -> (0 <= 2 * eps + slack)%R ->
  (forall s, s < states D -> (expected_neg_q D pi' q s <= expected_neg_q D pi q s + slack)%R) ->
  forall s a, s < states D -> a <= last_action D -> (U s a - Q2R gamma * (2 * eps + slack) / (1 - Q2R gamma) <= U' s a)%R.
Proof.
  intros W Hg P P' HU HU' H1 Hc H. apply (improve D W gamma (C138_gamma _ Hg) _ _ P P' _ _ U U' _ HU HU' eps slack H1 Hc). intros s Hs. specialize (H s Hs). now rewrite !neg_q_worth in H.
Qed.
Theorem C139_neg_q_optimal D gamma pi U q eps slack : well_formed D -> (0 <= gamma < 1)%Q -> proper D (listed D pi) -> worth D gamma (listed D pi) free U -> near D q U eps -> (0 <= 2 * eps + slack)%R ->
  (forall pi' s, proper D (listed D pi') -> s < states D -> (expected_neg_q D pi q s <= expected_neg_q D pi' q s + slack)%R) ->
  forall pi' U', proper D (listed D pi') -> worth D gamma (listed D pi') free U' -> forall s a, s < states D -> a <= last_action D -> (U' s a <= U s a + Q2R gamma * (2 * eps + slack) / (1 - Q2R gamma))%R.
Proof.
  intros W Hg P HU H1 Hc H pi' U' P' HU'. apply (no_better D W gamma (C138_gamma _ Hg) _ _ P P' _ _ U U' _ HU HU' eps slack H1 Hc). intros s Hs. specialize (H pi' s P' Hs). now rewrite !neg_q_worth in H.
Qed.

(** A lower loss on average over the states of a batch is not enough, even with exact critics: in this problem the new policy lowers the loss of the batch of both states, and earns less
    from both.  State 0 leads to state 1, state 1 to itself; action 1 earns 1 in state 0 and costs 9/10 in state 1; gamma = 9/10. *)
Definition C139_D : problem := {| states := 2; last_action := 1; outcomes := fun s a =>
  match s, a with _, 0 => [(1, (0, 1%nat, false))]%Q | 0, _ => [(1, (1, 1%nat, false))]%Q | _, _ => [(1, (- (9 # 10), 1%nat, false))]%Q end |}.
Definition always (b : nat) : nat -> nat -> R := fun _ a => if a =? b then 1%R else 0%R.
Definition C139_U (s a : nat) : R := match s, a with _, 0 => 0%R | 0, _ => 1%R | _, _ => (- (9 / 10))%R end.
Definition C139_U' (s a : nat) : R := match s, a with _, 0 => (- (81 / 10))%R | 0, _ => (- (71 / 10))%R | _, _ => (- 9)%R end.
Lemma C139_cases s a : s < states C139_D -> a <= last_action C139_D -> (s = 0 \/ s = 1) /\ (a = 0 \/ a = 1). Proof. cbn. lia. Qed.
Theorem C139_batch_mean_not_enough :
  well_formed C139_D /\ proper C139_D (listed C139_D (always 0)) /\ proper C139_D (listed C139_D (always 1)) /\
  worth C139_D (9 # 10) (listed C139_D (always 0)) free C139_U /\ worth C139_D (9 # 10) (listed C139_D (always 1)) free C139_U' /\
  (neg_q_loss [C139_U 0 1; C139_U 1 1] < neg_q_loss [C139_U 0 0; C139_U 1 0])%R /\
  forall s, s < 2 -> (state_worth (listed C139_D (always 1)) free C139_U' s < state_worth (listed C139_D (always 0)) free C139_U s)%R.
Proof.
  assert (PP : forall b, b <= 1 -> proper C139_D (listed C139_D (always b))).
  { intros b Hb s _. unfold listed, always. assert (E : b = 0 \/ b = 1) by lia. destruct E as [-> | ->]; cbn; (split; [lra|]); repeat constructor; cbn; lra || lia. }
  split; [|split; [apply PP; lia|split; [apply PP; lia|split; [|split; [|split]]]]].
  - intros s a Hs Ha. destruct (C139_cases s a Hs Ha) as [[-> | ->] [-> | ->]]; (split; [reflexivity|]); repeat constructor; discriminate.
  - intros s a Hs Ha. destruct (C139_cases s a Hs Ha) as [[-> | ->] [-> | ->]]; cbn; unfold free, Q2R; cbn; lra.
  - intros s a Hs Ha. destruct (C139_cases s a Hs Ha) as [[-> | ->] [-> | ->]]; cbn; unfold free, Q2R; cbn; lra.
  - unfold neg_q_loss, mean, sumR, C139_U. cbn. lra.
  - intros s Hs. assert (E : s = 0 \/ s = 1) by lia. destruct E as [-> | ->]; cbn; unfold free; lra.
Qed.

(** The derivative of the temperature's loss is the temperature times the excess of the estimated entropy (the mean of the negated log-probabilities) over the target, so that a step down the
    gradient raises the temperature if the entropy is too low, lowers it if the entropy is too high, and keeps it if the entropy is right. *)
Theorem C139_temperature log_prob entropy_target lt lr : log_prob <> [] -> (0 < lr)%R ->
  let excess := (mean (map Ropp log_prob) - entropy_target)%R in
  exists g, derivable_pt_lim (fun lt => temperature_loss lt log_prob entropy_target) lt g /\ g = (exp lt * excess)%R /\
    ((excess < 0)%R -> (exp lt < exp (lt - lr * g))%R) /\ ((0 < excess)%R -> (exp (lt - lr * g) < exp lt)%R) /\ (excess = 0%R -> exp (lt - lr * g) = exp lt).
Proof.
  intros Hne Hlr excess. assert (Hlen : (INR (length log_prob) <> 0)%R) by (apply not_0_INR; destruct log_prob; [tauto|discriminate]).
  assert (E : forall x, temperature_loss x log_prob entropy_target = (exp x * excess)%R).
  { intros x. unfold temperature_loss, excess, mean. rewrite !map_length. unfold sumR.
    assert (A : fold_right Rplus 0%R (map (fun lp => exp x * (lp + entropy_target))%R log_prob) = (exp x * (fold_right Rplus 0 log_prob + INR (length log_prob) * entropy_target))%R).
    { clear. induction log_prob as [|a l IH]; [cbn; ring|]. cbn [map fold_right]. rewrite IH. cbn [length]. rewrite S_INR. ring. }
    assert (B : fold_right Rplus 0%R (map Ropp log_prob) = (- fold_right Rplus 0 log_prob)%R) by (clear; induction log_prob as [|a l IH]; cbn [map fold_right]; [lra|rewrite IH; ring]).
    rewrite A, B. field. exact Hlen. }
  exists (exp lt * excess)%R. split; [|split; [reflexivity|]].
  - apply (derivable_pt_lim_ext (fun x => exp x * excess)%R); [intros x; symmetry; apply E|]. replace (exp lt * excess)%R with (exp lt * excess + exp lt * 0)%R by ring.
    apply (derivable_pt_lim_mult exp (fun _ => excess)); [apply derivable_pt_lim_exp|apply derivable_pt_lim_const].
  - pose proof (exp_pos lt) as He. repeat split; intros H; [apply exp_increasing|apply exp_increasing|rewrite H]; [| |f_equal; ring].
    + assert (0 < lr * (exp lt * - excess))%R by (apply Rmult_lt_0_compat; [assumption|apply Rmult_lt_0_compat; lra]). lra.
    + assert (0 < lr * (exp lt * excess))%R by (apply Rmult_lt_0_compat; [assumption|now apply Rmult_lt_0_compat]). lra.
Qed.

(** The hypotheses of the improvement theorem, met: in C139_D the policy "action 1 in state 0, action 0 in state 1" has lower losses than "always action 0". *)
Example C139_ex : let pi := fun s a : nat => always (1 - s) s a in
  proper C139_D (listed C139_D pi) /\ (forall s, s < 2 -> (expected_neg_q C139_D pi C139_U s <= expected_neg_q C139_D (always 0) C139_U s + 0)%R) /\ (expected_neg_q C139_D pi C139_U 0 < expected_neg_q C139_D (always 0) C139_U 0)%R.
Proof.
  cbv zeta. split; [|split].
  - intros s Hs. cbn in Hs. assert (E : s = 0 \/ s = 1) by lia. unfold listed, always. destruct E as [-> | ->]; cbn; (split; [lra|]); repeat constructor; cbn; lra || lia.
  - intros s Hs. assert (E : s = 0 \/ s = 1) by lia. destruct E as [-> | ->]; unfold expected_neg_q, neg_q_loss, mean, sumR; cbn; lra.
  - unfold expected_neg_q, neg_q_loss, mean, sumR. cbn. lra.
Qed.

Print Assumptions C139_soft_improves.
Print Assumptions C139_soft_optimal.
Print Assumptions C139_softmax.
Print Assumptions C139_neg_q_improves.
Print Assumptions C139_neg_q_optimal.
Print Assumptions C139_batch_mean_not_enough.
Print Assumptions C139_temperature.
