(** C140: the expected update of REINFORCE and the gradient of the expected return. *)
From Coq Require Import Reals QArith Qreals Lra.
From Verif Require Import Base P_Base M_Reinforce S_Reinforce P_Reinforce S_ValueIteration S_Unbiased S_PolicyGradient P_PolicyGradient.
Close Scope Q_scope. Open Scope nat_scope.

(** After every [batchsize] complete episodes there is exactly one update. *)
Theorem C140_one_update batchsize separately ls : 1 <= batchsize -> length ls = batchsize -> Forall (fun l => exists s, ends_with s l) ls -> exists ts, updates batchsize separately ls = [ts].
Proof. intros HB HL H. destruct (one_update batchsize separately ls HB HL H) as (ts & E & _). eauto. Qed.

(** The expected update: the gradient of the expected return, plus the gradient of the expected last reward, minus what every action's own reward
    contributes; plus the entropy bonus. *)
Theorem C140_expected_update_partial D pi theta score dH batchsize separately beta T s : well_formed D -> policy_family D pi theta score dH -> 1 <= batchsize -> s < states D -> ends D T s ->
  exists gradient_of_return gradient_of_last_reward,
    derivable_pt_lim (fun th => episodes D (pi th) T s all_rewards) theta gradient_of_return /\
    derivable_pt_lim (fun th => episodes D (pi th) T s last_reward) theta gradient_of_last_reward /\
    batches D (pi theta) batchsize T s (move batchsize separately beta score dH) =
      (gradient_of_return
       + (gradient_of_last_reward - episodes D (pi theta) T s (fun l => over_steps l (fun x => Q2R (earned x) * score (at_state x) (took x))))
       + beta * episodes D (pi theta) T s (fun l => over_steps l (fun x => dH (at_state x))))%R.
Proof.
  intros W F HB Hs H. exists (episodes D (pi theta) T s (weighted score 1%R all_rewards)), (episodes D (pi theta) T s (weighted score 1%R last_reward)). split; [|split].
  - apply (gradient D W pi theta score dH F 1%R 1%R all_rewards); [intros x y l; cbn [all_rewards]; ring|exact Hs|exact H].
  - apply (gradient D W pi theta score dH F 0%R 1%R last_reward); [intros x y l; cbn [last_reward]; ring|exact Hs|exact H].
  - rewrite (expected_move D W (pi theta) (adds_up _ _ _ _ _ F theta) batchsize separately beta score dH T s HB Hs H).
    rewrite (ep_ext D (pi theta) T s _ _ (fun l Hl => direction_split beta score dH l s Hl)).
    rewrite (ep_ext D (pi theta) T s _ (fun l => ((weighted score 1%R all_rewards l + weighted score 1%R last_reward l) + (-1) * over_steps l (fun x => Q2R (earned x) * score (at_state x) (took x))) + beta * over_steps l (fun x => dH (at_state x)))%R) by (intros; ring).
    rewrite !ep_plus, !ep_scal. ring.
Qed.

(** If all rewards are the same the expected update is the gradient of the expected return, plus the entropy bonus. *)
Theorem C140_equal_rewards D pi theta score dH batchsize separately beta T s reward : well_formed D -> policy_family D pi theta score dH -> 1 <= batchsize -> s < states D -> ends D T s ->
  (forall s a, s < states D -> a <= last_action D -> Forall (fun o => let '(r, _, _) := snd o in r == reward)%Q (outcomes D s a)) ->
  exists gradient_of_return, derivable_pt_lim (fun th => episodes D (pi th) T s all_rewards) theta gradient_of_return /\
    batches D (pi theta) batchsize T s (move batchsize separately beta score dH) = (gradient_of_return + beta * episodes D (pi theta) T s (fun l => over_steps l (fun x => dH (at_state x))))%R.
Proof.
  intros W F HB Hs H HR. exists (episodes D (pi theta) T s (weighted score 1%R all_rewards)). split.
  - apply (gradient D W pi theta score dH F 1%R 1%R all_rewards); [intros x y l; cbn [all_rewards]; ring|exact Hs|exact H].
  - rewrite (expected_move D W (pi theta) (adds_up _ _ _ _ _ F theta) batchsize separately beta score dH T s HB Hs H). rewrite <- ep_scal, <- ep_plus. apply (ep_ext_in D W (pi theta) (fun x => Q2R (earned x) = Q2R reward)); [|exact Hs|].
    + intros s0 a0 o Hs0 Ha0 Ho. pose proof (HR s0 a0 Hs0 Ha0) as HF. rewrite Forall_forall in HF. specialize (HF o Ho). destruct o as [p [[r s'] t]]. cbn [snd earned] in *. now apply Qeq_eqR.
    + intros l Hl HP. clear Hs H. revert s Hl. induction HP as [|x l Hx HP IH]; intros s Hl; [destruct Hl|]. cbn [episode_direction weighted over_steps].
      assert (EA : after (x :: l) = all_rewards (x :: l)).
      { unfold after. cbn [tl all_rewards]. rewrite Hx. rewrite Rplus_comm. f_equal. clear -Hx HP. revert x Hx. induction HP as [|y l Hy HP IH]; intros x Hx; [exact Hx|]. exact (IH y Hy). }
      rewrite EA. destruct l as [|y l]; [cbn [episode_direction weighted over_steps]; ring|]. rewrite (IH (reached x)) by apply Hl. ring.
Qed.

(** ** The expected update is not the gradient: it may be its opposite *)
(** The first action decides: action 0 earns 3, then 0 in state 1; action 1 earns 0, then 1 in state 2. *)
Definition choice : problem := {| states := 3; last_action := 1; outcomes := fun s a =>
  match s, a with
  | 0, 0 => [(1%Q, (3%Q, 1, false))]
  | 0, _ => [(1%Q, (0%Q, 2, false))]
  | 1, _ => [(1%Q, (0%Q, 0, true))]
  | _, _ => [(1%Q, (1%Q, 0, true))]
  end |}.
(** Softmax in state 0 with logits theta and 0; elsewhere the actions are equally likely. *)
Definition soft (th : R) (s a : nat) : R := match s, a with 0, 0 => (exp th / (exp th + 1))%R | 0, _ => (1 / (exp th + 1))%R | _, _ => (1 / 2)%R end.
Definition soft_score (th : R) (s a : nat) : R := match s, a with 0, 0 => (1 / (exp th + 1))%R | 0, _ => (- (exp th / (exp th + 1)))%R | _, _ => 0%R end.
Definition soft_dH (th : R) (s : nat) : R := (- over_actions (seq 0 2) (fun a => soft th s a * soft_score th s a * (ln (soft th s a) + 1)))%R.
Lemma choice_wf : well_formed choice.
Proof. intros s a Hs Ha. cbn in Hs, Ha. destruct s as [|[|[|s]]]; [| | |lia]; (destruct a as [|[|a]]; [| |lia]); (split; [reflexivity|]); repeat constructor; cbn; try discriminate; lia. Qed.
Lemma choice_ends : ends choice 2 0.
Proof. cbn [ends choice last_action]. intros [|[|a]] Ha; [| |lia]; (constructor; [|constructor]); right; intros b Hb; (constructor; [|constructor]); left; reflexivity. Qed.
Lemma d_log1 th : derivable_pt_lim (fun th => ln (exp th + 1))%R th (exp th / (exp th + 1))%R.
Proof.
  pose proof (exp_pos th). apply (dl_val _ _ (/ (exp th + 1) * (exp th + 0))%R); [field; lra|]. apply (derivable_pt_lim_comp (fun th => exp th + 1)%R ln).
  - apply (derivable_pt_lim_plus exp (fun _ => 1%R)); [apply derivable_pt_lim_exp|apply derivable_pt_lim_const].
  - apply derivable_pt_lim_ln. lra.
Qed.
Lemma soft_family theta : policy_family choice soft theta (soft_score theta) (soft_dH theta).
Proof.
  assert (P : forall th s a, (0 < soft th s a)%R).
  { intros th s a. pose proof (exp_pos th). unfold soft. destruct s as [|s]; [destruct a as [|a]; apply Rdiv_lt_0_compat; lra|lra]. }
  assert (S : forall s a, derivable_pt_lim (fun th => ln (soft th s a)) theta (soft_score theta s a)).
  { intros s a. destruct s as [|s]; [|exact (derivable_pt_lim_const (ln (1 / 2)) theta)]. destruct a as [|a]; cbn [soft soft_score].
    - apply (dl_ext (fun th => th - ln (exp th + 1))%R). { intros y. pose proof (exp_pos y). unfold Rdiv. rewrite ln_mult, ln_Rinv, ln_exp by (try apply Rinv_0_lt_compat; lra). reflexivity. }
      pose proof (exp_pos theta). apply (dl_val _ _ (1 - exp theta / (exp theta + 1))%R); [field; lra|]. apply (derivable_pt_lim_minus (fun th => th) (fun th => ln (exp th + 1)%R)); [apply derivable_pt_lim_id|apply d_log1].
    - apply (dl_ext (fun th => - ln (exp th + 1))%R). { intros y. pose proof (exp_pos y). unfold Rdiv. rewrite Rmult_1_l, ln_Rinv by lra. reflexivity. }
      apply (derivable_pt_lim_opp (fun th => ln (exp th + 1)%R)), d_log1. }
  constructor; [exact P| |exact S|].
  - intros th s. pose proof (exp_pos th). cbn [choice last_action seq over_actions soft]. destruct s as [|s]; cbn [soft]; field. lra.
  - exact (entropy_derivative choice soft theta (soft_score theta) P S).
Qed.
Lemma choice_episodes th f : episodes choice (soft th) 2 0 f =
  (soft th 0 0 * (1 / 2 * f [mkStep 0 0 3 1 false; mkStep 1 0 0 0 true] + 1 / 2 * f [mkStep 0 0 3 1 false; mkStep 1 1 0 0 true]) +
   soft th 0 1 * (1 / 2 * f [mkStep 0 1 0 2 false; mkStep 2 0 1 0 true] + 1 / 2 * f [mkStep 0 1 0 2 false; mkStep 2 1 1 0 true]))%R.
Proof.
  cbn [episodes choice last_action outcomes seq over_actions over_outcomes]. assert (Q1 : Q2R 1 = 1%R) by (unfold Q2R; cbn; field). rewrite Q1. unfold soft. ring.
Qed.
(** For all parameters: the expected return grows with the parameter (action 0 earns 3, action 1 earns 1), and the expected update is the
    opposite of its gradient. *)
Theorem C140_gradient_refuted : well_formed choice /\ ends choice 2 0 /\ forall theta batchsize separately, 1 <= batchsize ->
  policy_family choice soft theta (soft_score theta) (soft_dH theta) /\
  exists gradient_of_return, (0 < gradient_of_return)%R /\ derivable_pt_lim (fun th => episodes choice (soft th) 2 0 all_rewards) theta gradient_of_return /\
    batches choice (soft theta) batchsize 2 0 (move batchsize separately 0 (soft_score theta) (soft_dH theta)) = (- gradient_of_return)%R.
Proof.
  split; [exact choice_wf|]. split; [exact choice_ends|]. intros theta B sep HB. split; [apply soft_family|]. assert (Hs : 0 < states choice) by (cbn; lia).
  pose proof (soft_family theta) as F. pose proof (exp_pos theta) as EP. exists (2 * (exp theta / (exp theta + 1) * (1 / (exp theta + 1))))%R. split; [|split].
  - apply Rmult_lt_0_compat; [lra|]. apply Rmult_lt_0_compat; apply Rdiv_lt_0_compat; lra.
  - refine (dl_val _ _ _ _ _ (gradient choice choice_wf soft theta _ _ F 1%R 1%R all_rewards _ 2 0 Hs choice_ends)); [|intros x y l; cbn [all_rewards]; ring].
    rewrite choice_episodes. cbn [weighted all_rewards earned at_state took soft soft_score]. assert (Q0 : Q2R 0 = 0%R) by (unfold Q2R; cbn; field). assert (Q1 : Q2R 1 = 1%R) by (unfold Q2R; cbn; field). assert (Q3 : Q2R 3 = 3%R) by (unfold Q2R; cbn; field). rewrite Q0, Q1, Q3. field. lra.
  - rewrite (expected_move choice choice_wf (soft theta) (adds_up _ _ _ _ _ F theta) B sep 0 _ _ 2 0 HB Hs choice_ends). rewrite choice_episodes. cbn [episode_direction after all_rewards last_reward earned at_state took tl soft soft_score]. unfold after. cbn [tl all_rewards last_reward earned].
    assert (Q0 : Q2R 0 = 0%R) by (unfold Q2R; cbn; field). assert (Q1 : Q2R 1 = 1%R) by (unfold Q2R; cbn; field). rewrite Q0, Q1. field. lra.
Qed.
(** The update that follows one episode of each kind: the good action has coefficient 0, the bad one 2. *)
Example C140_choice_update : map (map (fun t => (Qred (fst t), took (snd t)))) (updates 2 false [[mkStep 0 0 3 1 false; mkStep 1 0 0 0 true]; [mkStep 0 1 0 2 false; mkStep 2 0 1 0 true]]) = [[(0, 0%nat); (0, 0%nat); (2, 1%nat); (1, 0%nat)]]%Q.
Proof. vm_compute. reflexivity. Qed.
(** Equal rewards: as [choice] but every step earns 1 and action 1 skips the second step. *)
Definition walk : problem := {| states := 3; last_action := 1; outcomes := fun s a => match s, a with 0, 0 => [(1%Q, (1%Q, 1, false))] | _, _ => [(1%Q, (1%Q, 0, true))] end |}.
Example C140_walk : well_formed walk /\ ends walk 2 0 /\ (forall s a, s < states walk -> a <= last_action walk -> Forall (fun o => let '(r, _, _) := snd o in r == 1)%Q (outcomes walk s a)) /\ policy_family walk soft 0 (soft_score 0) (soft_dH 0).
Proof.
  split; [|split; [|split; [|destruct (soft_family 0) as [A1 A2 A3 A4]; constructor; assumption]]].
  - intros s a Hs Ha. cbn in Hs, Ha. destruct s as [|[|[|s]]]; [| | |lia]; (destruct a as [|[|a]]; [| |lia]); (split; [reflexivity|]); repeat constructor; cbn; try discriminate; lia.
  - cbn [ends walk last_action]. intros [|[|a]] Ha; [| |lia]; (constructor; [|constructor]); [right; intros b Hb; (constructor; [|constructor])|]; left; reflexivity.
  - intros s a _ _. destruct s as [|s]; [destruct a as [|a]|]; (constructor; [|constructor]); reflexivity.
Qed.

Print Assumptions C140_one_update.
Print Assumptions C140_expected_update_partial.
Print Assumptions C140_equal_rewards.
Print Assumptions C140_gradient_refuted.
