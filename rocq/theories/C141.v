(** C141: the expected policy update of A3C and the gradient of the expected return. *)
From Coq Require Import Reals QArith Qreals Lra.
From Verif Require Import Base P_Base S_PPO M_A3C S_A3C P_A3C S_ValueIteration S_Unbiased S_PolicyGradient P_PolicyGradient S_ActorGradient P_ActorGradient.
Close Scope Q_scope. Open Scope nat_scope.

Lemma plain_factor (c : cfg) n : keep_loss_scale_same c = false -> normalize_grad_by_t_max c = false -> Q2R (loss_factor c (pi_loss_coef c) n) = Q2R (pi_loss_coef c).
Proof. intros E1 E2. unfold loss_factor. rewrite E1, E2. apply Qeq_eqR. ring. Qed.
Lemma discounted_one l : discounted 1 l = all_rewards l.
Proof. induction l as [|x l IH]; cbn [discounted all_rewards]; [reflexivity|]. rewrite IH. ring. Qed.
Lemma discounted_gradient D pi theta score dH g T s : well_formed D -> policy_family D pi theta score dH -> s < states D -> ends D T s ->
  derivable_pt_lim (fun th => episodes D (pi th) T s (discounted g)) theta (episodes D (pi theta) T s (weighted score g (discounted g))).
Proof. intros W F Hs H. apply (gradient D W pi theta score dH F 1%R g (discounted g)); [intros x y l; cbn [discounted]; ring|exact Hs|exact H]. Qed.
Lemma expected_worker {P RS} (N : net nat P RS) opt c beta D pi theta score dH w T s : well_formed D -> policy_family D pi theta score dH -> s < states D -> ends D T s ->
  recurrent c = false -> keep_loss_scale_same c = false -> normalize_grad_by_t_max c = false -> T <= t_max c -> between_segments w ->
  episodes D (pi theta) T s (worker_move N opt c beta score dH w) =
  (Q2R (pi_loss_coef c) * (episodes D (pi theta) T s (weighted score 1 (discounted (Q2R (gamma c)))) + beta * episodes D (pi theta) T s (fun l => over_steps l (fun x => dH (at_state x)))))%R.
Proof.
  intros W F Hs H Hc K1 K2 HT B. assert (Ht : 1 <= t_max c) by (destruct T; [destruct H|lia]).
  rewrite (ends_length D (pi theta) T s _ (fun l => Q2R (pi_loss_coef c) * advantage_direction (Q2R (gamma c)) beta (fun o => Q2R (value N (model w) None o)) score dH l)%R).
  - rewrite ep_scal. rewrite (expected_advantage D W pi theta score dH F (Q2R (gamma c)) beta _ T s Hs H). reflexivity.
  - intros l Hl HL. rewrite (worker_direction N opt c beta score dH w s l Hc Ht B Hl) by lia. now rewrite plain_factor.
Qed.

(** Episodes that end within t_max steps make one update each.  Without discount the expected update is pi_loss_coef times the gradient of the expected
    return, plus the entropy bonus; the value predictions, the optimizer and the state of the worker do not matter. *)
Theorem C141_undiscounted {P RS} (N : net nat P RS) opt c beta D pi theta score dH w T s : well_formed D -> policy_family D pi theta score dH -> s < states D -> ends D T s ->
  recurrent c = false -> keep_loss_scale_same c = false -> normalize_grad_by_t_max c = false -> T <= t_max c -> between_segments w -> (gamma c == 1)%Q ->
  exists gradient_of_return, derivable_pt_lim (fun th => episodes D (pi th) T s all_rewards) theta gradient_of_return /\
    episodes D (pi theta) T s (worker_move N opt c beta score dH w) =
    (Q2R (pi_loss_coef c) * (gradient_of_return + beta * episodes D (pi theta) T s (fun l => over_steps l (fun x => dH (at_state x)))))%R.
Proof.
  intros W F Hs H Hc K1 K2 HT B G. assert (G1 : Q2R (gamma c) = 1%R) by (rewrite (Qeq_eqR _ _ G); unfold Q2R; cbn; field). exists (episodes D (pi theta) T s (weighted score 1 (discounted 1))). split.
  - apply (dl_ext (fun th => episodes D (pi th) T s (discounted 1))); [intros th; apply ep_ext; intros l _; apply discounted_one|]. now apply (discounted_gradient D pi theta score dH).
  - rewrite (expected_worker N opt c beta D pi theta score dH w T s W F Hs H Hc K1 K2 HT B), G1. reflexivity.
Qed.

(** ** With discount: a parameter that matters in one state only *)
Lemma oa_le l f g : (forall a, In a l -> (f a <= g a)%R) -> (over_actions l f <= over_actions l g)%R.
Proof. intros H. induction l as [|a l IH]; cbn [over_actions]; [lra|]. pose proof (H a (or_introl eq_refl)). assert (forall b, In b l -> (f b <= g b)%R) by (intros b Hb; apply H; now right). specialize (IH H1). lra. Qed.
Lemma oo_le {X} (l : list (Q * X)) f g : Forall (fun o => (0 <= fst o)%Q /\ (f (snd o) <= g (snd o))%R) l -> (over_outcomes l f <= over_outcomes l g)%R.
Proof. intros H. induction H as [|[p x] l [Hp Hx] H IH]; cbn [over_outcomes]; [lra|]. cbn [fst snd] in *. apply Qle_Rle in Hp. replace (Q2R 0) with 0%R in Hp by (unfold Q2R; cbn; field). pose proof (Rmult_le_compat_l _ _ _ Hp Hx). lra. Qed.
Lemma ep_le D (W : well_formed D) p T : (forall s a, (0 <= p s a)%R) -> forall s f g, s < states D -> (forall l, ends_with s l -> length l <= T -> (f l <= g l)%R) -> (episodes D p T s f <= episodes D p T s g)%R.
Proof.
  intros HP. induction T as [|T IH]; intros s f g Hs H; [cbn [episodes]; lra|]. rewrite (ep_S D p T s f), (ep_S D p T s g). apply oa_le. intros a Ha. apply in_seq in Ha. assert (Ha' : a <= last_action D) by lia. apply Rmult_le_compat_l; [apply HP|].
  apply oo_le. destruct (W s a Hs Ha') as [_ W2]. revert W2. apply Forall_impl. intros [q [[r s'] [|]]] [Hq Hs']; cbn [fst snd]; (split; [exact Hq|]).
  - apply H; [cbn; auto|cbn; lia].
  - apply IH; [exact Hs'|]. intros l Hl HL. apply H; [now apply ends_cons|cbn; lia].
Qed.
Lemma visits_bound g k T l : (0 < g <= 1)%R -> length l <= T -> (0 <= visits 1 k l)%R /\ (g ^ T * visits 1 k l <= visits g k l)%R /\ (visits g k l <= visits 1 k l)%R.
Proof.
  intros [G0 G1]. revert T. induction l as [|x l IH]; intros T HL; cbn [visits]; [lra|]. destruct T as [|T]; [cbn in HL; lia|]. destruct (IH T ltac:(cbn in HL; lia)) as (I0 & I1 & I2). set (b := (if at_state x =? k then 1 else 0)%R). assert (Hb : (0 <= b)%R) by (unfold b; destruct (at_state x =? k); lra).
  split; [lra|]. assert (P1 : (g ^ S T <= 1)%R) by (rewrite <- (pow1 (S T)); apply pow_incr; lra). split.
  - pose proof (Rmult_le_compat_l g _ _ ltac:(lra) I1) as M. pose proof (Rmult_le_compat_r b _ _ Hb P1) as M2. cbn [pow] in *. lra.
  - pose proof (Rmult_le_compat_l g _ _ ltac:(lra) I2) as M. pose proof (Rmult_le_compat_r _ _ _ I0 G1) as M2. lra.
Qed.
(** If the parameter matters in state [k] only, and [k] is visited, the expected update is the gradient of the expected discounted return up to a positive factor, at least 1. *)
Theorem C141_one_state {P RS} (N : net nat P RS) opt c D pi theta score dH w T s k Tk : well_formed D -> policy_family D pi theta score dH -> s < states D -> ends D T s ->
  recurrent c = false -> keep_loss_scale_same c = false -> normalize_grad_by_t_max c = false -> T <= t_max c -> between_segments w -> (0 < gamma c <= 1)%Q ->
  k < states D -> ends D Tk k -> (forall s a, s <> k -> score s a = 0%R) -> (0 < episodes D (pi theta) T s (visits 1 k))%R ->
  exists gradient_of_return rate, derivable_pt_lim (fun th => episodes D (pi th) T s (discounted (Q2R (gamma c)))) theta gradient_of_return /\ (1 <= rate)%R /\
    episodes D (pi theta) T s (worker_move N opt c 0 score dH w) = (Q2R (pi_loss_coef c) * (rate * gradient_of_return))%R.
Proof.
  intros W F Hs H Hc K1 K2 HT B [G0 G1] Hk Hend H0 HV. set (g := Q2R (gamma c)). assert (G : (0 < g <= 1)%R).
  { unfold g. apply Qlt_Rlt in G0. apply Qle_Rle in G1. replace (Q2R 0) with 0%R in G0 by (unfold Q2R; cbn; field). replace (Q2R 1) with 1%R in G1 by (unfold Q2R; cbn; field). lra. }
  destruct Tk as [|Tk]; [destruct Hend|]. set (V1 := episodes D (pi theta) T s (visits 1 k)) in *. set (Vg := episodes D (pi theta) T s (visits g k)).
  assert (P0 : forall s a, (0 <= pi theta s a)%R) by (intros; left; apply (positive _ _ _ _ _ F)).
  assert (B1 : (g ^ T * V1 <= Vg)%R) by (unfold V1, Vg; rewrite <- ep_scal; apply (ep_le D W (pi theta) T P0 s _ _ Hs); intros l _ HL; apply (visits_bound g k T l G HL)).
  assert (B2 : (Vg <= V1)%R) by (apply (ep_le D W (pi theta) T P0 s _ _ Hs); intros l _ HL; apply (visits_bound g k T l G HL)).
  assert (VP : (0 < Vg)%R) by (pose proof (pow_lt g T (proj1 G)) as PT; pose proof (Rmult_lt_0_compat _ _ PT HV); lra).
  exists (episodes D (pi theta) T s (weighted score g (discounted g))), (V1 / Vg)%R. split; [now apply (discounted_gradient D pi theta score dH)|]. split.
  - apply (Rmult_le_reg_r Vg); [exact VP|]. unfold Rdiv. rewrite Rmult_assoc, Rinv_l by lra. lra.
  - rewrite (expected_worker N opt c 0 D pi theta score dH w T s W F Hs H Hc K1 K2 HT B). fold g. rewrite (single D W pi theta score dH F k Tk g 1 Hk Hend H0 T s Hs H), (single D W pi theta score dH F k Tk g g Hk Hend H0 T s Hs H). fold V1 Vg. field. lra.
Qed.

(** ** A parameter shared by states: the expected update may be the opposite of the gradient of the expected discounted return *)
(** Two steps; the first earns 3 with action 0, the second earns 4 with action 1. *)
Definition two : problem := {| states := 2; last_action := 1; outcomes := fun s a =>
  match s, a with
  | 0, 0 => [(1%Q, (3%Q, 1, false))]
  | 0, _ => [(1%Q, (0%Q, 1, false))]
  | _, 0 => [(1%Q, (0%Q, 0, true))]
  | _, _ => [(1%Q, (4%Q, 0, true))]
  end |}.
Definition up (th : R) : R := (exp th / (exp th + 1))%R.
Definition down (th : R) : R := (1 / (exp th + 1))%R.
(** softmax of theta and 0, in both states *)
Definition shared (th : R) (s a : nat) : R := match a with 0 => up th | _ => down th end.
Definition shared_score (th : R) (s a : nat) : R := match a with 0 => down th | _ => (- up th)%R end.
(** softmax of theta and 0 in state 0, equally likely actions elsewhere *)
Definition first (th : R) (s a : nat) : R := match s, a with 0, 0 => up th | 0, _ => down th | _, _ => (1 / 2)%R end.
Definition first_score (th : R) (s a : nat) : R := match s, a with 0, 0 => down th | 0, _ => (- up th)%R | _, _ => 0%R end.
Definition entropy_slope (pi score : nat -> nat -> R) (s : nat) : R := (- over_actions (seq 0 2) (fun a => pi s a * score s a * (ln (pi s a) + 1)))%R.
Lemma up_pos th : (0 < up th)%R. Proof. unfold up. pose proof (exp_pos th). apply Rdiv_lt_0_compat; lra. Qed.
Lemma down_pos th : (0 < down th)%R. Proof. unfold down. pose proof (exp_pos th). apply Rdiv_lt_0_compat; lra. Qed.
Lemma up_down th : (up th + down th = 1)%R. Proof. unfold up, down. pose proof (exp_pos th). field. lra. Qed.
Lemma d_log1p th : derivable_pt_lim (fun th => ln (exp th + 1)%R) th (up th).
Proof.
  pose proof (exp_pos th). apply (dl_val _ _ (/ (exp th + 1) * (exp th + 0))%R); [unfold up; field; lra|]. apply (derivable_pt_lim_comp (fun th => exp th + 1)%R ln).
  - apply (derivable_pt_lim_plus exp (fun _ => 1%R)); [apply derivable_pt_lim_exp|apply derivable_pt_lim_const].
  - apply derivable_pt_lim_ln. lra.
Qed.
Lemma d_up th : derivable_pt_lim (fun th => ln (up th)) th (down th).
Proof.
  apply (dl_ext (fun th => th - ln (exp th + 1))%R). { intros y. pose proof (exp_pos y). unfold up, Rdiv. rewrite ln_mult, ln_Rinv, ln_exp by (try apply Rinv_0_lt_compat; lra). reflexivity. }
  apply (dl_val _ _ (1 - up th)%R); [pose proof (up_down th); lra|]. apply (derivable_pt_lim_minus (fun th => th) (fun th => ln (exp th + 1)%R)); [apply derivable_pt_lim_id|apply d_log1p].
Qed.
Lemma d_down th : derivable_pt_lim (fun th => ln (down th)) th (- up th)%R.
Proof.
  apply (dl_ext (fun th => - ln (exp th + 1))%R). { intros y. pose proof (exp_pos y). unfold down, Rdiv. rewrite Rmult_1_l, ln_Rinv by lra. reflexivity. }
  apply (derivable_pt_lim_opp (fun th => ln (exp th + 1)%R)), d_log1p.
Qed.
Lemma shared_family D theta : last_action D = 1 -> policy_family D shared theta (shared_score theta) (entropy_slope (shared theta) (shared_score theta)).
Proof.
  intros E. assert (P : forall th s a, (0 < shared th s a)%R) by (intros th s [|a]; [apply up_pos|apply down_pos]).
  assert (S : forall s a, derivable_pt_lim (fun th => ln (shared th s a)) theta (shared_score theta s a)) by (intros s [|a]; [apply d_up|apply d_down]).
  constructor; [exact P| |exact S|].
  - intros th s. rewrite E. cbn [seq over_actions shared]. pose proof (up_down th). lra.
  - intros s. pose proof (entropy_derivative D shared theta (shared_score theta) P S s) as H. rewrite E in H. exact H.
Qed.
Lemma first_family D theta : last_action D = 1 -> policy_family D first theta (first_score theta) (entropy_slope (first theta) (first_score theta)).
Proof.
  intros E. assert (P : forall th s a, (0 < first th s a)%R) by (intros th [|s] [|a]; cbn [first]; try apply up_pos; try apply down_pos; lra).
  assert (S : forall s a, derivable_pt_lim (fun th => ln (first th s a)) theta (first_score theta s a)) by (intros [|s] [|a]; [apply d_up|apply d_down| |]; exact (derivable_pt_lim_const (ln (1 / 2)) theta)).
  constructor; [exact P| |exact S|].
  - intros th [|s]; rewrite E; cbn [seq over_actions first]; pose proof (up_down th); lra.
  - intros s. pose proof (entropy_derivative D first theta (first_score theta) P S s) as H. rewrite E in H. exact H.
Qed.
Lemma two_wf : well_formed two.
Proof. intros s a Hs Ha. cbn in Hs, Ha. destruct s as [|[|s]]; [| |lia]; (destruct a as [|[|a]]; [| |lia]); (split; [reflexivity|]); repeat constructor; cbn; try discriminate; lia. Qed.
Lemma two_ends : ends two 2 0.
Proof. cbn [ends two last_action]. intros [|[|a]] Ha; [| |lia]; (constructor; [|constructor]); right; (intros [|[|b]] Hb; [| |lia]); (constructor; [|constructor]); left; reflexivity. Qed.
Lemma q2r_1 : Q2R 1 = 1%R. Proof. unfold Q2R. cbn. field. Qed.
Lemma q2r_0 : Q2R 0 = 0%R. Proof. unfold Q2R. cbn. field. Qed.
Lemma two_episodes p f : episodes two p 2 0 f =
  (p 0%nat 0%nat * (p 1%nat 0%nat * f [mkStep 0 0 3 1 false; mkStep 1 0 0 0 true] + p 1%nat 1%nat * f [mkStep 0 0 3 1 false; mkStep 1 1 4 0 true]) +
   p 0%nat 1%nat * (p 1%nat 0%nat * f [mkStep 0 1 0 1 false; mkStep 1 0 0 0 true] + p 1%nat 1%nat * f [mkStep 0 1 0 1 false; mkStep 1 1 4 0 true]))%R.
Proof. cbn [episodes two last_action outcomes seq over_actions over_outcomes]. rewrite q2r_1. ring. Qed.
(** With discount 1/2 action 0 in both states is better than action 1 in both; for all parameters the expected discounted return grows with the
    parameter, and the expected update is the opposite of its gradient, whatever the value predictions. *)
Theorem C141_discounted_opposite : well_formed two /\ ends two 2 0 /\ forall P RS (N : net nat P RS) opt c theta w,
  recurrent c = false -> keep_loss_scale_same c = false -> normalize_grad_by_t_max c = false -> 2 <= t_max c -> between_segments w -> (gamma c == 1 # 2)%Q -> (pi_loss_coef c == 1)%Q ->
  policy_family two shared theta (shared_score theta) (entropy_slope (shared theta) (shared_score theta)) /\
  exists gradient_of_return, (0 < gradient_of_return)%R /\ derivable_pt_lim (fun th => episodes two (shared th) 2 0 (discounted (1 / 2))) theta gradient_of_return /\
    episodes two (shared theta) 2 0 (worker_move N opt c 0 (shared_score theta) (entropy_slope (shared theta) (shared_score theta)) w) = (- gradient_of_return)%R.
Proof.
  split; [exact two_wf|]. split; [exact two_ends|]. intros P RS N opt c theta w Hc K1 K2 HT B G HP. pose proof (shared_family two theta eq_refl) as F. split; [exact F|]. assert (Hs : 0 < states two) by (cbn; lia).
  assert (Q3 : Q2R 3 = 3%R) by (unfold Q2R; cbn; field). assert (Q4 : Q2R 4 = 4%R) by (unfold Q2R; cbn; field). pose proof (up_down theta) as UD. assert (EU : down theta = (1 - up theta)%R) by lra.
  exists (up theta * down theta)%R. split; [apply Rmult_lt_0_compat; [apply up_pos|apply down_pos]|]. split.
  - refine (dl_val _ _ _ _ _ (discounted_gradient two shared theta _ _ (1 / 2) 2 0 two_wf F Hs two_ends)). rewrite two_episodes. cbn [weighted discounted earned at_state took shared shared_score]. rewrite q2r_0, Q3, Q4, EU. field.
  - rewrite (expected_worker N opt c 0 two shared theta _ _ w 2 0 two_wf F Hs two_ends Hc K1 K2 HT B), (Qeq_eqR _ _ HP), (Qeq_eqR _ _ G). replace (Q2R (1 # 2)) with (1 / 2)%R by (unfold Q2R; cbn; field).
    rewrite !two_episodes. cbn [weighted discounted over_steps earned at_state took shared shared_score]. rewrite q2r_0, q2r_1, Q3, Q4, EU. field.
Qed.

(** ** Factors that depend on the length of the episode: even without discount the expected update may be opposite to the gradient *)
(** Action 0 earns 2 and the episode ends; action 1 earns 3, one more step that earns 0 follows. *)
Definition long : problem := {| states := 2; last_action := 1; outcomes := fun s a =>
  match s, a with 0, 0 => [(1%Q, (2%Q, 0, true))] | 0, _ => [(1%Q, (3%Q, 1, false))] | _, _ => [(1%Q, (0%Q, 0, true))] end |}.
Lemma long_wf : well_formed long.
Proof. intros s a Hs Ha. cbn in Hs, Ha. destruct s as [|[|s]]; [| |lia]; (destruct a as [|[|a]]; [| |lia]); (split; [reflexivity|]); repeat constructor; cbn; try discriminate; lia. Qed.
Lemma long_ends : ends long 2 0.
Proof. cbn [ends long last_action]. intros [|[|a]] Ha; [| |lia]; (constructor; [|constructor]); [left; reflexivity|]. right. intros b Hb. (constructor; [|constructor]); left; reflexivity. Qed.
Lemma long_episodes p f : episodes long p 2 0 f = (p 0%nat 0%nat * f [mkStep 0 0 2 0 true] + p 0%nat 1%nat * (p 1%nat 0%nat * f [mkStep 0 1 3 1 false; mkStep 1 0 0 0 true] + p 1%nat 1%nat * f [mkStep 0 1 3 1 false; mkStep 1 1 0 0 true]))%R.
Proof. cbn [episodes long last_action outcomes seq over_actions over_outcomes]. rewrite q2r_1. ring. Qed.
Theorem C141_length_opposite : well_formed long /\ ends long 2 0 /\ forall P RS (N : net nat P RS) opt c theta w,
  recurrent c = false -> keep_loss_scale_same c = negb (normalize_grad_by_t_max c) -> 2 <= t_max c -> between_segments w -> (gamma c == 1)%Q -> (pi_loss_coef c == 1)%Q ->
  (forall p o, (value N p None o == 0)%Q) ->
  policy_family long first theta (first_score theta) (entropy_slope (first theta) (first_score theta)) /\
  exists gradient_of_return rate, gradient_of_return <> 0%R /\ derivable_pt_lim (fun th => episodes long (first th) 2 0 all_rewards) theta gradient_of_return /\ (0 < rate)%R /\
    episodes long (first theta) 2 0 (worker_move N opt c 0 (first_score theta) (entropy_slope (first theta) (first_score theta)) w) = (- (rate * gradient_of_return))%R.
Proof.
  split; [exact long_wf|]. split; [exact long_ends|]. intros P RS N opt c theta w Hc K HT B G HP HN. pose proof (first_family long theta eq_refl) as F. split; [exact F|]. assert (Hs : 0 < states long) by (cbn; lia).
  assert (Q2 : Q2R 2 = 2%R) by (unfold Q2R; cbn; field). assert (Q3 : Q2R 3 = 3%R) by (unfold Q2R; cbn; field). pose proof (up_pos theta) as UP. pose proof (down_pos theta) as DP. pose proof (up_down theta) as UD. assert (EU : down theta = (1 - up theta)%R) by lra.
  set (K0 := if normalize_grad_by_t_max c then 1%Q else nQ (t_max c)). assert (KP : (0 < Q2R K0)%R).
  { unfold K0. destruct (normalize_grad_by_t_max c); [rewrite q2r_1; lra|]. rewrite <- q2r_0. apply Qlt_Rlt. unfold nQ, Qlt. cbn. lia. }
  assert (L1 : Q2R (loss_factor c (pi_loss_coef c) 1) = Q2R K0). { apply Qeq_eqR. unfold loss_factor, K0. rewrite K, HP. destruct (normalize_grad_by_t_max c); cbn [negb]; unfold nQ; cbn; [reflexivity|]. field. }
  assert (L2 : Q2R (loss_factor c (pi_loss_coef c) 2) = (Q2R K0 / 2)%R).
  { replace (Q2R K0 / 2)%R with (Q2R (K0 * (1 # 2))%Q) by (rewrite Q2R_mult; unfold Q2R at 2; cbn; field). apply Qeq_eqR. unfold loss_factor, K0. rewrite K, HP. destruct (normalize_grad_by_t_max c); cbn [negb]; unfold nQ; cbn; [reflexivity|]. field. }
  assert (V0 : forall o, Q2R (value N (model w) None o) = 0%R) by (intros o; rewrite (Qeq_eqR _ _ (HN (model w) o)); apply q2r_0).
  exists (- (up theta * down theta))%R, (Q2R K0 / 2)%R. split; [pose proof (Rmult_lt_0_compat _ _ UP DP); lra|]. split; [|split; [lra|]].
  - apply (dl_ext (fun th => episodes long (first th) 2 0 (discounted 1))); [intros th; apply ep_ext; intros l _; apply discounted_one|].
    refine (dl_val _ _ _ _ _ (discounted_gradient long first theta _ _ 1 2 0 long_wf F Hs long_ends)). rewrite long_episodes. cbn [weighted discounted earned at_state took first first_score]. rewrite q2r_0, Q2, Q3, EU. field.
  - rewrite long_episodes. rewrite (worker_direction N opt c 0 _ _ w 0 [mkStep 0 0 2 0 true]) by (try exact Hc; try exact B; cbn; try lia; auto). rewrite !(worker_direction N opt c 0 _ _ w 0 [_; _]) by (try exact Hc; try exact B; cbn; try lia; auto).
    cbn [length]. rewrite L1, L2. cbn [advantage_direction discounted earned at_state took first first_score]. rewrite !V0, q2r_0, Q2, Q3, EU, (Qeq_eqR _ _ G), q2r_1. field.
Qed.

(** ** Examples: a worker as it is created; one update per episode *)
Definition ex_net : net nat unit unit := {| value := fun _ _ o => inject_Z (Z.of_nat o); advance := fun _ _ _ => tt |}.
Definition ex_cfg (g : Q) (normalize : bool) : cfg := {| process_idx := 0; t_max := 5; gamma := g; recurrent := false; pi_loss_coef := 1; v_loss_coef := (1 # 2)%Q; keep_loss_scale_same := false; normalize_grad_by_t_max := normalize |}.
Example C141_worker : between_segments (init (Ob := nat) (Act := nat) (RS := unit) tt). Proof. repeat split. Qed.
Example C141_update : match runs ex_net (fun p _ => p) (ex_cfg (1 # 2) false) (init tt) (worker_calls [mkStep 0 0 3 1 false; mkStep 1 1 4 0 true]) with Ok (_, os) => map (fun u => (u_actions u, map Qred (u_returns u))) (updates_of os) = [([0; 1], [5%Q; 4%Q])] | Err _ => False end.
Proof. vm_compute. reflexivity. Qed.
(** The hypotheses of [C141_one_state]: the policy of which only the first state depends on the parameter *)
Example C141_one_state_case : well_formed two /\ policy_family two first 0 (first_score 0) (entropy_slope (first 0) (first_score 0)) /\ ends two 2 0 /\ (forall s a, s <> 0 -> first_score 0 s a = 0%R) /\ episodes two (first 0) 2 0 (visits 1 0) = 1%R.
Proof.
  split; [exact two_wf|]. split; [now apply first_family|]. split; [exact two_ends|]. split; [intros [|s] a H; [congruence|reflexivity]|].
  rewrite two_episodes. cbn [visits at_state Nat.eqb first]. pose proof (up_down 0). replace (down 0) with (1 - up 0)%R by lra. field.
Qed.

Print Assumptions C141_undiscounted.
Print Assumptions C141_one_state.
Print Assumptions C141_discounted_opposite.
Print Assumptions C141_length_opposite.
