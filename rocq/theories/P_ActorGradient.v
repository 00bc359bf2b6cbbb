(** Proofs for C141. *)
From Coq Require Import Reals QArith Qreals Qpower Lra.
From Verif Require Import Base P_Base S_PPO P_PPO M_A3C S_A3C P_A3C S_ValueIteration S_Unbiased S_PolicyGradient P_PolicyGradient S_ActorGradient.
Close Scope Q_scope. Open Scope nat_scope.

(** ** One update per episode *)
Definition tstep_of {P RS} (p : P) (x : step) : tstep nat nat P RS := {| s_choice := {| c_params := p; c_rs := None; c_obs := at_state x; c_act := took x |}; s_reward := earned x |}.
Section Worker.
Context {P RS : Type} (N : net nat P RS) (opt : P -> upd nat nat P RS -> P) (c : cfg) (Hc : recurrent c = false) (Ht : 1 <= t_max c).
Lemma worker_alternating (l : list step) : alternating (Ob := nat) (Act := nat) (P := P) true false (worker_calls l).
Proof. induction l as [|x l IH]; [exact I|]. cbn [worker_calls flat_map app alternating]. auto. Qed.
Lemma explained_episode p l : forall s seg shared os, ends_with s l -> length seg + length l <= t_max c ->
  explained N opt c {| v_training := true; v_chosen := None; v_seg := seg; v_params := p; v_shared := shared; v_rs := None; v_test_rs := None |} (worker_calls l) os ->
  exists u, updates_of os = [u] /\ update_from c (seg ++ map (tstep_of p) l) 0 u.
Proof.
  induction l as [|x l IH]; intros s seg shared os H HL E; [destruct H|]. change (worker_calls (x :: l)) with (CallAct (at_state x) (took x) :: CallObserve (P := P) (reached x) (earned x) (ended x) false :: worker_calls l) in E.
  destruct os as [|o1 [|o2 os]]; [destruct E|destruct E as [_ []]|]. cbn [explained v_training v_chosen v_seg v_params v_shared v_rs v_test_rs] in E. rewrite Hc in E. destruct E as (-> & ch & Ech & E). injection Ech as <-. cbv zeta in E.
  fold (tstep_of (RS := RS) p x) in E. change ({| s_choice := {| c_params := p; c_rs := None; c_obs := at_state x; c_act := took x |}; s_reward := earned x |}) with (tstep_of (RS := RS) p x) in E.
  rewrite app_length in E. cbn [length] in E, HL. cbn [map]. replace (seg ++ tstep_of p x :: map (tstep_of p) l) with ((seg ++ [tstep_of (RS := RS) p x]) ++ map (tstep_of p) l) by (rewrite <- app_assoc; reflexivity).
  destruct l as [|y l].
  - destruct H as [_ He]. rewrite He in E. rewrite orb_true_r in E. cbn [orb] in E. destruct E as (u & -> & U & E). cbn [worker_calls flat_map] in E. destruct os as [|o os]; [|destruct E]. exists u. split; [reflexivity|]. cbn [map]. now rewrite app_nil_r.
  - destruct H as (_ & He & H). rewrite He in E. destruct (Nat.eqb_spec (length seg + 1) (t_max c)) as [Q|_]; [cbn [length] in HL; lia|]. cbn [orb] in E. destruct E as (-> & E).
    destruct (IH (reached x) (seg ++ [tstep_of p x]) shared os H) as (u & E1 & U); [rewrite app_length; cbn [length] in *; lia|exact E|]. exists u. split; [exact E1|exact U].
Qed.
Lemma episode_update w s l : between_segments w -> ends_with s l -> length l <= t_max c ->
  exists w' os u, runs N opt c w (worker_calls l) = Ok (w', os) /\ updates_of os = [u] /\ update_from c (map (tstep_of (model w)) l) 0 u.
Proof.
  intros (B1 & B2 & B3 & B4) H HL.
  set (v := {| v_training := true; v_chosen := None; v_seg := []; v_params := model w; v_shared := shared_model w; v_rs := None; v_test_rs := None |} : view nat nat P RS).
  assert (R : rel N c w v).
  { constructor; cbn [v v_training v_chosen v_seg v_params v_shared v_rs v_test_rs]; try assumption; try reflexivity; unfold choices, chosen_list; cbn; try apply stored_nil; try constructor; try (rewrite B2; lia).
    - reflexivity.
    - split; [reflexivity|constructor].
    - congruence. }
  destruct (runs_explained N opt c Ht (worker_calls l) w v false R (worker_alternating l)) as (w' & os & E & X); [cbn; lia|cbn; split; [discriminate|congruence]|].
  destruct (explained_episode (model w) l s [] (shared_model w) os H HL X) as (u & E1 & U). exists w', os, u. auto.
Qed.
End Worker.

(** ** The returns *)
Lemma nsr_step gamma b r l R : (n_step_return gamma (b ++ r :: l) R (length b) == r + gamma * n_step_return gamma ((b ++ [r]) ++ l) R (length (b ++ [r])))%Q.
Proof.
  unfold n_step_return. rewrite !app_length. cbn [length]. replace (length b + S (length l) - length b) with (S (length l)) by lia. replace (length b + 1 + length l - (length b + 1)) with (length l) by lia.
  rewrite dsum_shift. rewrite Nat.add_0_r, app_nth2, Nat.sub_diag by lia. cbn [nth]. rewrite (dsum_ext gamma (fun k => nth (length b + S k) (b ++ r :: l) 0%Q) (fun k => nth (length b + 1 + k) ((b ++ [r]) ++ l) 0%Q)).
  - rewrite Nat2Z.inj_succ. unfold Z.succ. assert (P : (Qpower gamma (Z.of_nat (length l) + 1) == gamma * Qpower gamma (Z.of_nat (length l)))%Q) by (rewrite Z.add_1_r, <- Nat2Z.inj_succ; apply (gpow_succ gamma (length l))). rewrite P. ring.
  - intros k _. rewrite <- app_assoc. cbn [app]. replace (length b + S k) with (length b + 1 + k) by lia. reflexivity.
Qed.
Lemma nsr_discounted gamma l : forall b, Q2R (n_step_return gamma (b ++ map earned l) 0 (length b)) = discounted (Q2R gamma) l.
Proof.
  induction l as [|x l IH]; intros b; cbn [map discounted].
  - unfold n_step_return. rewrite app_nil_r, Nat.sub_diag. unfold Q2R. cbn. field.
  - rewrite (Qeq_eqR _ _ (nsr_step gamma b (earned x) (map earned l) 0%Q)), Q2R_plus, Q2R_mult, IH. reflexivity.
Qed.
Lemma nsr_at gamma l i : i < length l -> Q2R (n_step_return gamma (map earned l) 0 i) = discounted (Q2R gamma) (skipn i l).
Proof.
  intros Hi. rewrite <- (nsr_discounted gamma (skipn i l) (map earned (firstn i l))). rewrite <- map_app, firstn_skipn, map_length, firstn_length_le by lia. reflexivity.
Qed.

(** ** The direction of an episode *)
Section Direction.
Context (g beta : R) (v : nat -> R) (score : nat -> nat -> R) (dH : nat -> R).
Fixpoint advantage_direction (l : list step) : R := match l with [] => 0%R | x :: r => ((discounted g l - v (at_state x)) * score (at_state x) (took x) + beta * dH (at_state x) + advantage_direction r)%R end.
Lemma terms_direction {P RS} (N : net nat P RS) p l : forall returns, (forall o, Q2R (value N p None o) = v o) -> length returns = length l -> (forall i, i < length l -> Q2R (nth i returns 0%Q) = discounted g (skipn i l)) ->
  policy_terms N beta score dH p (map (fun x => (None, at_state x)) l) (map took l) returns = advantage_direction l.
Proof.
  induction l as [|x l IH]; intros [|G returns] HV E H; try discriminate E; [reflexivity|]. cbn [map policy_terms advantage_direction]. rewrite HV. pose proof (H 0 ltac:(cbn; lia)) as H0. cbn [nth skipn] in H0. rewrite H0.
  rewrite (IH returns HV) by (try (cbn in E; lia); intros i Hi; exact (H (S i) ltac:(cbn; lia))). reflexivity.
Qed.
Lemma advantage_split l : advantage_direction l = (weighted score 1 (discounted g) l + ((-1) * over_steps l (fun x => v (at_state x) * score (at_state x) (took x)) + beta * over_steps l (fun x => dH (at_state x))))%R.
Proof. induction l as [|x l IH]; cbn [advantage_direction weighted over_steps]; [ring|]. rewrite IH. ring. Qed.
End Direction.
Lemma worker_direction {P RS} (N : net nat P RS) opt c beta score dH w s l : recurrent c = false -> 1 <= t_max c -> between_segments w -> ends_with s l -> length l <= t_max c ->
  worker_move N opt c beta score dH w l = (Q2R (loss_factor c (pi_loss_coef c) (length l)) * advantage_direction (Q2R (gamma c)) beta (fun o => Q2R (value N (model w) None o)) score dH l)%R.
Proof.
  intros Hc Ht B H HL. destruct (episode_update N opt c Hc Ht w s l B H HL) as (w' & os & u & E & EU & U). unfold worker_move. rewrite E, EU. cbn [fold_right]. destruct U as (U1 & U2 & U3 & U4 & U5 & U6 & _). rewrite map_length in *.
  unfold policy_direction. rewrite (Qeq_eqR _ _ U6). rewrite U1, U3, !map_map. cbn [tstep_of s_choice c_rs c_obs c_act]. change (map (fun x : step => took x) l) with (map took l).
  assert (UP : u_params u = model w). { destruct l as [|x l]; [destruct H|]. cbn [map] in U2. inversion U2. symmetry. assumption. }
  rewrite (terms_direction (Q2R (gamma c)) beta (fun o => Q2R (value N (u_params u) None o)) score dH N (u_params u) l (u_returns u)); [rewrite UP; ring|reflexivity|exact U4|].
  intros i Hi. rewrite (Qeq_eqR _ _ (U5 i Hi)). rewrite map_map. apply (nsr_at (gamma c) l i Hi).
Qed.

(** ** Expectations *)
Lemma ends_length D pi T : forall s f g, (forall l, ends_with s l -> length l <= T -> f l = g l) -> episodes D pi T s f = episodes D pi T s g.
Proof.
  induction T as [|T IH]; intros s f g H; [reflexivity|]. cbn [episodes]. apply oa_ext. intros a _. f_equal. apply oo_ext. apply Forall_forall. intros [p [[r s'] [|]]] _; cbn [snd].
  - apply H; [cbn; auto|cbn; lia].
  - apply IH. intros l Hl HL. apply H; [now apply ends_cons|cbn; lia].
Qed.
Section Baseline.
Context (D : problem) (W : well_formed D) (pi : R -> nat -> nat -> R) (theta : R) (score : nat -> nat -> R) (dH : nat -> R) (F : policy_family D pi theta score dH).
Lemma score_mean s : over_actions (seq 0 (S (last_action D))) (fun a => pi theta s a * score s a)%R = 0%R.
Proof.
  apply (uniqueness_limite (fun th => over_actions (seq 0 (S (last_action D))) (pi th s)) theta).
  - apply (dl_actions _ (fun th a => pi th s a)). intros a _. apply (dpi D pi theta score dH F).
  - apply (dl_ext (fun _ => 1%R)); [intros y; symmetry; apply (adds_up _ _ _ _ _ F)|]. apply derivable_pt_lim_const.
Qed.
Lemma outcomes_mass s a : s < states D -> a <= last_action D -> over_outcomes (outcomes D s a) (fun _ => 1%R) = 1%R.
Proof. intros Hs Ha. destruct (W s a Hs Ha) as [W1 _]. rewrite oo_one, (Qeq_eqR _ _ W1). unfold Q2R. cbn. field. Qed.
Lemma baseline v T : forall s, s < states D -> ends D T s -> episodes D (pi theta) T s (fun l => over_steps l (fun x => v (at_state x) * score (at_state x) (took x)))%R = 0%R.
Proof.
  induction T as [|T IH]; intros s Hs H; cbn [ends] in H; [destruct H|]. cbn [episodes]. transitivity (over_actions (seq 0 (S (last_action D))) (fun a => v s * (pi theta s a * score s a))%R); [|rewrite oa_scal, score_mean; ring].
  apply oa_ext. intros a Ha. apply in_seq in Ha. assert (Ha' : a <= last_action D) by lia. specialize (H a Ha'). destruct (W s a Hs Ha') as [_ W2]. rewrite Forall_forall in H, W2.
  rewrite (oo_ext _ _ (fun _ => (v s * score s a) * 1)%R); [rewrite oo_scal, (outcomes_mass s a Hs Ha'); ring|]. apply Forall_forall. intros [p [[r s'] [|]]] Hin; cbn [snd over_steps at_state took]; [ring|].
  destruct (H _ Hin) as [HH|HH]; [discriminate HH|]. cbn [snd] in HH. assert (Hs' : s' < states D) by apply (W2 _ Hin).
  rewrite ep_plus, (ep_const D W (pi theta) (adds_up _ _ _ _ _ F theta) T s' _ Hs' HH), (IH s' Hs' HH). ring.
Qed.
Lemma expected_advantage g beta v T s : s < states D -> ends D T s ->
  episodes D (pi theta) T s (advantage_direction g beta v score dH) = (episodes D (pi theta) T s (weighted score 1 (discounted g)) + beta * episodes D (pi theta) T s (fun l => over_steps l (fun x => dH (at_state x))))%R.
Proof. intros Hs H. rewrite (ep_ext D (pi theta) T s _ _ (fun l _ => advantage_split g beta v score dH l)). rewrite !ep_plus, !ep_scal, (baseline v T s Hs H). ring. Qed.

(** The bound on the length of episodes does not matter. *)
Lemma ep_S p T s f : episodes D p (S T) s f = over_actions (seq 0 (S (last_action D))) (fun a => (p s a * over_outcomes (outcomes D s a) (fun o => let '(r, s', terminal) := o in let x := mkStep s a r s' terminal in
  if terminal : bool then f [x] else episodes D p T s' (fun rest => f (x :: rest))))%R).
Proof. reflexivity. Qed.
Lemma ep_more p T : forall s f, s < states D -> ends D T s -> episodes D p (S T) s f = episodes D p T s f.
Proof.
  induction T as [|T IH]; intros s f Hs H; [destruct H|]. cbn [ends] in H. rewrite (ep_S p (S T) s f), (ep_S p T s f). apply oa_ext. intros a Ha. apply in_seq in Ha. assert (Ha' : a <= last_action D) by lia. specialize (H a Ha'). destruct (W s a Hs Ha') as [_ W2]. rewrite Forall_forall in H, W2.
  f_equal. apply oo_ext. apply Forall_forall. intros [q [[r s'] [|]]] Hin; cbn [snd]; [reflexivity|]. destruct (H _ Hin) as [HH|HH]; [discriminate HH|]. apply IH; [apply (W2 _ Hin)|exact HH].
Qed.
Lemma ends_more T : forall s, ends D T s -> ends D (S T) s.
Proof.
  induction T as [|T IH]; intros s H; [destruct H|]. intros a Ha. specialize (H a Ha). revert H. apply Forall_impl. intros [q [[r s'] t]] [E|E]; [now left|right; now apply IH].
Qed.
Lemma ep_same p T1 T2 s f : s < states D -> ends D T1 s -> ends D T2 s -> episodes D p T1 s f = episodes D p T2 s f.
Proof.
  intros Hs. assert (G : forall T k, ends D T s -> ends D (k + T) s /\ episodes D p (k + T) s f = episodes D p T s f).
  { intros T k H. induction k as [|k [IH1 IH2]]; [auto|]. cbn [Nat.add]. split; [now apply ends_more|]. rewrite <- IH2. now apply ep_more. }
  intros H1 H2. destruct (Nat.le_ge_cases T1 T2) as [L|L].
  - destruct (G T1 (T2 - T1) H1) as [_ E]. replace (T2 - T1 + T1) with T2 in E by lia. now symmetry.
  - destruct (G T2 (T1 - T2) H2) as [_ E]. now replace (T1 - T2 + T2) with T1 in E by lia.
Qed.

(** What action [a] earns in state [k] *)
Definition worth (g : R) (T k a : nat) : R := over_outcomes (outcomes D k a) (fun o => let '(r, s', terminal) := o in if terminal : bool then Q2R r else (Q2R r + g * episodes D (pi theta) T s' (discounted g))%R).
Lemma worth_same g T1 T2 k a : k < states D -> a <= last_action D -> ends D (S T1) k -> ends D (S T2) k -> worth g T1 k a = worth g T2 k a.
Proof.
  intros Hk Ha H1 H2. unfold worth. apply oo_ext. specialize (H1 a Ha). specialize (H2 a Ha). destruct (W k a Hk Ha) as [_ W2]. rewrite Forall_forall in *. intros [q [[r s'] [|]]] Hin; cbn [snd]; [reflexivity|].
  destruct (H1 _ Hin) as [E1|E1]; [discriminate E1|]. destruct (H2 _ Hin) as [E2|E2]; [discriminate E2|]. now rewrite (ep_same (pi theta) T1 T2 s' (discounted g) (proj2 (W2 _ Hin)) E1 E2).
Qed.
Definition local (g : R) (T k : nat) : R := over_actions (seq 0 (S (last_action D))) (fun a => pi theta k a * score k a * worth g T k a)%R.
(** If the parameter matters in state [k] only *)
Lemma single k T0 g h : k < states D -> ends D (S T0) k -> (forall s a, s <> k -> score s a = 0%R) -> forall T s, s < states D -> ends D T s ->
  episodes D (pi theta) T s (weighted score h (discounted g)) = (episodes D (pi theta) T s (visits h k) * local g T0 k)%R.
Proof.
  intros Hk Hend H0. induction T as [|T IH]; intros s Hs H; [destruct H|]. pose proof H as HS. cbn [ends] in H. rewrite (ep_S _ _ s (weighted score h (discounted g))), (ep_S _ _ s (visits h k)).
  (* the contribution of the first step, and that of the others *)
  set (rest := fun f : list step -> R => over_actions (seq 0 (S (last_action D))) (fun a => pi theta s a * over_outcomes (outcomes D s a) (fun o => let '(r, s', terminal) := o in if terminal : bool then 0 else episodes D (pi theta) T s' f))%R).
  assert (E1 : over_actions (seq 0 (S (last_action D))) (fun a => (pi theta s a * over_outcomes (outcomes D s a) (fun o => let '(r, s', terminal) := o in let x := mkStep s a r s' terminal in
      if terminal : bool then weighted score h (discounted g) [x] else episodes D (pi theta) T s' (fun l => weighted score h (discounted g) (x :: l))))%R)
    = (over_actions (seq 0 (S (last_action D))) (fun a => pi theta s a * score s a * worth g T s a) + h * rest (weighted score h (discounted g)))%R).
  { unfold rest. rewrite <- oa_scal, <- oa_plus. apply oa_ext. intros a Ha. apply in_seq in Ha. assert (Ha' : a <= last_action D) by lia. specialize (H a Ha'). destruct (W s a Hs Ha') as [_ W2]. rewrite Forall_forall in H, W2.
    match goal with |- _ = (?p * ?q * ?w + h * (?p * ?z))%R => replace (p * q * w + h * (p * z))%R with (p * (q * w + h * z))%R by ring end. f_equal. unfold worth. rewrite <- !oo_scal, <- oo_plus. apply oo_ext. apply Forall_forall.
    intros [q [[r s'] [|]]] Hin; cbn [snd]; [cbn [weighted discounted earned at_state took]; ring|]. destruct (H _ Hin) as [HH|HH]; [discriminate HH|]. cbn [snd] in HH. assert (Hs' : s' < states D) by apply (W2 _ Hin).
    cbn [weighted discounted earned at_state took]. rewrite (ep_ext D (pi theta) T s' _ (fun l => score s a * Q2R r + ((score s a * g) * discounted g l + h * weighted score h (discounted g) l))%R) by (intros; ring).
    rewrite !ep_plus, (ep_const D W (pi theta) (adds_up _ _ _ _ _ F theta) T s' _ Hs' HH), !ep_scal. ring. }
  assert (E2 : over_actions (seq 0 (S (last_action D))) (fun a => (pi theta s a * over_outcomes (outcomes D s a) (fun o => let '(r, s', terminal) := o in let x := mkStep s a r s' terminal in
      if terminal : bool then visits h k [x] else episodes D (pi theta) T s' (fun l => visits h k (x :: l))))%R)
    = ((if s =? k then 1 else 0) + h * rest (visits h k))%R).
  { unfold rest. rewrite <- (Rmult_1_r (if s =? k then 1 else 0)%R). rewrite <- (adds_up _ _ _ _ _ F theta s) at 2. rewrite <- !oa_scal, <- oa_plus. apply oa_ext. intros a Ha. apply in_seq in Ha. assert (Ha' : a <= last_action D) by lia. specialize (H a Ha').
    destruct (W s a Hs Ha') as [_ W2]. rewrite Forall_forall in H, W2. rewrite (oo_ext _ _ (fun o => (if s =? k then 1 else 0) * 1 + h * (let '(r, s', terminal) := o in if terminal : bool then 0 else episodes D (pi theta) T s' (visits h k)))%R).
    - rewrite oo_plus, !oo_scal, (outcomes_mass s a Hs Ha'). ring.
    - apply Forall_forall. intros [q [[r s'] [|]]] Hin; cbn [snd]; [cbn [visits at_state]; ring|]. destruct (H _ Hin) as [HH|HH]; [discriminate HH|]. cbn [snd] in HH. assert (Hs' : s' < states D) by apply (W2 _ Hin).
      cbn [visits at_state]. rewrite ep_plus, (ep_const D W (pi theta) (adds_up _ _ _ _ _ F theta) T s' _ Hs' HH), ep_scal. ring. }
  assert (E3 : rest (weighted score h (discounted g)) = (rest (visits h k) * local g T0 k)%R).
  { unfold rest. rewrite Rmult_comm, <- oa_scal. apply oa_ext. intros a Ha. apply in_seq in Ha. assert (Ha' : a <= last_action D) by lia. specialize (H a Ha'). destruct (W s a Hs Ha') as [_ W2]. rewrite Forall_forall in H, W2.
    match goal with |- _ = (?l * (?p * ?z))%R => replace (l * (p * z))%R with (p * (l * z))%R by ring end. f_equal. rewrite <- oo_scal. apply oo_ext. apply Forall_forall. intros [q [[r s'] [|]]] Hin; cbn [snd]; [ring|].
    destruct (H _ Hin) as [HH|HH]; [discriminate HH|]. cbn [snd] in HH. rewrite (IH s' (proj2 (W2 _ Hin)) HH). ring. }
  rewrite E1, E2, E3. destruct (Nat.eqb_spec s k) as [->|NE].
  - assert (EL : over_actions (seq 0 (S (last_action D))) (fun a => pi theta k a * score k a * worth g T k a)%R = local g T0 k).
    { unfold local. apply oa_ext. intros a Ha. apply in_seq in Ha. rewrite (worth_same g T T0 k a Hk) by (try lia; assumption). reflexivity. }
    rewrite EL. ring.
  - rewrite (oa_ext _ _ (fun a => 0 * 0)%R) by (intros a _; rewrite (H0 s a NE); ring). rewrite oa_scal. ring.
Qed.
End Baseline.
