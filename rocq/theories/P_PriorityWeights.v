(** Lemmas for C49. *)
From Coq Require Import Reals QArith Qreals Lra.
From Verif Require Import Base P_Base M_Prioritized S_Prioritized P_PriorityTree P_Prioritized P_PrioritizedProps M_PriorityWeights S_PriorityWeights.
Local Open Scope R_scope.

Lemma pypow_pos x y : 0 < x -> pypow x y = Ok (Rpower x y).
Proof. intros H. unfold pypow. destruct (Rlt_dec 0 x); [reflexivity|contradiction]. Qed.

Lemma Rpower_neg_le x b : 1 <= x -> 0 <= b -> 0 < Rpower x (- b) <= 1.
Proof.
  intros Hx Hb. unfold Rpower. split; [apply exp_pos|]. rewrite <- exp_0.
  assert (0 <= ln x). { destruct Hx as [Hx|<-]; [|rewrite ln_1; lra]. rewrite <- ln_1. left. apply ln_increasing; lra. }
  assert (H0 : - b * ln x <= 0) by nra. destruct H0 as [H0| ->]; [left; now apply exp_increasing|right; reflexivity].
Qed.
Lemma Rpower_one b : Rpower 1 b = 1.
Proof. unfold Rpower. rewrite ln_1, Rmult_0_r. apply exp_0. Qed.

Lemma mapR_Forall2 {X Y} (f : X -> result Y) l : (forall x, In x l -> exists y, f x = Ok y) ->
  exists ys, mapR f l = Ok ys /\ Forall2 (fun x y => f x = Ok y) l ys.
Proof.
  induction l as [|x l IH]; intros H; cbn; [eauto|]. destruct (H x) as (y & Ey); [now left|]. rewrite Ey. cbn.
  destruct IH as (ys & E & HF); [intros; apply H; now right|]. rewrite E. cbn. exists (y :: ys). split; auto.
Qed.

Lemma np_min_ok l : l <> [] -> exists m, np_min l = Ok m /\ In m l /\ Forall (fun x => m <= x) l.
Proof.
  induction l as [|x l IH]; [congruence|]. intros _. destruct l as [|y t].
  - exists x. cbn. split; [reflexivity|]. split; [now left|]. constructor; [lra|constructor].
  - destruct IH as (m & E & Hin & Hall); [discriminate|]. change (np_min (x :: y :: t)) with (m <- np_min (y :: t) ;; Ok (Rmin x m)).
    rewrite E. cbn [rbind]. exists (Rmin x m). split; [reflexivity|]. split.
    + unfold Rmin. destruct (Rle_dec x m); [now left|now right].
    + constructor; [apply Rmin_l|]. eapply Forall_impl; [|exact Hall]. cbn beta. intros a Ha. pose proof (Rmin_r x m). lra.
Qed.

Lemma weights_ok w n probs mp m :
  norm w <> NoNorm -> 0 <= beta w -> 0 < m -> Forall (fun p => m <= p) probs -> probs <> [] ->
  (match norm w with NormBatch => In m probs | _ => mp = m end) ->
  exists w' ws, weights_from_probabilities w n probs mp = Ok (w', ws) /\
    Forall2 (fun p x => 0 < x <= 1 /\ (p = m -> x = 1) /\ x = Rpower (p / m) (- beta w)) probs ws /\
    beta w' = Rmin 1 (beta w + beta_add w) /\ beta_add w' = beta_add w /\ norm w' = norm w.
Proof.
  intros Hn Hb Hm Hall Hne Hmin. unfold weights_from_probabilities.
  assert (Emp : (match norm w with NormBatch => np_min probs | _ => Ok mp end) = Ok m).
  { destruct (norm w); [congruence| |now rewrite Hmin].
    destruct (np_min_ok probs Hne) as (m' & E & Hin & Hall'). rewrite E. f_equal.
    rewrite Forall_forall in Hall, Hall'. apply Rle_antisym; auto. }
  rewrite Emp. cbn [rbind].
  destruct (mapR_Forall2 (fun p => pypow (p / m) (- beta w)) probs) as (ws & E & HF).
  { intros p Hp. rewrite Forall_forall in Hall. specialize (Hall p Hp). rewrite pypow_pos; [eauto|].
    apply Rdiv_lt_0_compat; lra. }
  assert (E' : (match norm w with NoNorm => mapR (fun p => pypow (INR n * p) (- beta w)) probs
                | _ => mapR (fun p => pypow (p / m) (- beta w)) probs end) = Ok ws) by (destruct (norm w); [congruence|exact E|exact E]).
  rewrite E'. cbn [rbind]. eexists _, ws. split; [reflexivity|]. cbn. split; [|auto].
  clear -HF Hall Hm Hb. induction HF as [|p x probs ws Hx HF IH]; constructor; [|apply IH; inversion Hall; auto].
  inversion Hall as [|? ? Hp _]; subst. rewrite pypow_pos in Hx by (apply Rdiv_lt_0_compat; lra). injection Hx as <-.
  assert (1 <= p / m). { apply (Rmult_le_reg_r m); [exact Hm|]. unfold Rdiv. rewrite Rmult_assoc, Rinv_l; lra. }
  split; [now apply Rpower_neg_le|]. split; [|reflexivity]. intros ->. unfold Rdiv. rewrite Rinv_r by lra. apply Rpower_one.
Qed.

(** The beta schedule. *)
Fixpoint iter_beta (k : nat) (add b : R) : R := match k with O => b | S k => iter_beta k add (Rmin 1 (b + add)) end.
Lemma iter_beta_closed k : forall add b, 0 <= add -> b <= 1 -> iter_beta k add b = Rmin 1 (b + INR k * add).
Proof.
  induction k as [|k IH]; intros add b Ha Hb.
  - cbn. unfold Rmin. destruct (Rle_dec 1 (b + 0 * add)); lra.
  - cbn [iter_beta]. rewrite IH; [|lra|apply Rmin_l]. rewrite S_INR. unfold Rmin.
    destruct (Rle_dec 1 (b + add)).
    + assert (0 <= INR k) by apply pos_INR. destruct (Rle_dec 1 (1 + INR k * add)); destruct (Rle_dec 1 (b + (INR k + 1) * add)); nra.
    + destruct (Rle_dec 1 (b + add + INR k * add)); destruct (Rle_dec 1 (b + (INR k + 1) * add)); nra.
Qed.

Lemma weights_run_beta calls : forall w w', weights_run w calls = Ok w' ->
  beta w' = iter_beta (length calls) (beta_add w) (beta w) /\ beta_add w' = beta_add w.
Proof.
  induction calls as [|[[n ps] m] t IH]; intros w w' H; cbn in H; [injection H as <-; auto|].
  unfold weights_from_probabilities in H. destruct (match norm w with NormBatch => np_min ps | _ => Ok m end); cbn in H; [|discriminate].
  match type of H with rbind (rbind ?x _) _ = _ => destruct x; cbn in H; [|discriminate] end.
  apply IH in H. cbn in H. cbn [length iter_beta]. exact H.
Qed.

Lemma beta_schedule al beta0 steps ep nm emin emax w calls w' : 0 < steps ->
  pwe_init al beta0 (Some steps) ep nm emin emax = Ok w -> weights_run w calls = Ok w' ->
  beta w' = Rmin 1 (beta0 + INR (length calls) * ((1 - beta0) / steps)) /\ beta0 <= beta w' <= 1 /\
  (steps <= INR (length calls) -> beta w' = 1).
Proof.
  intros Hs Hi Hr. unfold pwe_init in Hi.
  destruct (Rle_dec 0 al); [|discriminate]. destruct (Rle_dec 0 beta0) as [H0|]; [|discriminate]. destruct (Rle_dec beta0 1) as [H1|]; [|discriminate].
  destruct (Req_EM_T steps 0); [discriminate|]. injection Hi as <-.
  apply weights_run_beta in Hr as [Hb _]. cbn in Hb.
  assert (Ha : 0 <= (1 - beta0) / steps).
  { unfold Rdiv. apply Rmult_le_pos; [lra|]. left. now apply Rinv_0_lt_compat. }
  rewrite iter_beta_closed in Hb by (auto; lra). split; [exact Hb|].
  assert (Hk : 0 <= INR (length calls)) by apply pos_INR.
  split.
  - rewrite Hb. split; [|apply Rmin_l]. apply Rmin_glb; [lra|]. nra.
  - intros Hge. rewrite Hb. apply Rmin_left.
    assert ((1 - beta0) / steps * steps = 1 - beta0) by (field; lra). nra.
Qed.

(** Priorities computed from errors are positive (so set_last_priority accepts them). *)
Lemma priorities_positive w errors : 0 < eps w ->
  (forall d, In d errors -> 0 <= clip_error w d) ->
  exists ps, priority_from_errors w errors = Ok ps /\ Forall2 (fun d p => 0 < p /\ p = Rpower (clip_error w d + eps w) (alpha w)) errors ps.
Proof.
  intros He Hd. unfold priority_from_errors.
  destruct (mapR_Forall2 (fun d => pypow (clip_error w d + eps w) (alpha w)) errors) as (ps & E & HF).
  { intros d Hin. specialize (Hd d Hin). rewrite pypow_pos by lra. eauto. }
  exists ps. split; [exact E|]. clear E. induction HF as [|d p errors ps Hp HF IH]; constructor.
  - assert (0 <= clip_error w d) by (apply Hd; now left). rewrite pypow_pos in Hp by lra. injection Hp as <-.
    split; [apply exp_pos|reflexivity].
  - apply IH. intros x Hx. apply Hd. now right.
Qed.
Lemma priorities_monotone w d d' : 0 < eps w -> 0 <= alpha w -> 0 <= clip_error w d -> d <= d' ->
  Rpower (clip_error w d + eps w) (alpha w) <= Rpower (clip_error w d' + eps w) (alpha w).
Proof.
  intros He Ha Hc Hd.
  assert (clip_error w d <= clip_error w d').
  { assert (HM : forall m x y, x <= y -> Rmax m x <= Rmax m y) by (intros m x y H; apply Rle_max_compat_l; exact H).
    assert (Hm : forall m x y, x <= y -> Rmin m x <= Rmin m y) by (intros m x y H; apply Rle_min_compat_l; exact H).
    unfold clip_error. destruct (error_min w) as [m|], (error_max w) as [M|]; auto. }
  unfold Rpower. assert (ln (clip_error w d + eps w) <= ln (clip_error w d' + eps w)).
  { destruct H as [H| ->]; [|right; reflexivity]. left. apply ln_increasing; lra. }
  assert (HH : alpha w * ln (clip_error w d + eps w) <= alpha w * ln (clip_error w d' + eps w)) by nra.
  destruct HH as [HH| ->]; [left; now apply exp_increasing|right; reflexivity].
Qed.
Local Close Scope R_scope.

(** ** The buffer delivers probabilities that meet the hypotheses. *)
From Coq Require Import ZifyBool ZifyNat Lqa.
Definition wp (w p : Q) : Prop := (0 < p)%Q /\ (w = 0%Q \/ w = p).
Definition s_inv {A} (s : sbuf A) : Prop := Forall2 wp (s_ws s) (s_ps s).

Lemma Forall2_skipn {A B} (P : A -> B -> Prop) n : forall l l', Forall2 P l l' -> Forall2 P (skipn n l) (skipn n l').
Proof. induction n; intros l l' H; cbn; auto. destruct H; auto. Qed.
Lemma Forall2_trunc {A B} (P : A -> B -> Prop) ml l l' : Forall2 P l l' -> Forall2 P (trunc ml l) (trunc ml l').
Proof.
  intros H. destruct ml as [m|]; cbn; auto. unfold lastn. rewrite (Forall2_len _ _ _ H). now apply Forall2_skipn.
Qed.
Lemma Forall2_set {A B} (P : A -> B -> Prop) i x y : P x y -> forall l l', Forall2 P l l' -> Forall2 P (list_set l i x) (list_set l' i y).
Proof. intros Hxy l l' H. revert i. induction H; intros [|i]; cbn; auto. Qed.
Lemma Forall2_set_l {A B} (P : A -> B -> Prop) i x : (forall a b, P a b -> P x b) -> forall l l', Forall2 P l l' -> Forall2 P (list_set l i x) l'.
Proof. intros Hx l l' H. revert i. induction H; intros [|i]; cbn; constructor; eauto. Qed.

Lemma zero_at_wp ixs : forall ws ps, Forall2 wp ws ps -> Forall2 wp (zero_at ws ixs) ps.
Proof.
  unfold zero_at. induction ixs as [|i ixs IH]; intros ws ps H; cbn; auto. apply IH. apply Forall2_set_l; auto.
  intros a b (Hb & _). split; auto.
Qed.
Lemma assign_wp ixs : forall vs ws ps, Forall (fun p => 0 < p)%Q vs -> Forall2 wp ws ps -> Forall2 wp (assign ws ixs vs) (assign ps ixs vs).
Proof.
  unfold assign. induction ixs as [|i ixs IH]; intros vs ws ps Hv H; cbn; auto. destruct vs as [|v vs]; cbn; auto.
  inversion Hv; subst. apply IH; auto. apply Forall2_set; auto. split; auto.
Qed.

Lemma forallb_pos ps : forallb (Qltb 0) ps = true -> Forall (fun p => 0 < p)%Q ps.
Proof. intros H. rewrite forallb_forall in H. apply Forall_forall. intros x Hx. apply Qltb_lt. now apply H. Qed.

Lemma sb_step_wp {A} (s s' : sbuf A) o r : s_inv s -> sb_step s o = Some (s', r) -> s_inv s'.
Proof.
  unfold s_inv. intros H Hs. destruct o as [x p| |o u|ps|]; cbn [sb_step] in Hs.
  - destruct (Qltb 0 match p with Some p0 => p0 | None => s_max s end) eqn:Ep; cbn in Hs; [|discriminate]. apply Qltb_lt in Ep.
    destruct (s_cap s) as [[|c]|]; injection Hs as <- <-; cbn [s_ws s_ps]; auto.
    + refine (Forall2_trunc _ (Some (S c)) _ _ _). apply Forall2_app; auto. constructor; [split; auto|constructor].
    + cbn. apply Forall2_app; auto. constructor; [split; auto|constructor].
  - destruct (s_vals s); injection Hs as <- <-; auto. cbn. destruct H; cbn; auto.
  - destruct (s_wait s && s_flag s); [injection Hs as <- <-; auto|].
    destruct ((length (s_vals s) =? 0) || Qeq_bool (Qsum (s_ws s)) 0); [injection Hs as <- <-; auto|].
    destruct (negb _); [discriminate|]. 
    match type of Hs with match ?d with _ => _ end = _ => destruct d; [|discriminate] end. injection Hs as <- <-. cbn.
    destruct (s_wait s); auto. now apply zero_at_wp, zero_at_wp.
  - destruct (s_wait s && negb (s_flag s)); [injection Hs as <- <-; auto|].
    destruct (forallb (Qltb 0) ps) eqn:Ep; cbn in Hs; [|injection Hs as <- <-; auto].
    destruct (s_sampled s) as [ixs|]; [|injection Hs as <- <-; auto].
    destruct (length ixs =? length ps); cbn in Hs; [|injection Hs as <- <-; auto].
    destruct (forallb _ ixs); cbn in Hs; [|discriminate]. injection Hs as <- <-. cbn.
    apply assign_wp; auto. now apply forallb_pos.
  - injection Hs as <- <-. auto.
Qed.

Lemma sb_run_wp {A} ops : forall (s s' : sbuf A) rs, s_inv s -> sb_run s ops = Some (s', rs) -> s_inv s'.
Proof.
  induction ops as [|o ops IH]; intros s s' rs H Hr; cbn in Hr; [injection Hr as <- <-; auto|].
  destruct (sb_step s o) as [[s1 r]|] eqn:E; [|discriminate]. destruct (sb_run s1 ops) as [[s2 rs2]|] eqn:E2; [|discriminate].
  injection Hr as <- <-. eapply IH; [|exact E2]. eapply sb_step_wp; eauto.
Qed.

Lemma reachable_wp {A} (b : pbuf A) : reachable b -> exists s, pb_rel b s /\ s_inv s.
Proof.
  intros (cap & wait & m & ops & s & rs & E & ->). exists s. split.
  - exact (proj2 (pb_refines ops _ _ _ _ (pb_init_rel cap wait m) E)).
  - eapply sb_run_wp; [|exact E]. constructor.
Qed.

Lemma at_ixs_in {X} (l : list X) ixs x : In x (at_ixs l ixs) -> exists i, In i ixs /\ nth_error l i = Some x.
Proof.
  unfold at_ixs. intros H. apply in_flat_map in H. destruct H as (i & Hi & Hx). exists i. split; auto.
  destruct (nth_error l i); cbn in Hx; [destruct Hx as [->|[]]; auto|contradiction].
Qed.

Lemma Forall2_nth {X Y} (P : X -> Y -> Prop) l l' i x : Forall2 P l l' -> nth_error l i = Some x -> exists y, nth_error l' i = Some y /\ P x y.
Proof. intros H. revert i. induction H; intros [|i] E; cbn in *; try discriminate; eauto. injection E as ->. eauto. Qed.

Lemma Qdiv_le_pos a b t : (0 < t -> a <= b -> a / t <= b / t)%Q.
Proof. intros Ht H. unfold Qdiv. apply Qmult_le_compat_r; auto. apply Qlt_le_weak. now apply Qinv_lt_0_compat. Qed.

Lemma sample_probs {A} (b : pbuf A) o : reachable b -> oracle_ok (length (data b)) o -> enough b o 0 ->
  wait_after b && flag_wait b = false ->
  exists b1 xs ps m, pb_sample b o 0 = Ok (b1, (xs, ps, m)) /\ length xs = length (so_fracs o) /\ length ps = length (so_fracs o) /\
    (0 < m)%Q /\ Forall (fun p => m <= p)%Q ps.
Proof.
  intros Hreach Ho Hen Hwf. destruct (reachable_wp b Hreach) as (s & HR & HI).
  destruct (sample_ok A b o 0 Hreach Ho Hen Hwf) as (b1 & xs & probs & m & ixs & s1 & Es & HR1 & Hsam & _ & _ & _ & _ & _ & _ & _ & _ & Hlen & _ & Hxs & _).
  exists b1, xs, probs, m. split; [exact Es|].
  pose proof HR as (Hc & Hd & Hs & Hm & Hx & Hw & Hf & Hsi & L1 & L2 & Hnn & Hcap).
  rewrite Hw, Hf in Hwf.
  destruct (sample_in_contract b s o 0 HR Ho Hen Hwf) as (ds & probs' & m' & Ed & Hdl & Est).
  destruct (pb_step_refines b s (PSample o 0) _ _ HR Est) as [Hout _]. cbn [pb_step] in Hout. rewrite Es in Hout. cbn [snd out_eq] in Hout.
  destruct Hout as (_ & Hpr & Hmm).
  assert (Lxs : length xs = length (so_fracs o)). { apply Forall2_len in Hxs. rewrite <- Hxs, Hlen. reflexivity. }
  split; [exact Lxs|].
  cbn [sb_step] in Est. rewrite Hwf in Est.
  destruct ((length (s_vals s) =? 0) || Qeq_bool (Qsum (s_ws s)) 0) eqn:Ez; [discriminate|].
  destruct (negb _); [discriminate|].
  change (Qltb 0 0) with false in *. cbv iota in Est, Ed.
  rewrite Ed in Est.
  assert (Ews : (if s_wait s then zero_at (s_ws s) [] else s_ws s) = s_ws s) by (destruct (s_wait s); reflexivity).
  injection Est; intros Em Ep. rewrite Ews in Ed. cbn [at_ixs flat_map app] in Ep. assert (Ews2 : (if s_wait s then s_ws s else s_ws s) = s_ws s) by (destruct (s_wait s); reflexivity). change (map (fun w : Q => (0 / inject_Z (Z.of_nat (length (s_vals s))) + (1 - 0) * w / Qsum (s_ws s))%Q) (at_ixs (if s_wait s then s_ws s else s_ws s) ds) = probs') in Ep. rewrite Ews2 in Ep.
  apply orb_false_elim in Ez. destruct Ez as [Elen Ez].
  assert (Hnnw : Forall (Qle 0) (s_ws s)) by exact Hnn.
  assert (Ht : (0 < Qsum (s_ws s))%Q).
  { assert (0 <= Qsum (s_ws s))%Q. { clear -Hnnw. induction Hnnw; cbn; lra. }
    apply Qeq_bool_neq in Ez. destruct (Qlt_le_dec 0 (Qsum (s_ws s))) as [|C]; [auto|]. exfalso. apply Ez. lra. }
  assert (Hne : s_ps s <> []). { intros C. rewrite C in L2. cbn in L2. lia. }
  destruct (s_ps s) as [|p0 pt] eqn:Eps; [congruence|].
  destruct (Qminl_is_min 0 p0 pt) as [(pm & Hpm & Hpme) Hmin]. 
  assert (Hpos : (0 < Qminl 0 (p0 :: pt))%Q).
  { rewrite <- Hpme. unfold s_inv in HI. rewrite Eps in HI. clear -HI Hpm. induction HI as [|w p ws ps (Hp & _) H IH]; [destruct Hpm|].
    destruct Hpm as [->|Hpm]; auto. }
  assert (Lps : length probs = length (so_fracs o)).
  { rewrite (Forall2_len _ _ _ Hpr), <- Ep, map_length.
    pose proof (draws_bounds _ _ _ Ed) as Hdb. rewrite <- Hdl. clear -Hdb. induction ds as [|i ds IH]; [reflexivity|].
    inversion Hdb; subst. destruct (nth_error (s_ws s) i) eqn:E; [|apply nth_error_None in E; lia].
    rewrite (at_ixs_cons _ _ _ _ E). cbn. now rewrite IH. }
  split; [exact Lps|]. rewrite Hmm, <- Em. split.
  - apply Qlt_shift_div_l; [exact Ht|]. rewrite Qmult_0_l. exact Hpos.
  - assert (HF : Forall (fun p => Qminl 0 (p0 :: pt) / Qsum (s_ws s) <= p)%Q probs').
    { rewrite <- Ep. apply Forall_forall. intros p Hp. apply in_map_iff in Hp. destruct Hp as (w & <- & Hw').
      apply at_ixs_in in Hw'. destruct Hw' as (i & Hi & Enth).
      destruct (draws_positive _ _ _ Hnnw (proj2 (proj2 Ho)) Ed) as [_ Hdp]. rewrite Forall_forall in Hdp.
      destruct (Hdp i Hi) as (v & Ev & Hv). rewrite Enth in Ev. injection Ev as <-.
      unfold s_inv in HI. destruct (Forall2_nth _ _ _ _ _ HI Enth) as (p & Eip & Hpp & [Hw0|Hwp]); [subst w; lra|]. subst w.
      rewrite Eps in Eip. apply nth_error_In in Eip. specialize (Hmin p Eip).
      assert (E : (0 / inject_Z (Z.of_nat (length (s_vals s))) + (1 - 0) * p / Qsum (s_ws s) == p / Qsum (s_ws s))%Q).
      { unfold Qdiv. rewrite Qmult_0_l. ring. }
      rewrite E. apply Qdiv_le_pos; auto. }
    clear -Hpr HF Hmm Em. rewrite Forall_forall in *. intros p Hp. destruct (In_nth_error _ _ Hp) as (i & Ei).
    destruct (Forall2_nth _ _ _ _ _ Hpr Ei) as (q & Eq & Hq). rewrite Hq, Hmm, <- Em. apply HF. eapply nth_error_In; eauto.
Qed.

From Coq Require Import Lra.
Local Open Scope R_scope.
Lemma npos_le ws : (npos ws <= length ws)%nat.
Proof. unfold npos. induction ws as [|w ws IH]; cbn; [lia|]. destruct (Qltb 0 w); cbn; lia. Qed.

Lemma prb_sample_ok {A} (w : pwe) (b : pbuf A) o : reachable b -> oracle_ok (length (data b)) o -> enough b o 0 ->
  wait_after b && flag_wait b = false -> so_fracs o <> [] -> norm w <> NoNorm -> 0 <= beta w ->
  exists w' b' out, prb_sample w b (length (so_fracs o)) o = Ok (w', b', out) /\ length out = length (so_fracs o) /\
    Forall (fun xv => 0 < snd xv <= 1) out /\ (norm w = NormBatch -> Exists (fun xv => snd xv = 1) out) /\
    beta w' = Rmin 1 (beta w + beta_add w).
Proof.
  intros Hr Ho He Hw Hne Hn Hb. destruct (sample_probs b o Hr Ho He Hw) as (b1 & xs & ps & m & Es & Lx & Lp & Hm & HF).
  assert (Hlen : (length (so_fracs o) <=? length (data b))%nat = true).
  { destruct (reachable_rel b Hr) as (s & HR). pose proof (weights_length b s HR). pose proof (npos_le (weights b)).
    destruct He as [_ He]. change (Qltb 0 0) with false in He. cbv iota in He. lia. }
  unfold prb_sample. rewrite Hlen. cbn [passert rbind]. rewrite Es. cbn [rbind].
  assert (Hpne : map Q2R ps <> []). { destruct ps; cbn; [|discriminate]. destruct (so_fracs o); [congruence|discriminate]. }
  assert (Hm' : 0 < Q2R m) by (replace 0 with (Q2R 0) by (unfold Q2R; cbn; field); now apply Qlt_Rlt).
  assert (HFR : Forall (fun p => Q2R m <= p) (map Q2R ps)).
  { apply Forall_forall. intros p Hp. apply in_map_iff in Hp. destruct Hp as (q & <- & Hq). rewrite Forall_forall in HF. apply Qle_Rle. auto. }
  assert (HE : exists w' ws, weights_from_probabilities w (length (data b)) (map Q2R ps) (Q2R m) = Ok (w', ws) /\
     Forall (fun v => 0 < v <= 1) ws /\ length ws = length ps /\ (norm w = NormBatch -> In 1 ws) /\ beta w' = Rmin 1 (beta w + beta_add w)).
  { destruct (norm w) eqn:En; [congruence| |].
    - destruct (np_min_ok _ Hpne) as (m2 & Em2 & Hin2 & Hall2).
      assert (Q2R m <= m2). { rewrite Forall_forall in HFR. auto. }
      destruct (weights_ok w (length (data b)) (map Q2R ps) (Q2R m) m2) as (w' & ws & E & HW & Hbeta & _); auto; try congruence; [lra|now rewrite En|].
      exists w', ws. split; [exact E|].
      split; [|split; [|split; [|exact Hbeta]]].
      + clear -HW. induction HW as [|? ? ? ? (H & _)]; auto.
      + rewrite <- (Forall2_len _ _ _ HW). apply map_length.
      + intros _. destruct (In_nth_error _ _ Hin2) as (i & Ei). destruct (Forall2_nth _ _ _ _ _ HW Ei) as (y & Ey & _ & H1 & _).
        rewrite (H1 eq_refl) in Ey. eapply nth_error_In; eauto.
    - destruct (weights_ok w (length (data b)) (map Q2R ps) (Q2R m) (Q2R m)) as (w' & ws & E & HW & Hbeta & _); auto; try congruence; [now rewrite En|].
      exists w', ws. split; [exact E|]. split; [|split; [|split; [discriminate|exact Hbeta]]].
      + clear -HW. induction HW as [|? ? ? ? (H & _)]; auto.
      + rewrite <- (Forall2_len _ _ _ HW). apply map_length. }
  destruct HE as (w' & ws & E & HFw & Lw & H1 & Hbeta). rewrite E. cbn [rbind].
  eexists w', b1, _. split; [reflexivity|]. split; [rewrite combine_length; lia|]. split; [|split; [|exact Hbeta]].
  - apply Forall_forall. intros [x v] Hin. apply in_combine_r in Hin. rewrite Forall_forall in HFw. cbn. auto.
  - intros Hnb. specialize (H1 Hnb). apply Exists_exists. destruct (In_nth_error _ _ H1) as (i & Ei).
    assert (Hi : (i < length ws)%nat) by (apply nth_error_Some; congruence).
    destruct (nth_error xs i) as [x|] eqn:Ex; [|apply nth_error_None in Ex; lia].
    exists (x, 1). split; [|reflexivity]. clear -Ei Ex. revert ws i Ei Ex. induction xs as [|a xs IH]; intros ws [|i] Ei Ex; try discriminate; destruct ws; try discriminate; cbn in *.
    + injection Ei as ->; injection Ex as ->; auto.
    + right. eauto.
Qed.

Lemma weights_unnormalized w n probs mp : norm w = NoNorm -> (0 < n)%nat -> Forall (fun p => 0 < p) probs ->
  exists w' ws, weights_from_probabilities w n probs mp = Ok (w', ws) /\
    Forall2 (fun p v => v = Rpower (INR n * p) (- beta w)) probs ws.
Proof.
  intros Hn Hpos HF. unfold weights_from_probabilities. rewrite Hn. cbn [rbind].
  assert (0 < INR n) by now apply lt_0_INR.
  destruct (mapR_Forall2 (fun p => pypow (INR n * p) (- beta w)) probs) as (ws & E & H2).
  { intros p Hp. rewrite Forall_forall in HF. rewrite pypow_pos; [eauto|]. apply Rmult_lt_0_compat; auto. }
  rewrite E. cbn [rbind]. eexists _, ws. split; [reflexivity|]. clear E. induction H2 as [|p v ps vs Hp H2 IH]; constructor; [|inversion HF; auto].
  inversion HF; subst. rewrite pypow_pos in Hp by (now apply Rmult_lt_0_compat). now injection Hp as <-.
Qed.

Lemma beta_constant al beta0 ep nm emin emax w calls w' :
  pwe_init al beta0 None ep nm emin emax = Ok w -> weights_run w calls = Ok w' -> beta w' = beta0.
Proof.
  intros Hi Hr. unfold pwe_init in Hi.
  destruct (Rle_dec 0 al); [|discriminate]. destruct (Rle_dec 0 beta0) as [H0|]; [|discriminate]. destruct (Rle_dec beta0 1) as [H1|]; [|discriminate].
  injection Hi as <-. apply weights_run_beta in Hr as [Hb _]. cbn in Hb. rewrite iter_beta_closed in Hb by lra.
  rewrite Hb, Rmult_0_r, Rplus_0_r. now apply Rmin_right.
Qed.
