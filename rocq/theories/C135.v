(** C135: dynamic policy programming (DPP, DPPL, DPPGreedy), fitted exactly, finds the optimal policy of every finite decision problem. *)
From Coq Require Import Setoid Reals QArith Qreals Qminmax Lra.
From Verif Require Import Base P_Base M_ReplayBuffer M_Batch M_ActionValue M_Targets M_Boltzmann M_DPP S_Targets P_Targets S_ValueIteration P_ValueIteration P_FittedTargets P_DPP C134.
Close Scope Q_scope. Close Scope R_scope. Open Scope nat_scope.

(** The operator's answer for [n] action values is within [c] of the largest one. *)
Definition near_max (n : nat) (c : R) (L : list Q -> result Q) : Prop :=
  (forall l, l <> [] -> exists v, L l = Ok v) /\ forall l m v, length l = n -> is_max l m -> L l = Ok v -> (Rabs (Q2R v - Q2R m) <= c)%R.
(** The operator computes [f] with an error of at most [eps]. *)
Definition computes (eps : R) (f : list R -> R) (L : list Q -> result Q) : Prop := forall l, l <> [] -> exists v, L l = Ok v /\ (Rabs (Q2R v - f (map Q2R l)) <= eps)%R.
(** Every entry grows or falls with the number of iterations like the difference between the optimal value of the action and that of the state: it is bounded for optimal actions and falls linearly for the others. *)
Definition entries_follow_gaps (D : problem) (gamma : Q) (q : nat -> nat -> list Q) (U : nat -> R) : Prop :=
  exists C, forall k s a x, s < states D -> a <= last_action D -> nth_error (q k s) a = Some x -> (Rabs (Q2R x - INR k * (expected_value gamma U (outcomes D s a) - U s)) <= C)%R.

(** ** From the targets to the iteration over the reals *)
Definition rel_dpp (L : list Q -> result Q) (gamma : Q) : (nat -> list Q) -> nat -> nat -> Q -> nat -> bool -> Q -> Prop :=
  fun q s a r s' tm t => exists v l l', nth_error (q s) a = Some v /\ L (q s) = Ok l /\ L (q s') = Ok l' /\ (t == v + one_target gamma r tm l' - l)%Q.
Lemma det_dpp L gamma : (forall l, l <> [] -> exists v, L l = Ok v) -> determines (dpp_target L) gamma (rel_dpp L gamma).
Proof.
  intros HL q s a r s' tm Hs Hs'. destruct (nth_error (q s) a) as [v|] eqn:N; [|apply nth_error_None in N; lia].
  destruct (HL (q s)) as (l & El); [intros E; rewrite E in Hs; exact (Nat.nlt_0_r _ Hs)|]. destruct (HL (q s')) as (l' & El'); [intros E; rewrite E in Hs'; exact (Nat.nlt_0_r _ Hs')|].
  unfold dpp_target, one_batch, evaluate_action, gather. cbn [b_next_state b_reward b_discount b_terminal b_state b_action map rmapM rbind combine fst snd]. rewrite N. cbn [rbind]. rewrite El, El'. cbn [rbind bellman combine map].
  eexists. split; [reflexivity|]. exists v, l, l'. do 3 (split; [assumption|]). apply Qplus_comp; [|reflexivity]. apply Qplus_comp; [reflexivity|]. apply one_bellman.
Qed.
Definition answer (L : list Q -> result Q) (l : list Q) : R := match L l with Ok v => Q2R v | Err _ => 0%R end.
Lemma Raverage_dpp L gamma q s a v : forall l ts, Forall2 (fun o t => let '(_, (r, s', tm)) := o in rel_dpp L gamma q s a r s' tm t) l ts -> nth_error (q s) a = Some v ->
  Raverage l ts = (expected_value gamma (fun s => answer L (q s)) l + (Q2R v - answer L (q s)) * Q2R (total_probability l))%R.
Proof.
  intros l ts F N. induction F as [|[p [[r s'] tm]] t l ts (v' & x & x' & N' & E & E' & Et) F IH]; cbn [Raverage expected_value total_probability]; [unfold Q2R; cbn; lra|]. rewrite IH, Q2R_plus, (Qeq_eqR _ _ Et), Q2R_minus, Q2R_plus, one_real. assert (A : answer L (q s) = Q2R x) by (unfold answer; now rewrite E). assert (A' : answer L (q s') = Q2R x') by (unfold answer; now rewrite E'). rewrite A, A'.
  rewrite N in N'. injection N' as <-. destruct tm; ring.
Qed.
(** ** The theorem for every operator near the maximum *)
Theorem C135_near_max D gamma L c q : well_formed D -> unit_interval gamma -> near_max (S (last_action D)) c L -> iterates D gamma (dpp_target L) q ->
  exists U, eventually_optimal D gamma q U /\ entries_follow_gaps D gamma q U.
Proof.
  intros W Hg [HL HN] HI. pose proof (Rbounds gamma Hg) as Rg. pose proof (wf_real D W) as WR. pose proof (tables D gamma _ q HI) as Tb.
  assert (Mx : forall k s, s < states D -> exists m, is_max (q k s) m) by (intros k s Hs; destruct (max_ok (q k s)) as (m & _ & M); [intros E; specialize (Tb k s Hs); rewrite E in Tb; discriminate|eauto]).
  assert (Hc : (0 <= Rmax 0 c)%R) by apply Rmax_l.
  assert (Near : forall k s, s < states D -> (Rabs (answer L (q k s) - vmax (entry (q k s)) (last_action D)) <= Rmax 0 c)%R).
  { intros k s Hs. destruct (Mx k s Hs) as (m & M). rewrite (vmax_row _ _ m (Tb k s Hs) M). destruct (HL (q k s)) as (v & E); [intros E; specialize (Tb k s Hs); rewrite E in Tb; discriminate|]. unfold answer. rewrite E. eapply Rle_trans; [exact (HN _ m v (Tb k s Hs) M E)|apply Rmax_r]. }
  assert (Next : forall k s a, s < states D -> a <= last_action D -> entry (q (S k) s) a = (entry (q k s) a + ev (Q2R gamma) (fun s => answer L (q k s)) (rout D s a) - answer L (q k s))%R).
  { intros k s a Hs Ha. destruct (fits_rel D W gamma _ _ (det_dpp L gamma HL) (q k) (q (S k)) s a (Tb k) (proj2 (proj2 HI k)) Hs Ha) as (ts & -> & F).
    destruct (nth_error (q k s) a) as [v|] eqn:N; [|apply nth_error_None in N; rewrite (Tb k s Hs) in N; lia]. rewrite (Raverage_dpp L gamma (q k) s a v _ _ F N), (entry_eq _ _ _ N), ev_rout. destruct (W s a Hs Ha) as [P _]. rewrite (Qeq_eqR _ _ P). replace (Q2R 1) with 1%R by (unfold Q2R; cbn; lra). ring. }
  destruct (bellman_exists (states D) (last_action D) (Q2R gamma) Rg (rout D) WR) as (U & HB). exists U. split.
  - destruct (dpp_greedy (states D) (last_action D) (Q2R gamma) Rg (rout D) WR (Rmax 0 c) Hc (fun k s a => entry (q k s) a) (fun k s => answer L (q k s)) Near Next U HB) as (N & HG). exists N. intros k policy Hk G.
    assert (Adm : admissible D policy) by (intros s Hs; exact (proj1 (argmax_row _ _ _ (Tb k s Hs) (G s Hs)))). split; [exact Adm|]. split.
    + intros s Hs. rewrite <- ev_rout. symmetry. apply (HG k); [exact Hk|exact Hs|now apply Adm|]. exact (proj2 (argmax_row _ _ _ (Tb k s Hs) (G s Hs))).
    + intros policy' U' Adm' V'. apply (earns_le (states D) (last_action D) (Q2R gamma) Rg (rout D) WR U policy' U' HB Adm'). intros s Hs. rewrite ev_rout. now apply V'.
  - destruct (entries (states D) (last_action D) (Q2R gamma) Rg (rout D) WR (Rmax 0 c) Hc (fun k s a => entry (q k s) a) (fun k s => answer L (q k s)) Near Next U HB) as (C & _ & HC). exists C. intros k s a x Hs Ha Hx. specialize (HC k s a Hs Ha). cbv beta in HC. rewrite ev_rout, (entry_eq _ _ _ Hx) in HC. exact HC.
Qed.

(** ** The three operators are near the maximum *)
Lemma max_real l m : is_max l m -> In (Q2R m) (map Q2R l) /\ forall x, In x (map Q2R l) -> (x <= Q2R m)%R.
Proof. intros [Hin Hm]. split; [now apply in_map|]. intros x Hx. apply in_map_iff in Hx. destruct Hx as (y & <- & Hy). apply Q2R_le. now apply Hm. Qed.
Lemma computed_near n f eps c L : computes eps f L -> (forall row v, length row = n -> In v row -> (forall x, In x row -> (x <= v)%R) -> (Rabs (f row - v) <= c)%R) -> near_max n (eps + c)%R L.
Proof.
  intros HC Hf. split; [intros l Hl; destruct (HC l Hl) as (v & E & _); eauto|]. intros l m v Hl M E. destruct (HC l) as (v' & E' & B); [intros ->; destruct M as [[] _]|]. rewrite E in E'. injection E' as <-.
  destruct (max_real l m M) as [Hin Hmx]. specialize (Hf (map Q2R l) (Q2R m) ltac:(now rewrite map_length) Hin Hmx). replace (Q2R v - Q2R m)%R with ((Q2R v - f (map Q2R l)) + (f (map Q2R l) - Q2R m))%R by ring. eapply Rle_trans; [apply Rabs_triang|]. lra.
Qed.
Theorem C135_softmax_near n eta eps L : (0 < eta)%R -> computes eps (compute_expectation eta) L -> near_max n (eps + INR n / eta)%R L.
Proof.
  intros He HC. apply (computed_near n (compute_expectation eta)); [exact HC|]. intros row v <- Hv Hm. destruct (expectation_near eta row v He Hv Hm) as [A B]. apply Rabs_le. assert (0 <= INR (length row) / eta)%R by (apply Rmult_le_pos; [apply pos_INR|left; now apply Rinv_0_lt_compat]). lra.
Qed.
Theorem C135_logsumexp_near n eta eps L : (0 < eta)%R -> computes eps (logsumexp_over eta) L -> near_max n (eps + ln (INR n) / eta)%R L.
Proof. intros He HC. apply (computed_near n (logsumexp_over eta)); [exact HC|]. intros row v <- Hv Hm. destruct (logsumexp_near eta row v He Hv Hm) as [A B]. apply Rabs_le. lra. Qed.

(** ** The agents *)
(** DPP: the softmax operator, computed with any bounded error *)
Theorem C135_dpp D gamma eta eps L q : well_formed D -> unit_interval gamma -> (0 < eta)%R -> computes eps (compute_expectation eta) L -> iterates D gamma (dpp_target L) q ->
  exists U, eventually_optimal D gamma q U /\ entries_follow_gaps D gamma q U.
Proof. intros W Hg He HC. apply (C135_near_max D gamma L _ q W Hg (C135_softmax_near _ eta eps L He HC)). Qed.
(** DPPL: the log-sum-exp operator *)
Theorem C135_dppl D gamma eta eps L q : well_formed D -> unit_interval gamma -> (0 < eta)%R -> computes eps (logsumexp_over eta) L -> iterates D gamma (dpp_target L) q ->
  exists U, eventually_optimal D gamma q U /\ entries_follow_gaps D gamma q U.
Proof. intros W Hg He HC. apply (C135_near_max D gamma L _ q W Hg (C135_logsumexp_near _ eta eps L He HC)). Qed.
(** DPPGreedy: the maximum *)
Theorem C135_dpp_greedy D gamma q : well_formed D -> unit_interval gamma -> iterates D gamma (dpp_target max) q ->
  exists U, eventually_optimal D gamma q U /\ entries_follow_gaps D gamma q U.
Proof.
  intros W Hg. apply (C135_near_max D gamma max 0%R q W Hg). split; [intros l Hl; destruct (max_ok l Hl) as (v & E & _); eauto|]. intros l m v Hl M E. destruct (max_ok l) as (v' & E' & M'); [intros ->; discriminate|]. rewrite E in E'. injection E' as <-.
  assert (X : (v == m)%Q) by (apply Qle_antisym; [apply M, M'|apply M', M]). rewrite (Qeq_eqR _ _ X), Rminus_diag_eq by reflexivity. rewrite Rabs_R0. lra.
Qed.
(** The iteration exists from every table, for every operator that answers. *)
Theorem C135_iterates_exist D gamma L q0 : well_formed D -> table D q0 -> (forall l, l <> [] -> exists v, L l = Ok v) -> exists q, q 0 = q0 /\ iterates D gamma (dpp_target L) q.
Proof. intros W Tb HL. exists (iterated D gamma (dpp_target L) q0). split; [reflexivity|]. exact (iterated_ok D W gamma _ _ (det_dpp L gamma HL) q0 Tb). Qed.

(** The example of C134 with the maximum: the wrong action of state 0 is short of the optimal value 8/3 by 5/3 and of state 1 by 20/3. *)
Example C135_two : map (fun k => map (fun s => map Qred (iterated two (1 # 2) (dpp_target max) start k s)) [0; 1]) [0; 1; 2; 3; 4] =
  [[[5; 0]; [5; 0]]; [[1; -5 # 2]; [5 # 2; 3]]; [[1; -5 # 2]; [0; 8]]; [[1; -5 # 4]; [-15 # 2; 8]]; [[1; 0]; [-15; 8]]]%Q.
Proof. vm_compute. reflexivity. Qed.
(** The hypotheses of C135_dpp and C135_dppl can be met, with any precision: rounding up to a multiple of 1/N. *)
Definition rounded_up (N : positive) (f : list R -> R) (l : list Q) : result Q := match l with [] => Err IndexError | _ => Ok (Qmake (up (IZR (Zpos N) * f (map Q2R l))) N) end.
Example C135_computes N f : computes (/ IZR (Zpos N)) f (rounded_up N f).
Proof.
  intros l Hl. destruct l as [|x l]; [congruence|]. eexists. split; [reflexivity|]. set (y := f (map Q2R (x :: l))). destruct (archimed (IZR (Zpos N) * y)) as [A B]. assert (P : (0 < IZR (Zpos N))%R) by (apply IZR_lt; reflexivity).
  unfold Q2R. cbn [Qnum Qden]. set (z := up _) in *. replace (IZR z * / IZR (Zpos N) - y)%R with ((IZR z - IZR (Zpos N) * y) * / IZR (Zpos N))%R by (field; lra).
  rewrite Rabs_right; [|apply Rle_ge, Rmult_le_pos; [lra|left; now apply Rinv_0_lt_compat]]. rewrite <- (Rmult_1_l (/ IZR (Zpos N))) at 2. apply Rmult_le_compat_r; [left; now apply Rinv_0_lt_compat|lra].
Qed.

Print Assumptions C135_near_max.
Print Assumptions C135_softmax_near.
Print Assumptions C135_logsumexp_near.
Print Assumptions C135_dpp.
Print Assumptions C135_dppl.
Print Assumptions C135_dpp_greedy.
Print Assumptions C135_iterates_exist.
