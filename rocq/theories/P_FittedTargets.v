(** Proofs for C134: from the agents' targets to the operators of P_ValueIteration.v. *)
From Coq Require Import Setoid Reals QArith Qreals Qminmax Lra.
From Verif Require Import Base P_Base M_ReplayBuffer M_Batch M_ActionValue M_Targets S_Targets P_Targets S_ValueIteration P_ValueIteration.
Close Scope Q_scope. Close Scope R_scope. Open Scope nat_scope.

(** ** One transition *)
Definition one_target (gamma : Q) (r : Q) (terminal : bool) (m' : Q) : Q := (r + (if terminal then 0 else gamma * m'))%Q.
Definition one_batch (gamma : Q) (s a : nat) (r : Q) (s' : nat) (tm : bool) : batch nat nat :=
  mkBatch [s] [a] [(0 + 1 * r)%Q] [s'] [if tm then 1%Q else 0%Q] [(gamma * 1)%Q] None.
Lemma one_batch_ok gamma s a r s' tm : batch_experiences gamma [[transition s a (r, s', tm)]] = Ok (one_batch gamma s a r s' tm).
Proof. destruct tm; reflexivity. Qed.
Lemma one_bellman gamma r (tm : bool) m' : ((0 + 1 * r) + gamma * 1 * (1 - (if tm then 1 else 0)) * m' == one_target gamma r tm m')%Q.
Proof. unfold one_target. destruct tm; ring. Qed.
Section One.
Context (gamma : Q) (q : nat -> list Q) (s a : nat) (r : Q) (s' : nat) (tm : bool) (Hs : a < length (q s)) (Hs' : a < length (q s')).
Lemma row' : q s' <> [].
Proof. clear Hs. intros E. rewrite E in Hs'. exact (Nat.nlt_0_r _ Hs'). Qed.
Lemma one_dqn : exists t, dqn_target q (one_batch gamma s a r s' tm) = Ok [t] /\ exists m', is_max (q s') m' /\ (t == one_target gamma r tm m')%Q.
Proof.
  destruct (max_ok (q s') row') as (m' & E & M). unfold dqn_target, one_batch. cbn [b_next_state b_reward b_discount b_terminal map rmapM rbind]. rewrite E. cbn [rbind bellman]. eexists. split; [reflexivity|]. exists m'. split; [exact M|]. apply one_bellman.
Qed.
Lemma one_double_dqn : exists t, double_dqn_target q q (one_batch gamma s a r s' tm) = Ok [t] /\ exists m', is_max (q s') m' /\ (t == one_target gamma r tm m')%Q.
Proof.
  destruct (argmax_ok (q s') row') as (i & E & (m' & N & M)). unfold double_dqn_target, one_batch, greedy_action, evaluate_action, gather. cbn [b_next_state b_reward b_discount b_terminal map rmapM rbind]. rewrite E. cbn [rbind combine rmapM fst snd]. rewrite N. cbn [rbind bellman].
  eexists. split; [reflexivity|]. exists m'. split; [split; [now apply nth_error_In in N|exact M]|]. apply one_bellman.
Qed.
Lemma one_al alpha : exists t, al_target alpha q (one_batch gamma s a r s' tm) = Ok [t] /\ exists m' m v, is_max (q s') m' /\ is_max (q s) m /\ nth_error (q s) a = Some v /\ (t == one_target gamma r tm m' + alpha * (v - m))%Q.
Proof.
  destruct (max_ok (q s') row') as (m' & E & M). destruct (advantage_ok (q s) a Hs) as (m & v & Mm & N & Ea). unfold al_target, one_batch. cbn [b_next_state b_reward b_discount b_terminal b_state b_action map rmapM rbind combine fst snd]. rewrite E. cbn [rbind]. rewrite Ea. cbn [rbind bellman]. unfold add_scaled. cbn [combine map fst snd].
  eexists. split; [reflexivity|]. exists m', m, v. do 3 (split; [assumption|]). apply Qplus_comp; [apply one_bellman|reflexivity].
Qed.
Lemma one_pal alpha : exists t, pal_target alpha q (one_batch gamma s a r s' tm) = Ok [t] /\ exists m' m v v', is_max (q s') m' /\ is_max (q s) m /\ nth_error (q s) a = Some v /\ nth_error (q s') a = Some v' /\ (t == one_target gamma r tm m' + alpha * Qmax (v - m) (v' - m'))%Q.
Proof.
  destruct (max_ok (q s') row') as (m' & E & M). destruct (advantage_ok (q s) a Hs) as (m & v & Mm & N & Ea). destruct (advantage_ok (q s') a Hs') as (m2 & v' & Mm' & N' & Ea'). unfold pal_target, one_batch. cbn [b_next_state b_reward b_discount b_terminal b_state b_action map rmapM rbind combine fst snd]. rewrite E. cbn [rbind]. rewrite Ea. cbn [rbind]. rewrite Ea'. cbn [rbind bellman combine map fst snd]. unfold add_scaled. cbn [combine map fst snd].
  eexists. split; [reflexivity|]. exists m', m, v, v'. do 4 (split; [assumption|]). apply Qplus_comp; [apply one_bellman|]. assert (X : (m2 == m')%Q) by (apply Qle_antisym; [apply M, Mm'|apply Mm', M]). apply Qmult_comp; [reflexivity|]. apply Q.max_compat; [reflexivity|]. apply Qplus_comp; [reflexivity|]. apply Qopp_comp. exact X.
Qed.
End One.

(** ** Maxima of rows *)
Lemma Q2R_le x y : (x <= y)%Q -> (Q2R x <= Q2R y)%R. Proof. apply Qle_Rle. Qed.
Definition entry (l : list Q) (a : nat) : R := Q2R (nth a l 0%Q).
Lemma entry_eq l a x : nth_error l a = Some x -> entry l a = Q2R x.
Proof. intros H. unfold entry. now rewrite (nth_error_nth l a 0%Q H). Qed.
Lemma vmax_row l top m : length l = S top -> is_max l m -> vmax (entry l) top = Q2R m.
Proof.
  intros Hl [Hin Hm]. apply Rle_antisym.
  - apply vmax_le. intros a Ha. unfold entry. apply Q2R_le, Hm, nth_In. lia.
  - apply In_nth_error in Hin. destruct Hin as (a & Ea). rewrite <- (entry_eq l a m Ea). apply vmax_ge. assert (a < length l) by (apply nth_error_Some; rewrite Ea; discriminate). lia.
Qed.
Lemma argmax_row l top a : length l = S top -> is_argmax l a -> a <= top /\ entry l a = vmax (entry l) top.
Proof.
  intros Hl (m & E & M). split; [assert (a < length l) by (apply nth_error_Some; rewrite E; discriminate); lia|]. rewrite (entry_eq l a m E), (vmax_row l top m Hl); [reflexivity|]. split; [now apply nth_error_In in E|exact M].
Qed.

(** ** A problem over the reals *)
Definition real_outcomes (l : list (Q * (Q * nat * bool))) : list (R * (R * nat * bool)) := map (fun x => let '(p, (r, s', t)) := x in (Q2R p, (Q2R r, s', t))) l.
Definition rout (D : problem) (s a : nat) : list (R * (R * nat * bool)) := real_outcomes (outcomes D s a).
Lemma ev_real gamma U l : ev (Q2R gamma) U (real_outcomes l) = expected_value gamma U l.
Proof. induction l as [|[p [[r s'] t]] l IH]; cbn [real_outcomes map ev expected_value]; [reflexivity|]. fold (real_outcomes l). now rewrite IH. Qed.
Lemma psum_real l : psum (real_outcomes l) = Q2R (total_probability l).
Proof. induction l as [|[p x] l IH]; cbn [real_outcomes map psum total_probability]; [unfold Q2R; cbn; lra|]. fold (real_outcomes l). destruct x as [[r s'] t]. cbn [psum]. rewrite IH, Q2R_plus. reflexivity. Qed.
Lemma wf_real D : well_formed D -> forall s a, s < states D -> a <= last_action D -> psum (rout D s a) = 1%R /\ good (states D) (rout D s a).
Proof.
  intros H s a Hs Ha. destruct (H s a Hs Ha) as [P F]. split; [unfold rout; rewrite psum_real, (Qeq_eqR _ _ P); unfold Q2R; cbn; lra|]. clear P. unfold rout, good. induction F as [|[p [[r s'] t]] l [Hp Hn] F IH]; cbn [real_outcomes map]; constructor; [|exact IH].
  split; [|exact Hn]. replace 0%R with (Q2R 0) by (unfold Q2R; cbn; lra). now apply Q2R_le.
Qed.

(** ** What fitting does *)
Definition determines (T : (nat -> list Q) -> batch nat nat -> result (list Q)) (gamma : Q) (rel : (nat -> list Q) -> nat -> nat -> Q -> nat -> bool -> Q -> Prop) : Prop :=
  forall q s a r s' tm, a < length (q s) -> a < length (q s') -> exists t, T q (one_batch gamma s a r s' tm) = Ok [t] /\ rel q s a r s' tm t.
Fixpoint Raverage (l : list (Q * (Q * nat * bool))) (ts : list Q) : R := match l, ts with (p, _) :: l, t :: ts => (Q2R p * Q2R t + Raverage l ts)%R | _, _ => 0%R end.
Lemma average_real l : forall ts, Q2R (average l ts) = Raverage l ts.
Proof. induction l as [|[p x] l IH]; intros [|t ts]; cbn [average Raverage]; try (unfold Q2R; cbn; lra). now rewrite Q2R_plus, Q2R_mult, IH. Qed.
Section Fit.
Context (D : problem) (W : well_formed D) (gamma : Q) (T : (nat -> list Q) -> batch nat nat -> result (list Q)) (rel : (nat -> list Q) -> nat -> nat -> Q -> nat -> bool -> Q -> Prop) (HT : determines T gamma rel).
Lemma fits_rel q q' s a : table D q -> fits D gamma T q q' -> s < states D -> a <= last_action D ->
  exists ts, entry (q' s) a = Raverage (outcomes D s a) ts /\ Forall2 (fun o t => let '(_, (r, s', tm)) := o in rel q s a r s' tm t) (outcomes D s a) ts.
Proof.
  intros Tb F Hs Ha. destruct (F s a Hs Ha) as (x & ts & E & Ex & F2). exists ts. split; [rewrite (entry_eq _ _ _ E), <- average_real; now apply Qeq_eqR|]. destruct (W s a Hs Ha) as [_ G]. clear E Ex.
  induction F2 as [|[p [[r s'] tm]] t l ts (b & Eb & Et) F2 IH]; [constructor|]. apply Forall_cons_iff in G. destruct G as [[_ Hs'] G]. constructor; [|now apply IH].
  cbn [snd] in Eb. rewrite one_batch_ok in Eb. injection Eb as <-. destruct (HT q s a r s' tm) as (t' & Et' & Hr); [rewrite (Tb s Hs); lia|rewrite (Tb s' Hs'); lia|]. rewrite Et in Et'. injection Et' as <-. exact Hr.
Qed.
(** There is a table that fits. *)
Definition fitted_row (q : nat -> list Q) (s a : nat) : Q :=
  average (outcomes D s a) (map (fun o => let '(_, (r, s', tm)) := o in match T q (one_batch gamma s a r s' tm) with Ok [t] => t | _ => 0%Q end) (outcomes D s a)).
Definition fitted (q : nat -> list Q) (s : nat) : list Q := map (fitted_row q s) (seq 0 (S (last_action D))).
Lemma fitted_ok q : table D q -> table D (fitted q) /\ fits D gamma T q (fitted q).
Proof.
  intros Tb. split; [intros s _; unfold fitted; now rewrite map_length, seq_length|]. intros s a Hs Ha.
  exists (fitted_row q s a). eexists. split; [unfold fitted; apply map_nth_error; rewrite (nth_error_nth' _ 0) by (rewrite seq_length; lia); rewrite seq_nth by lia; reflexivity|]. split; [unfold fitted_row; reflexivity|].
  destruct (W s a Hs Ha) as [_ G]. induction G as [|[p [[r s'] tm]] l [_ Hs'] G IH]; cbn [map]; constructor; [|exact IH].
  exists (one_batch gamma s a r s' tm). split; [apply one_batch_ok|]. destruct (HT q s a r s' tm) as (t & Et & _); [rewrite (Tb s Hs); lia|rewrite (Tb s' Hs'); lia|]. now rewrite Et.
Qed.
Fixpoint iterated (q0 : nat -> list Q) (k : nat) : nat -> list Q := match k with O => q0 | S k => fitted (iterated q0 k) end.
Lemma iterated_ok q0 : table D q0 -> iterates D gamma T (iterated q0).
Proof.
  intros H. assert (K : forall k, table D (iterated q0 k)) by (induction k as [|k IH]; [exact H|apply (fitted_ok _ IH)]). split; [exact H|]. intros k. apply (fitted_ok _ (K k)).
Qed.
End Fit.

(** ** Between the two operators *)
Definition rel_dqn (gamma : Q) : (nat -> list Q) -> nat -> nat -> Q -> nat -> bool -> Q -> Prop := fun q s a r s' tm t => exists m', is_max (q s') m' /\ (t == one_target gamma r tm m')%Q.
Definition rel_al (alpha gamma : Q) : (nat -> list Q) -> nat -> nat -> Q -> nat -> bool -> Q -> Prop := fun q s a r s' tm t => exists m' m v, is_max (q s') m' /\ is_max (q s) m /\ nth_error (q s) a = Some v /\ (t == one_target gamma r tm m' + alpha * (v - m))%Q.
Definition rel_pal (alpha gamma : Q) : (nat -> list Q) -> nat -> nat -> Q -> nat -> bool -> Q -> Prop := fun q s a r s' tm t => exists m' m v v', is_max (q s') m' /\ is_max (q s) m /\ nth_error (q s) a = Some v /\ nth_error (q s') a = Some v' /\ (t == one_target gamma r tm m' + alpha * Qmax (v - m) (v' - m'))%Q.
Lemma det_dqn gamma : determines dqn_target gamma (rel_dqn gamma). Proof. intros q s a r s' tm _ H. now apply one_dqn. Qed.
Lemma det_double gamma : determines (fun q => double_dqn_target q q) gamma (rel_dqn gamma). Proof. intros q s a r s' tm _ H. now apply one_double_dqn. Qed.
Lemma det_al alpha gamma : determines (al_target alpha) gamma (rel_al alpha gamma). Proof. intros q s a r s' tm H H'. now apply one_al. Qed.
Lemma det_pal alpha gamma : determines (pal_target alpha) gamma (rel_pal alpha gamma). Proof. intros q s a r s' tm H H'. now apply one_pal. Qed.

Lemma one_real gamma r tm m' : Q2R (one_target gamma r tm m') = (Q2R r + (if tm : bool then 0 else Q2R gamma * Q2R m'))%R.
Proof. unfold one_target. rewrite Q2R_plus. destruct tm; [unfold Q2R at 2; cbn; lra|now rewrite Q2R_mult]. Qed.
Definition rowmax (D : problem) (q : nat -> list Q) (s : nat) : R := vmax (entry (q s)) (last_action D).

Section Sandwich.
Context (D : problem) (W : well_formed D) (gamma alpha : Q) (Ha0 : (0 <= alpha)%Q).
Lemma alpha_real : (0 <= Q2R alpha)%R. Proof. replace 0%R with (Q2R 0) by (unfold Q2R; cbn; lra). now apply Q2R_le. Qed.
(** [d]: a number added to every target *)
Lemma average_le l ts q d : Forall (fun x => let '(p, (_, s', _)) := x in (0 <= p)%Q /\ s' < states D) l ->
  Forall2 (fun o t => let '(_, (r, s', tm)) := o in (Q2R t <= Q2R r + (if tm : bool then 0 else Q2R gamma * rowmax D q s') + d)%R) l ts -> (Raverage l ts <= expected_value gamma (rowmax D q) l + d * Q2R (total_probability l))%R.
Proof.
  intros G F. induction F as [|[p [[r s'] tm]] t l ts H F IH]; cbn [Raverage expected_value total_probability]; [unfold Q2R; cbn; lra|]. apply Forall_cons_iff in G. destruct G as [[Hp _] G]. specialize (IH G). rewrite Q2R_plus.
  apply Q2R_le in Hp. replace (Q2R 0) with 0%R in Hp by (unfold Q2R; cbn; lra). assert (Q2R p * Q2R t <= Q2R p * (Q2R r + (if tm then 0 else Q2R gamma * rowmax D q s') + d))%R by (apply Rmult_le_compat_l; assumption). lra.
Qed.
Lemma average_ge l ts q d : Forall (fun x => let '(p, (_, s', _)) := x in (0 <= p)%Q /\ s' < states D) l ->
  Forall2 (fun o t => let '(_, (r, s', tm)) := o in (Q2R t >= Q2R r + (if tm : bool then 0 else Q2R gamma * rowmax D q s') + d)%R) l ts -> (Raverage l ts >= expected_value gamma (rowmax D q) l + d * Q2R (total_probability l))%R.
Proof.
  intros G F. induction F as [|[p [[r s'] tm]] t l ts H F IH]; cbn [Raverage expected_value total_probability]; [unfold Q2R; cbn; lra|]. apply Forall_cons_iff in G. destruct G as [[Hp _] G]. specialize (IH G). rewrite Q2R_plus.
  apply Q2R_le in Hp. replace (Q2R 0) with 0%R in Hp by (unfold Q2R; cbn; lra). assert (Q2R p * Q2R t >= Q2R p * (Q2R r + (if tm then 0 else Q2R gamma * rowmax D q s') + d))%R by (apply Rmult_ge_compat_l; [lra|assumption]). lra.
Qed.
Definition below (rel : (nat -> list Q) -> nat -> nat -> Q -> nat -> bool -> Q -> Prop) (lo hi : R) : Prop :=
  forall q s a r s' tm t, table D q -> s < states D -> s' < states D -> a <= last_action D -> rel q s a r s' tm t ->
    (Q2R r + (if tm : bool then 0 else Q2R gamma * rowmax D q s') + lo * (entry (q s) a - rowmax D q s) <= Q2R t <= Q2R r + (if tm : bool then 0 else Q2R gamma * rowmax D q s') + hi * (entry (q s) a - rowmax D q s))%R.
Lemma sandwich T rel lo hi q q' : determines T gamma rel -> below rel lo hi -> table D q -> fits D gamma T q q' -> forall s a, s < states D -> a <= last_action D ->
  (expected_value gamma (rowmax D q) (outcomes D s a) + lo * (entry (q s) a - rowmax D q s) <= entry (q' s) a <= expected_value gamma (rowmax D q) (outcomes D s a) + hi * (entry (q s) a - rowmax D q s))%R.
Proof.
  intros HT HB Tb F s a Hs Ha. destruct (fits_rel D W gamma T rel HT q q' s a Tb F Hs Ha) as (ts & -> & F2). destruct (W s a Hs Ha) as [P G]. assert (P' : Q2R (total_probability (outcomes D s a)) = 1%R) by (rewrite (Qeq_eqR _ _ P); unfold Q2R; cbn; lra).
  assert (B : Forall2 (fun o t => let '(_, (r, s', tm)) := o in (Q2R r + (if tm : bool then 0 else Q2R gamma * rowmax D q s') + lo * (entry (q s) a - rowmax D q s) <= Q2R t <= Q2R r + (if tm : bool then 0 else Q2R gamma * rowmax D q s') + hi * (entry (q s) a - rowmax D q s))%R) (outcomes D s a) ts).
  { clear P P'. induction F2 as [|[p [[r s'] tm]] t l ts Hr F2 IH]; [constructor|]. apply Forall_cons_iff in G. destruct G as [[_ Hs'] G]. constructor; [now apply (HB q s a r s' tm t)|now apply IH]. }
  split.
  - pose proof (average_ge (outcomes D s a) ts q (lo * (entry (q s) a - rowmax D q s)) G) as X. rewrite P' in X. enough (Y : (Raverage (outcomes D s a) ts >= expected_value gamma (rowmax D q) (outcomes D s a) + lo * (entry (q s) a - rowmax D q s) * 1)%R) by lra. apply X.
    clear - B. induction B as [|[p [[r s'] tm]] t l ts H B IH]; constructor; [lra|exact IH].
  - pose proof (average_le (outcomes D s a) ts q (hi * (entry (q s) a - rowmax D q s)) G) as X. rewrite P' in X. enough (Y : (Raverage (outcomes D s a) ts <= expected_value gamma (rowmax D q) (outcomes D s a) + hi * (entry (q s) a - rowmax D q s) * 1)%R) by lra. apply X.
    clear - B. induction B as [|[p [[r s'] tm]] t l ts H B IH]; constructor; [lra|exact IH].
Qed.
Lemma below_dqn : below (rel_dqn gamma) 0 0.
Proof. intros q s a r s' tm t Tb Hs Hs' Ha (m' & M & E). rewrite (Qeq_eqR _ _ E), one_real. unfold rowmax. rewrite (vmax_row _ _ m' (Tb s' Hs') M). lra. Qed.
Lemma below_al : below (rel_al alpha gamma) (Q2R alpha) (Q2R alpha).
Proof.
  intros q s a r s' tm t Tb Hs Hs' Ha (m' & m & v & M' & M & N & E). rewrite (Qeq_eqR _ _ E), Q2R_plus, Q2R_mult, Q2R_minus, one_real. unfold rowmax. rewrite (vmax_row _ _ m' (Tb s' Hs') M'), (vmax_row _ _ m (Tb s Hs) M), (entry_eq _ _ _ N). lra.
Qed.
Lemma below_pal : below (rel_pal alpha gamma) (Q2R alpha) 0.
Proof.
  intros q s a r s' tm t Tb Hs Hs' Ha (m' & m & v & v' & M' & M & N & N' & E). rewrite (Qeq_eqR _ _ E), Q2R_plus, Q2R_mult, one_real. unfold rowmax. rewrite (vmax_row _ _ m' (Tb s' Hs') M'), (vmax_row _ _ m (Tb s Hs) M), (entry_eq _ _ _ N).
  pose proof alpha_real as Al. assert (L : (Q2R v - Q2R m <= Q2R (Qmax (v - m) (v' - m')))%R) by (rewrite <- Q2R_minus; apply Q2R_le, Q.le_max_l).
  assert (U : (Q2R (Qmax (v - m) (v' - m')) <= 0)%R).
  { replace 0%R with (Q2R 0) by (unfold Q2R; cbn; lra). apply Q2R_le. apply Q.max_lub; [pose proof (proj2 M v (nth_error_In _ _ N)) as X; apply Qle_minus_iff in X|pose proof (proj2 M' v' (nth_error_In _ _ N')) as X; apply Qle_minus_iff in X]; apply Qle_minus_iff; (eapply Qle_trans; [exact X|]); apply Qle_lteq; right; ring. }
  split; [|nra]. assert (Q2R alpha * (Q2R v - Q2R m) <= Q2R alpha * Q2R (Qmax (v - m) (v' - m')))%R by (apply Rmult_le_compat_l; assumption). lra.
Qed.
End Sandwich.

(** ** The whole *)
Section Whole.
Context (D : problem) (W : well_formed D) (gamma alpha : Q) (Hg : (0 <= gamma)%Q /\ (gamma < 1)%Q) (Hal : (0 <= alpha)%Q /\ (alpha < 1)%Q).
Context (T : (nat -> list Q) -> batch nat nat -> result (list Q)) (rel : (nat -> list Q) -> nat -> nat -> Q -> nat -> bool -> Q -> Prop) (lo hi : R).
Context (HT : determines T gamma rel) (HB : below D gamma rel lo hi) (Hlo : (0 <= lo <= Q2R alpha)%R) (Hhi : (0 <= hi <= lo)%R).
Context (q : nat -> nat -> list Q) (HI : iterates D gamma T q).
Notation Qk := (fun k s a => entry (q k s) a).
Lemma Rbounds x : (0 <= x)%Q /\ (x < 1)%Q -> (0 <= Q2R x < 1)%R.
Proof. intros [H1 H2]. apply Qle_Rle in H1. apply Qlt_Rlt in H2. replace (Q2R 0) with 0%R in H1 by (unfold Q2R; cbn; lra). replace (Q2R 1) with 1%R in H2 by (unfold Q2R; cbn; lra). lra. Qed.
Lemma tables k : table D (q k). Proof. destruct HI as [H0 H]. destruct k as [|k]; [exact H0|apply H]. Qed.
Lemma ev_rout U s a : ev (Q2R gamma) U (rout D s a) = expected_value gamma U (outcomes D s a). Proof. apply ev_real. Qed.
Lemma nonpos k s a : s < states D -> a <= last_action D -> (entry (q k s) a - rowmax D (q k) s <= 0)%R.
Proof. intros Hs Ha. pose proof (vmax_ge (entry (q k s)) (last_action D) a Ha) as X. unfold rowmax. lra. Qed.
Lemma Qk_upper k s a : s < states D -> a <= last_action D -> (entry (q (S k) s) a <= ev (Q2R gamma) (fun s => vmax (entry (q k s)) (last_action D)) (rout D s a))%R.
Proof.
  intros Hs Ha. destruct (sandwich D W gamma T rel lo hi (q k) (q (S k)) HT HB (tables k) (proj2 (proj2 HI k)) s a Hs Ha) as [_ U]. rewrite ev_rout. change (fun s => vmax (entry (q k s)) (last_action D)) with (rowmax D (q k)). pose proof (nonpos k s a Hs Ha). nra.
Qed.
Lemma Qk_lower k s a : s < states D -> a <= last_action D -> (entry (q (S k) s) a >= ev (Q2R gamma) (fun s => vmax (entry (q k s)) (last_action D)) (rout D s a) - Q2R alpha * (vmax (entry (q k s)) (last_action D) - entry (q k s) a))%R.
Proof.
  intros Hs Ha. destruct (sandwich D W gamma T rel lo hi (q k) (q (S k)) HT HB (tables k) (proj2 (proj2 HI k)) s a Hs Ha) as [L _]. rewrite ev_rout. change (fun s => vmax (entry (q k s)) (last_action D)) with (rowmax D (q k)). change (vmax (entry (q k s)) (last_action D)) with (rowmax D (q k) s). pose proof (nonpos k s a Hs Ha). nra.
Qed.
Lemma whole : exists U, (forall s, s < states D -> Un_cv (fun k => rowmax D (q k) s) (U s)) /\
  (exists N, forall k policy, N <= k -> greedy D (q k) policy -> optimal_with D gamma policy U) /\
  (forall s a, s < states D -> a <= last_action D -> forall eps, (0 < eps)%R -> exists N, forall k, N <= k -> (U s - (U s - expected_value gamma U (outcomes D s a)) / (1 - Q2R alpha) - eps <= entry (q k s) a <= expected_value gamma U (outcomes D s a) + eps)%R).
Proof.
  pose proof (Rbounds gamma Hg) as Rg. pose proof (Rbounds alpha Hal) as Ra. pose proof (wf_real D W) as WR.
  destruct (values_converge (states D) (last_action D) (Q2R gamma) Rg (rout D) WR (Q2R alpha) Qk Qk_upper Qk_lower) as (U & HU).
  pose proof (limit_bellman (states D) (last_action D) (Q2R gamma) (rout D) WR (Q2R alpha) Ra Qk Qk_upper Qk_lower U HU) as HBell. exists U. split; [exact HU|]. split.
  - destruct (not_greedy (states D) (last_action D) (Q2R gamma) (rout D) WR (Q2R alpha) Ra Qk Qk_upper Qk_lower U HU) as (N & HN). exists N. intros k policy Hk G.
    assert (Adm : admissible D policy) by (intros s Hs; exact (proj1 (argmax_row _ _ _ (tables k s Hs) (G s Hs)))). split; [exact Adm|]. split.
    + intros s Hs. rewrite <- ev_rout. symmetry. apply (HN k); [exact Hk|exact Hs|now apply Adm|]. exact (proj2 (argmax_row _ _ _ (tables k s Hs) (G s Hs))).
    + intros policy' U' Adm' V'. apply (earns_le (states D) (last_action D) (Q2R gamma) Rg (rout D) WR U policy' U' HBell Adm'). intros s Hs. rewrite ev_rout. now apply V'.
  - intros s a Hs Ha eps He. destruct (between (states D) (last_action D) (Q2R gamma) (rout D) WR (Q2R alpha) Ra Qk Qk_upper Qk_lower U HU s a Hs Ha eps He) as (N & HN). exists N. intros k Hk. specialize (HN k Hk). rewrite ev_rout in HN. exact HN.
Qed.
End Whole.
