(** Proofs for C138 and C139: worth of policies, critics fitted to sampled targets. *)
From Coq Require Import Setoid Reals QArith Qreals Qabs Qminmax Lra.
From Verif Require Import Base P_Base M_ReplayBuffer M_Batch Vec M_Targets M_ActorCritic S_ValueIteration P_ValueIteration P_FittedTargets P_DPP S_PolicyEvaluation.
Close Scope Q_scope. Close Scope R_scope. Open Scope nat_scope.

Lemma Q2R_0 : Q2R 0 = 0%R. Proof. unfold Q2R; cbn; lra. Qed.
Lemma Q2R_1 : Q2R 1 = 1%R. Proof. unfold Q2R; cbn; lra. Qed.
Lemma Q2R_abs x : Q2R (Qabs x) = Rabs (Q2R x).
Proof.
  destruct (Qlt_le_dec x 0) as [H|H].
  - rewrite (Qeq_eqR _ _ (Qabs_neg x (Qlt_le_weak _ _ H))), Q2R_opp. apply Qlt_Rlt in H. rewrite Q2R_0 in H. rewrite Rabs_left; [reflexivity|exact H].
  - rewrite (Qeq_eqR _ _ (Qabs_pos x H)). apply Qle_Rle in H. rewrite Q2R_0 in H. rewrite Rabs_pos_eq; [reflexivity|exact H].
Qed.

(** ** Means *)
Lemma mean_le {X} (f h : X -> R) d l : Forall (fun c => (0 <= fst c)%R /\ (f (snd c) <= h (snd c) + d)%R) l -> (mean_over f l <= mean_over h l + d * mean_over (fun _ => 1) l)%R.
Proof. induction 1 as [|[p x] l [Hp H] F IH]; cbn [mean_over fst snd] in *; [lra|]. pose proof (Rmult_le_compat_l p _ _ Hp H). lra. Qed.
Lemma mean_affine {X} (f : X -> R) a b l : mean_over (fun x => a + b * f x)%R l = (a * mean_over (fun _ => 1) l + b * mean_over f l)%R.
Proof. induction l as [|[p x] l IH]; cbn [mean_over]; [lra|]. rewrite IH. ring. Qed.
Lemma mean_ext {X} (f h : X -> R) l : (forall c, In c l -> f (snd c) = h (snd c)) -> mean_over f l = mean_over h l.
Proof. induction l as [|[p x] l IH]; intros H; cbn [mean_over]; [reflexivity|]. rewrite IH by (intros c Hc; apply H; now right). specialize (H (p, x) (or_introl eq_refl)). cbn [snd] in H. now rewrite H. Qed.

Section Worth.
Context (D : problem) (W : well_formed D) (gamma : Q) (Hg : (0 <= Q2R gamma < 1)%R).
Local Notation n := (states D).
Local Notation m := (last_action D).
Local Notation g := (Q2R gamma).
Lemma expected_plus V V' d s a : s < n -> a <= m -> (0 <= d)%R -> (forall s', s' < n -> (V s' <= V' s' + d)%R) -> (expected_value gamma V (outcomes D s a) <= expected_value gamma V' (outcomes D s a) + g * d)%R.
Proof. intros Hs Ha Hd H. pose proof (ev_plus n m g Hg (rout D) (wf_real D W) s a V V' d Hs Ha Hd H) as X. unfold rout in X. now rewrite !ev_real in X. Qed.
Lemma expected_near V V' d s a : s < n -> a <= m -> (0 <= d)%R -> (forall s', s' < n -> (Rabs (V s' - V' s') <= d)%R) -> (Rabs (expected_value gamma V (outcomes D s a) - expected_value gamma V' (outcomes D s a)) <= g * d)%R.
Proof.
  intros Hs Ha Hd H. assert (A : forall s', s' < n -> (V s' <= V' s' + d)%R) by (intros s' Hs'; specialize (H s' Hs'); pose proof (Rle_abs (V s' - V' s')); lra).
  assert (B : forall s', s' < n -> (V' s' <= V s' + d)%R) by (intros s' Hs'; specialize (H s' Hs'); pose proof (Rle_abs (- (V s' - V' s'))) as X; rewrite Rabs_Ropp in X; lra).
  pose proof (expected_plus V V' d s a Hs Ha Hd A). pose proof (expected_plus V' V d s a Hs Ha Hd B). apply Rabs_le. lra.
Qed.
Lemma state_worth_plus pi charge U U' d s : proper D pi -> s < n -> (forall a, a <= m -> (U s a <= U' s a + d)%R) -> (state_worth pi charge U s <= state_worth pi charge U' s + d)%R.
Proof.
  intros P Hs H. destruct (P s Hs) as [P1 P2]. unfold state_worth. replace d with (d * mean_over (fun _ => 1%R) (pi s))%R by (rewrite P1; lra). apply mean_le. revert P2. apply Forall_impl. intros c [H1 H2]. split; [exact H1|]. specialize (H _ H2). lra.
Qed.
Lemma state_worth_near pi charge U U' d s : proper D pi -> s < n -> (forall a, a <= m -> (Rabs (U s a - U' s a) <= d)%R) -> (Rabs (state_worth pi charge U s - state_worth pi charge U' s) <= d)%R.
Proof.
  intros P Hs H. assert (A : forall a, a <= m -> (U s a <= U' s a + d)%R) by (intros a Ha; specialize (H a Ha); pose proof (Rle_abs (U s a - U' s a)); lra).
  assert (B : forall a, a <= m -> (U' s a <= U s a + d)%R) by (intros a Ha; specialize (H a Ha); pose proof (Rle_abs (- (U s a - U' s a))) as X; rewrite Rabs_Ropp in X; lra).
  pose proof (state_worth_plus pi charge U U' d s P Hs A). pose proof (state_worth_plus pi charge U' U d s P Hs B). apply Rabs_le. lra.
Qed.
(** Flat indices *)
Lemma flat_div s a : a <= m -> (s * S m + a) / S m = s. Proof. intros H. rewrite Nat.add_comm, Nat.div_add by lia. rewrite Nat.div_small by lia. lia. Qed.
Lemma flat_mod s a : a <= m -> (s * S m + a) mod S m = a. Proof. intros H. rewrite Nat.add_comm, Nat.mod_add by lia. apply Nat.mod_small. lia. Qed.
Lemma flat_lt s a : s < n -> a <= m -> s * S m + a < n * S m. Proof. intros H K. nia. Qed.
Lemma div_lt i : i < n * S m -> i / S m < n. Proof. intros H. apply Nat.div_lt_upper_bound; [lia|]. lia. Qed.
Lemma mod_le i : i mod S m <= m. Proof. pose proof (Nat.mod_upper_bound i (S m)). lia. Qed.
Lemma contraction2 (U U' : nat -> nat -> R) :
  (forall d, (0 <= d)%R -> (forall s a, s < n -> a <= m -> (U s a <= U' s a + d)%R) -> forall s a, s < n -> a <= m -> (U s a <= U' s a + g * d)%R) -> forall s a, s < n -> a <= m -> (U s a <= U' s a)%R.
Proof.
  intros H s a Hs Ha. pose proof (contraction (n * S m) g Hg (fun i => U (i / S m) (i mod S m)) (fun i => U' (i / S m) (i mod S m))) as C. cbn beta in C.
  specialize (C ltac:(intros d Hd K i Hi; apply (H d Hd); [|exact (div_lt i Hi)|exact (mod_le i)]; intros s' a' Hs' Ha'; specialize (K (s' * S m + a') (flat_lt s' a' Hs' Ha')); now rewrite flat_div, flat_mod in K by assumption) _ (flat_lt s a Hs Ha)).
  now rewrite flat_div, flat_mod in C by assumption.
Qed.
(** A policy is worth something, and only one thing. *)
Lemma worth_unique pi charge U U' : proper D pi -> worth D gamma pi charge U -> worth D gamma pi charge U' -> forall s a, s < n -> a <= m -> U s a = U' s a.
Proof.
  intros P. assert (K : forall U U', worth D gamma pi charge U -> worth D gamma pi charge U' -> forall s a, s < n -> a <= m -> (U s a <= U' s a)%R).
  { clear U U'. intros U U' H H'. apply contraction2. intros d Hd L s a Hs Ha. rewrite (H s a Hs Ha), (H' s a Hs Ha). apply (expected_plus _ _ d s a Hs Ha Hd). intros s' Hs'. apply state_worth_plus; [exact P|exact Hs'|]. intros a' Ha'. now apply L. }
  intros H H' s a Hs Ha. apply Rle_antisym; now apply K.
Qed.
Definition joint (pi : nat -> list (R * nat)) (charge : nat -> nat -> R) (l : list (R * (R * nat * bool))) : list (R * (R * nat * bool)) :=
  flat_map (fun x => let '(p, (r, s', tm)) := x in map (fun c : R * nat => ((p * fst c)%R, ((if tm : bool then r else r - g * charge s' (snd c))%R, s' * S m + snd c, tm))) (pi s')) l.
Lemma ev_app U l l' : ev g U (l ++ l') = (ev g U l + ev g U l')%R. Proof. induction l as [|[p [[r s'] t]] l IH]; cbn [ev app]; [lra|]. rewrite IH. lra. Qed.
Lemma psum_app l l' : psum (l ++ l') = (psum l + psum l')%R. Proof. induction l as [|[p x] l IH]; cbn [psum app]; [lra|]. rewrite IH. lra. Qed.
Lemma ev_choices U charge p r s' (tm : bool) cs : Forall (fun c => snd c <= m) cs ->
  ev g (fun i => U (i / S m) (i mod S m)) (map (fun c : R * nat => ((p * fst c)%R, ((if tm then r else r - g * charge s' (snd c))%R, s' * S m + snd c, tm))) cs) =
  (p * (r * mean_over (fun _ => 1) cs + (if tm then 0 else g * mean_over (fun a => U s' a - charge s' a) cs)))%R.
Proof.
  induction 1 as [|[pa a] cs H F IH]; cbn [map ev mean_over fst snd]; [destruct tm; lra|]. cbn [snd] in H. rewrite IH. destruct tm; [lra|]. rewrite flat_div, flat_mod by exact H. ring.
Qed.
Lemma psum_choices charge p r s' (tm : bool) (cs : list (R * nat)) : psum (map (fun c : R * nat => ((p * fst c)%R, ((if tm then r else r - g * charge s' (snd c))%R, s' * S m + snd c, tm))) cs) = (p * mean_over (fun _ => 1) cs)%R.
Proof. induction cs as [|[pa a] cs IH]; cbn [map psum mean_over fst snd]; [lra|]. rewrite IH. ring. Qed.
Lemma joint_ok pi charge l : proper D pi -> good n l -> psum (joint pi charge l) = psum l /\ good (n * S m) (joint pi charge l) /\
  forall U, ev g (fun i => U (i / S m) (i mod S m)) (joint pi charge l) = ev g (state_worth pi charge U) l.
Proof.
  intros P F. induction F as [|[p [[r s'] tm]] l [Hp Hs] F (I1 & I2 & I3)]; [repeat split; constructor|]. destruct (P s' Hs) as [P1 P2]. unfold joint in *. cbn [flat_map].
  assert (P3 : Forall (fun c => snd c <= m) (pi s')) by (revert P2; apply Forall_impl; tauto).
  split; [|split].
  - rewrite psum_app, I1, psum_choices, P1. cbn [psum]. lra.
  - apply Forall_app. split; [|exact I2]. apply Forall_map. revert P2. apply Forall_impl. intros c [H1 H2]. split; [now apply Rmult_le_pos|]. now apply flat_lt.
  - intros U. rewrite ev_app, I3, ev_choices by exact P3. cbn [ev]. rewrite P1. unfold state_worth. destruct tm; lra.
Qed.
Lemma worth_exists pi charge : proper D pi -> exists U, worth D gamma pi charge U.
Proof.
  intros P. destruct (bellman_exists (n * S m) 0 g Hg (fun i _ => joint pi charge (rout D (i / S m) (i mod S m)))) as (V & HV).
  { intros i a Hi _. destruct (wf_real D W (i / S m) (i mod S m) (div_lt i Hi) (mod_le i)) as [A B]. destruct (joint_ok pi charge _ P B) as (C & E & _). now rewrite C. }
  exists (fun s a => V (s * S m + a)). intros s a Hs Ha. rewrite (HV _ (flat_lt s a Hs Ha)). cbn [vmax].  rewrite flat_div, flat_mod by exact Ha.
  destruct (wf_real D W s a Hs Ha) as [_ B]. destruct (joint_ok pi charge _ P B) as (_ & _ & E). specialize (E (fun s a => V (s * S m + a))). cbn beta in E.
  unfold rout in E at 2. rewrite ev_real in E. rewrite <- E. assert (X : forall l, ev g V l = ev g (fun i => V (i / S m * S m + i mod S m)) l).
  { intros l. induction l as [|[p [[r s'] t]] l IH]; cbn [ev]; [reflexivity|]. rewrite IH. replace (s' / S m * S m + s' mod S m) with s'; [reflexivity|]. pose proof (Nat.div_mod s' (S m)). lia. }
  apply X.
Qed.
End Worth.

(** ** Sampled targets *)
Section Sampled.
Context (D : problem) (W : well_formed D) (gamma : Q) (Hg : (0 <= Q2R gamma < 1)%R) (pi : nat -> list (Q * nat)) (P : proper D (real pi)).
Lemma average_app {X} (l l' : list (Q * X)) ts ts' : length l = length ts -> (average_over (l ++ l') (ts ++ ts') == average_over l ts + average_over l' ts')%Q.
Proof. revert ts. induction l as [|[p x] l IH]; intros [|t ts] H; try discriminate; cbn [app average_over]; [ring|]. rewrite IH by (cbn in H; lia). ring. Qed.
Definition means (X : nat -> nat -> Q) (ch : nat -> nat -> Q) (c : Q * ((Q * nat * bool) * nat)) (t : Q) : Prop :=
  let '(_, ((r, s', tm), a')) := c in (t == r + (if tm : bool then 0 else gamma * (X s' a' - ch s' a')))%Q.
Lemma average_choices X ch p r s' (tm : bool) cs ts : Forall2 (means X ch) (map (fun c => ((p * fst c)%Q, ((r, s', tm), snd c))) cs) ts ->
  Q2R (average_over (map (fun c => ((p * fst c)%Q, ((r, s', tm), snd c))) cs) ts) =
  (Q2R p * (Q2R r * mean_over (fun _ => 1) (map (fun c => (Q2R (fst c), snd c)) cs) + (if tm then 0 else Q2R gamma * mean_over (fun a => Q2R (X s' a) - Q2R (ch s' a)) (map (fun c => (Q2R (fst c), snd c)) cs))))%R.
Proof.
  revert ts. induction cs as [|[pa a] cs IH]; intros ts H; cbn [map] in *.
  - inversion H; subst. cbn [average_over mean_over]. rewrite Q2R_0. destruct tm; lra.
  - destruct ts as [|t ts]; [inversion H|]. inversion H as [|? ? ? ? Ht H' E1 E2]; subst. clear H. rename H' into H. specialize (IH ts H). cbn [average_over mean_over fst snd]. rewrite Q2R_plus, IH, Q2R_mult, Q2R_mult. cbn [means fst snd] in Ht. rewrite (Qeq_eqR _ _ Ht), Q2R_plus.
    destruct tm; [rewrite Q2R_0; ring|]. rewrite Q2R_mult, Q2R_minus. ring.
Qed.
Lemma average_worth X ch l ts : Forall (fun x => let '(p, (_, s', _)) := x in (0 <= p)%Q /\ s' < states D) l ->
  Forall2 (means X ch) (flat_map (fun x => let '(p, (r, s', tm)) := x in map (fun c => ((p * fst c)%Q, ((r, s', tm), snd c))) (pi s')) l) ts ->
  Q2R (average_over (flat_map (fun x => let '(p, (r, s', tm)) := x in map (fun c => ((p * fst c)%Q, ((r, s', tm), snd c))) (pi s')) l) ts) =
  expected_value gamma (state_worth (real pi) (fun s a => Q2R (ch s a)) (fun s a => Q2R (X s a))) l.
Proof.
  intros F. revert ts. induction F as [|[p [[r s'] tm]] l [Hp Hs] F IH]; intros ts H; cbn [flat_map expected_value] in *; [inversion H; apply Q2R_0|].
  apply Forall2_app_inv_l in H. destruct H as (t1 & t2 & H1 & H2 & ->). rewrite (Qeq_eqR _ _ (average_app _ _ t1 t2 (Forall2_len _ _ _ H1))), Q2R_plus, (IH _ H2), (average_choices X ch p r s' tm _ _ H1).
  destruct (P s' Hs) as [P1 _]. unfold real in P1. rewrite P1. unfold state_worth, real. destruct tm; lra.
Qed.
(** What one fit does. *)
Definition gives (target : nat -> nat -> batch nat nat -> list Q) (X ch : nat -> nat -> Q) : Prop :=
  forall s a r s' tm a', exists t, target s' a' (one_batch gamma s a r s' tm) = [t] /\ (t == r + (if tm : bool then 0 else gamma * (X s' a' - ch s' a')))%Q.
Lemma fit_near eps target X ch q U d : gives target X ch -> fits_within D gamma eps pi target q -> worth D gamma (real pi) (fun s a => Q2R (ch s a)) U ->
  (0 <= d)%R -> (forall s a, s < states D -> a <= last_action D -> (Rabs (Q2R (X s a) - U s a) <= d)%R) -> within D q U (Q2R gamma * d + Q2R eps)%R.
Proof.
  intros G [_ F] HU Hd H s a Hs Ha. destruct (F s a Hs Ha) as (ts & E & F2). destruct (W s a Hs Ha) as [_ Go].
  assert (M : Forall2 (means X ch) (chances D pi s a) ts).
  { clear - G F2. unfold chances in *. induction F2 as [|[p [[[r s'] tm] a']] t l ts (b & Eb & Et) F2 IH]; constructor; [|exact IH]. rewrite one_batch_ok in Eb. injection Eb as <-. destruct (G s a r s' tm a') as (t' & Et' & Ht). rewrite Et in Et'. injection Et' as <-. exact Ht. }
  pose proof (average_worth X ch (outcomes D s a) ts Go M) as A. fold (chances D pi s a) in A. apply Qle_Rle in E. rewrite Q2R_abs, Q2R_minus, A in E. clear A.
  pose proof (HU s a Hs Ha) as HUs. rewrite HUs.
  pose proof (expected_near D W gamma Hg (state_worth (real pi) (fun s a => Q2R (ch s a)) (fun s a => Q2R (X s a))) (state_worth (real pi) (fun s a => Q2R (ch s a)) U) d s a Hs Ha Hd
    ltac:(intros s' Hs'; apply (state_worth_near D); [exact P|exact Hs'|intros a' Ha'; now apply H])) as N.
  eapply Rle_trans; [|rewrite Rplus_comm; apply Rplus_le_compat; [exact E|exact N]]. eapply Rle_trans; [|apply Rabs_triang]. right. f_equal. lra.
Qed.
(** There is an exact fit. *)
Definition fitted_cell (target : nat -> nat -> batch nat nat -> list Q) (s a : nat) : Q :=
  average_over (chances D pi s a) (map (fun c => let '(_, ((r, s', tm), a')) := c in hd 0%Q (target s' a' (one_batch gamma s a r s' tm))) (chances D pi s a)).
Definition fitted_table (target : nat -> nat -> batch nat nat -> list Q) : vec := map (fun i => fitted_cell target (i / S (last_action D)) (i mod S (last_action D))) (seq 0 (size D)).
Lemma fitted_table_ok target X ch : gives target X ch -> fits_within D gamma 0 pi target (fitted_table target).
Proof.
  intros G. split; [unfold fitted_table; now rewrite map_length, seq_length|]. intros s a Hs Ha.
  exists (map (fun c => let '(_, ((r, s', tm), a')) := c in hd 0%Q (target s' a' (one_batch gamma s a r s' tm))) (chances D pi s a)). split.
  - unfold cell, fitted_table. pose proof (flat_lt D s a Hs Ha) as L. rewrite (nth_indep _ 0%Q (fitted_cell target (0 / S (last_action D)) (0 mod S (last_action D)))) by (rewrite map_length, seq_length; exact L).
    rewrite (map_nth (fun i => fitted_cell target (i / S (last_action D)) (i mod S (last_action D)))), seq_nth by exact L. cbn [plus]. rewrite (flat_div D s a Ha), (flat_mod D s a Ha). fold (fitted_cell target s a).
    setoid_replace (fitted_cell target s a - fitted_cell target s a)%Q with 0%Q by ring. apply Qle_refl.
  - induction (chances D pi s a) as [|[p [[[r s'] tm] a']] l IH]; cbn [map]; constructor; [|exact IH]. exists (one_batch gamma s a r s' tm). split; [apply one_batch_ok|]. destruct (G s a r s' tm a') as (t & E & _). now rewrite E.
Qed.

(** The targets of the three agents. *)
Lemma gives_ddpg t : gives (fun _ a' b => ddpg_target gamma t [a'] b) t (fun _ _ => 0%Q).
Proof. intros s a r s' tm a'. eexists. split; [reflexivity|]. cbn [b_reward fst snd]. destruct tm; ring. Qed.
Lemma gives_td3 t1 t2 : gives (fun _ a' b => td3_target t1 t2 [a'] b) (fun s a => Qmin (t1 s a) (t2 s a)) (fun _ _ => 0%Q).
Proof. intros s a r s' tm a'. eexists. split; [reflexivity|]. cbn [b_reward fst snd]. destruct tm; ring. Qed.
Lemma gives_sac t1 t2 temperature lp : gives (fun s' a' b => sac_target t1 t2 temperature [(a', lp s' a')] b) (fun s a => Qmin (t1 s a) (t2 s a)) (fun s a => temperature * lp s a)%Q.
Proof. intros s a r s' tm a'. eexists. split; [reflexivity|]. cbn [b_reward fst snd]. destruct tm; ring. Qed.
End Sampled.

(** ** Rounds *)
Lemma soft_copy_nth tau i : forall t q, length t = length q -> (nth i (soft_copy tau t q) 0 == (1 - tau) * nth i t 0 + tau * nth i q 0)%Q.
Proof.
  unfold soft_copy, vscale. revert i. intros i t. revert i. induction t as [|x t IH]; intros i [|y q] L; try discriminate; cbn [map vadd].
  - destruct i; cbn; ring.
  - destruct i; cbn [nth]; [reflexivity|]. apply IH. cbn in L. lia.
Qed.
Lemma soft_copy_len tau t q : length t = length q -> length (soft_copy tau t q) = length q.
Proof. intros L. unfold soft_copy. apply vadd_len; apply vscale_len; [exact L|reflexivity]. Qed.
Lemma soft_within D tau t q U d e : length t = length q -> (0 <= Q2R tau <= 1)%R -> within D t U d -> within D q U e -> within D (soft_copy tau t q) U ((1 - Q2R tau) * d + Q2R tau * e)%R.
Proof.
  intros L Ht H K s a Hs Ha. specialize (H s a Hs Ha). specialize (K s a Hs Ha). unfold cell in *. rewrite (Qeq_eqR _ _ (soft_copy_nth tau _ t q L)), Q2R_plus, !Q2R_mult, Q2R_minus, Q2R_1.
  set (x := Q2R (nth _ t 0%Q)) in *. set (y := Q2R (nth _ q 0%Q)) in *.
  replace ((1 - Q2R tau) * x + Q2R tau * y - U s a)%R with ((1 - Q2R tau) * (x - U s a) + Q2R tau * (y - U s a))%R by ring.
  eapply Rle_trans; [apply Rabs_triang|]. rewrite !Rabs_mult, (Rabs_pos_eq (1 - Q2R tau)), (Rabs_pos_eq (Q2R tau)) by lra. apply Rplus_le_compat; apply Rmult_le_compat_l; lra || assumption.
Qed.
Definition rate (method : option Q) : Q := match method with None => 1%Q | Some tau => tau end.
Lemma sync_len method t q : length t = length q -> length (synchronize method t q) = length q. Proof. destruct method; [apply soft_copy_len|reflexivity]. Qed.
Lemma sync_within D method t q U d e : length t = length q -> (0 <= Q2R (rate method) <= 1)%R -> within D t U d -> within D q U e -> within D (synchronize method t q) U ((1 - Q2R (rate method)) * d + Q2R (rate method) * e)%R.
Proof.
  destruct method as [tau|]; [apply soft_within|]. intros _ _ _ H s a Hs Ha. specialize (H s a Hs Ha). cbn [synchronize rate]. rewrite Q2R_1. lra.
Qed.
Lemma Q2R_min x y : Q2R (Qmin x y) = Rmin (Q2R x) (Q2R y).
Proof.
  destruct (Q.min_spec x y) as [[H E]|[H E]]; rewrite (Qeq_eqR _ _ E).
  - apply Qlt_Rlt in H. rewrite Rmin_left; lra.
  - apply Qle_Rle in H. rewrite Rmin_right; lra.
Qed.
Lemma min_near x y u d : (Rabs (Q2R x - u) <= d -> Rabs (Q2R y - u) <= d -> Rabs (Q2R (Qmin x y) - u) <= d)%R.
Proof. rewrite Q2R_min. intros H K. unfold Rmin. destruct (Rle_dec (Q2R x) (Q2R y)); assumption. Qed.

(** What is left of an error [d] after [k] rounds. *)
Definition left_over (gamma tau eps : Q) (d : R) (k : nat) : R := ((1 - Q2R tau * (1 - Q2R gamma)) ^ k * d + Q2R eps / (1 - Q2R gamma))%R.
Lemma left_over_nonneg gamma tau eps d k : (0 <= Q2R gamma < 1)%R -> (0 <= Q2R tau <= 1)%R -> (0 <= Q2R eps)%R -> (0 <= d)%R -> (0 <= left_over gamma tau eps d k)%R.
Proof.
  intros Hg Ht He Hd. unfold left_over. assert (0 <= Q2R eps / (1 - Q2R gamma))%R by (apply Rmult_le_pos; [lra|left; apply Rinv_0_lt_compat; lra]).
  assert (0 <= (1 - Q2R tau * (1 - Q2R gamma)) ^ k)%R by (apply pow_le; nra). nra.
Qed.
Lemma left_over_critic gamma tau eps d k : (Q2R gamma < 1)%R -> (Q2R gamma * left_over gamma tau eps d k + Q2R eps = Q2R gamma * ((1 - Q2R tau * (1 - Q2R gamma)) ^ k * d) + Q2R eps / (1 - Q2R gamma))%R.
Proof. intros Hg. unfold left_over. field. lra. Qed.
Lemma left_over_next gamma tau eps d k : (Q2R gamma < 1)%R -> ((1 - Q2R tau) * left_over gamma tau eps d k + Q2R tau * (Q2R gamma * left_over gamma tau eps d k + Q2R eps) = left_over gamma tau eps d (S k))%R.
Proof. intros Hg. unfold left_over. cbn [pow]. field. lra. Qed.

Section Rounds.
Context (D : problem) (W : well_formed D) (gamma eps tau : Q) (pi : nat -> list (Q * nat)) (P : proper D (real pi)) (Hg : (0 <= Q2R gamma < 1)%R) (Ht : (0 <= Q2R tau <= 1)%R) (He : (0 <= Q2R eps)%R).
Lemma single_rounds method (Hm : rate method = tau) (tg : nat -> nat -> nat -> batch nat nat -> list Q) ch q t U d :
  (forall k, gives gamma (tg k) (cell D (t k)) ch) -> length (t 0) = size D -> (forall k, fits_within D gamma eps pi (tg k) (q (S k)) /\ t (S k) = synchronize method (t k) (q (S k))) ->
  worth D gamma (real pi) (fun s a => Q2R (ch s a)) U -> (0 <= d)%R -> within D (t 0) U d -> forall k, within D (t k) U (left_over gamma tau eps d k) /\ within D (q (S k)) U (Q2R gamma * left_over gamma tau eps d k + Q2R eps)%R.
Proof.
  intros G L F HU Hd H0.
  assert (Lk : forall k, length (t k) = size D) by (induction k as [|k IH]; [exact L|]; destruct (F k) as [[Lq _] ->]; rewrite sync_len; congruence).
  assert (K : forall k, within D (t k) U (left_over gamma tau eps d k) -> within D (q (S k)) U (Q2R gamma * left_over gamma tau eps d k + Q2R eps)%R).
  { intros k H. destruct (F k) as [Fk _]. apply (fit_near D W gamma Hg pi P eps (tg k) (cell D (t k)) ch (q (S k)) U _ (G k) Fk HU); [now apply left_over_nonneg|exact H]. }
  assert (T : forall k, within D (t k) U (left_over gamma tau eps d k)); [|intros k; split; [apply T|apply K, T]].
  induction k as [|k IH].
  - intros s a Hs Ha. specialize (H0 s a Hs Ha). unfold left_over. cbn [pow]. assert (0 <= Q2R eps / (1 - Q2R gamma))%R by (apply Rmult_le_pos; [lra|left; apply Rinv_0_lt_compat; lra]). lra.
  - pose proof (K k IH) as Kq. destruct (F k) as [[Lq _] ->]. rewrite <- left_over_next by lra. rewrite <- Hm. apply sync_within; rewrite ?Hm; [congruence|exact Ht|exact IH|exact Kq].
Qed.
Lemma double_rounds (tg : nat -> nat -> nat -> batch nat nat -> list Q) ch q1 q2 t1 t2 U d :
  (forall k, gives gamma (tg k) (fun s a => Qmin (cell D (t1 k) s a) (cell D (t2 k) s a)) ch) -> length (t1 0) = size D -> length (t2 0) = size D ->
  (forall k, fits_within D gamma eps pi (tg k) (q1 (S k)) /\ fits_within D gamma eps pi (tg k) (q2 (S k)) /\ t1 (S k) = soft_copy tau (t1 k) (q1 (S k)) /\ t2 (S k) = soft_copy tau (t2 k) (q2 (S k))) ->
  worth D gamma (real pi) (fun s a => Q2R (ch s a)) U -> (0 <= d)%R -> within D (t1 0) U d -> within D (t2 0) U d -> forall k,
    (within D (t1 k) U (left_over gamma tau eps d k) /\ within D (t2 k) U (left_over gamma tau eps d k)) /\
    (within D (q1 (S k)) U (Q2R gamma * left_over gamma tau eps d k + Q2R eps)%R /\ within D (q2 (S k)) U (Q2R gamma * left_over gamma tau eps d k + Q2R eps)%R).
Proof.
  intros G L1 L2 F HU Hd H1 H2.
  assert (Lk : forall k, length (t1 k) = size D /\ length (t2 k) = size D).
  { induction k as [|k [I1 I2]]; [now split|]. destruct (F k) as ([Lq1 _] & [Lq2 _] & -> & ->). rewrite !soft_copy_len; congruence || (split; congruence). }
  assert (K : forall k, within D (t1 k) U (left_over gamma tau eps d k) /\ within D (t2 k) U (left_over gamma tau eps d k) ->
    within D (q1 (S k)) U (Q2R gamma * left_over gamma tau eps d k + Q2R eps)%R /\ within D (q2 (S k)) U (Q2R gamma * left_over gamma tau eps d k + Q2R eps)%R).
  { intros k [H H']. destruct (F k) as (Fk1 & Fk2 & _). split; [apply (fit_near D W gamma Hg pi P eps (tg k) _ ch (q1 (S k)) U _ (G k) Fk1 HU)|apply (fit_near D W gamma Hg pi P eps (tg k) _ ch (q2 (S k)) U _ (G k) Fk2 HU)];
      try (now apply left_over_nonneg); intros s a Hs Ha; apply min_near; [now apply H|now apply H'|now apply H|now apply H']. }
  assert (T : forall k, within D (t1 k) U (left_over gamma tau eps d k) /\ within D (t2 k) U (left_over gamma tau eps d k)); [|intros k; split; [apply T|apply K, T]].
  assert (0 <= Q2R eps / (1 - Q2R gamma))%R by (apply Rmult_le_pos; [lra|left; apply Rinv_0_lt_compat; lra]).
  induction k as [|k [I1 I2]].
  - split; intros s a Hs Ha; [specialize (H1 s a Hs Ha)|specialize (H2 s a Hs Ha)]; unfold left_over; cbn [pow]; lra.
  - destruct (K k (conj I1 I2)) as [K1 K2]. destruct (Lk k) as [X1 X2]. destruct (F k) as ([Lq1 _] & [Lq2 _] & -> & ->). rewrite <- left_over_next by lra. split; apply soft_within; try assumption; congruence.
Qed.
End Rounds.
