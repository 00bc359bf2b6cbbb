(** Proofs for C136: the means of exactly fitted distributions are exactly fitted DQN tables. *)
From Coq Require Import Setoid Reals QArith Qreals Qminmax Lqa.
From Verif Require Import Base P_Base M_ReplayBuffer M_Batch M_ActionValue M_Targets M_Categorical S_Batch S_Targets S_Categorical P_Targets P_Categorical C38 S_ValueIteration P_FittedTargets S_DistIteration.
Close Scope R_scope. Close Scope Q_scope. Open Scope nat_scope.

(** ** Averages of lists *)
Lemma average_scale l b : forall (X : Type) (f g : X -> Q) ts, (average l (map (fun t => f t * b + g t) ts) == average l (map f ts) * b + average l (map g ts))%Q.
Proof. induction l as [|[p x] l IH]; intros X f g [|t ts]; cbn [average map]; try ring. rewrite IH. ring. Qed.
Lemma average_ext l : forall (X : Type) (f g : X -> Q) ts, Forall (fun t => (f t == g t)%Q) ts -> (average l (map f ts) == average l (map g ts))%Q.
Proof. induction l as [|[p x] l IH]; intros X f g ts H; destruct H as [|t ts Ht H]; cbn [average map]; try reflexivity. rewrite Ht, (IH _ _ _ _ H). reflexivity. Qed.
Lemma average_eq l : forall ts ts', Forall2 Qeq ts ts' -> (average l ts == average l ts')%Q.
Proof. induction l as [|[p x] l IH]; intros ts ts' H; destruct H as [|t t' ts ts' Ht H]; cbn [average]; try reflexivity. rewrite Ht, (IH _ _ H). reflexivity. Qed.
Lemma average_const l : forall ts, length ts = length l -> Forall (fun t => (t == 1)%Q) ts -> (average l ts == total_probability l)%Q.
Proof. induction l as [|[p x] l IH]; intros [|t ts] L H; cbn [average total_probability] in *; try discriminate; [reflexivity|]. apply Forall_cons_iff in H. destruct H as [Ht H]. assert (E : (average l ts == total_probability l)%Q) by (apply IH; [cbn in L; lia|exact H]). rewrite Ht, E. ring. Qed.
Lemma average_nonneg l : Forall (fun x => (0 <= fst x)%Q) l -> forall ts, Forall (fun t => (0 <= t)%Q) ts -> (0 <= average l ts)%Q.
Proof.
  intros G. induction G as [|[p x] l Hp G IH]; intros ts H; destruct H as [|t ts Ht H]; cbn [average]; try apply Qle_refl. cbn [fst] in Hp. specialize (IH ts H).
  pose proof (Qmult_le_0_compat p t Hp Ht). lra.
Qed.
Lemma mixture_mean l : forall n p z ts, length p = n -> length z = n -> Forall (fun t => length t = n) ts -> (forall j, j < n -> (nth j p 0 == average l (map (fun t => nth j t 0) ts))%Q) ->
  (mean_of p z == average l (map (fun t => mean_of t z) ts))%Q.
Proof.
  intros n. induction n as [|n IH]; intros p z ts Lp Lz Lt H.
  - destruct p; [|discriminate]. destruct z; [|discriminate]. cbn [mean_of]. clear - Lt. revert l. induction ts as [|t ts IH]; intros l; destruct l as [|[p x] l]; cbn [map average]; try reflexivity.
    apply Forall_cons_iff in Lt. destruct Lt as [L Lt]. destruct t; [|discriminate]. cbn [mean_of]. rewrite <- (IH Lt). ring.
  - destruct p as [|x p]; [discriminate|]. destruct z as [|b z]; [discriminate|]. cbn [mean_of].
    rewrite (IH p z (map (@tl Q) ts)); [|cbn in Lp; lia|cbn in Lz; lia| |].
    + rewrite map_map. pose proof (H 0 ltac:(lia)) as H0. cbn [nth] in H0. rewrite H0, <- average_scale. apply average_ext. revert Lt. apply Forall_impl. intros t L. destruct t as [|y t]; [discriminate|]. cbn [mean_of nth tl]. reflexivity.
    + rewrite Forall_map. revert Lt. apply Forall_impl. intros t L. destruct t; [discriminate|]. cbn in *. lia.
    + intros j Hj. specialize (H (S j) ltac:(lia)). cbn [nth] in H. rewrite H, map_map. apply average_ext. revert Lt. apply Forall_impl. intros t L. destruct t; [discriminate|]. cbn [nth tl]. reflexivity.
Qed.
Lemma total_mean : forall n p, length p = n -> (total p == mean_of p (repeat 1 n))%Q.
Proof. induction n as [|n IH]; intros [|x p] L; try discriminate; cbn [total repeat mean_of]; [reflexivity|]. assert (E : (total p == mean_of p (repeat 1 n))%Q) by (apply IH; cbn in L; lia). rewrite E. ring. Qed.
Lemma mixture_distribution l n p ts : (total_probability l == 1)%Q -> Forall (fun x => (0 <= fst x)%Q) l -> length ts = length l -> length p = n -> Forall (distribution n) ts ->
  (forall j, j < n -> (nth j p 0 == average l (map (fun t => nth j t 0) ts))%Q) -> distribution n p.
Proof.
  intros P G L Lp Dt H. assert (Lt : Forall (fun t => length t = n) ts) by (revert Dt; apply Forall_impl; intros t X; apply X). split; [exact Lp|]. split.
  - apply Forall_forall. intros x Hx. apply In_nth with (d := 0%Q) in Hx. destruct Hx as (j & Hj & <-). rewrite H by lia. apply average_nonneg; [exact G|]. rewrite Forall_map. revert Dt. apply Forall_impl. intros t (Lt' & Nt & _). rewrite Forall_forall in Nt. apply Nt, nth_In. lia.
  - rewrite (total_mean n p Lp), (mixture_mean l n p _ ts Lp (repeat_length _ _) Lt H), <- P. apply average_const; [now rewrite map_length|]. rewrite Forall_map. revert Dt. apply Forall_impl. intros t (Lt' & _ & Tt). rewrite <- (total_mean n t Lt'). exact Tt.
Qed.

(** ** One transition *)
Lemma nstep_one gamma s a r s' tm x : (nstep gamma [transition s a (r, s', tm)] x == one_target gamma r tm x)%Q.
Proof. unfold nstep, one_target, gpow, transition. cbn [map payload x_reward discounted existsb terminal length]. destruct tm; cbn [orb]; [ring|]. change (Z.of_nat 1) with 1%Z. cbn. ring. Qed.
Definition inside (gamma lo hi r : Q) (tm : bool) : Prop := if tm then (lo <= r <= hi)%Q else (lo <= r + gamma * lo)%Q /\ (r + gamma * hi <= hi)%Q.
Lemma inside_atoms gamma v_min delta n r tm : (0 <= gamma)%Q -> (0 < delta)%Q -> inside gamma v_min (v_min + delta * inject_Z (Z.of_nat (n - 1))) r tm ->
  Forall (fun x => (v_min <= one_target gamma r tm x <= v_min + delta * inject_Z (Z.of_nat (n - 1)))%Q) (atoms v_min delta n).
Proof.
  intros Hg Hd HI. unfold atoms. rewrite Forall_map. apply Forall_forall. intros i Hi. apply in_seq in Hi. set (hi := (v_min + delta * inject_Z (Z.of_nat (n - 1)))%Q) in *. set (x := (v_min + delta * inject_Z (Z.of_nat i))%Q).
  assert (X1 : (v_min <= x)%Q). { unfold x. assert (X : (0 <= inject_Z (Z.of_nat i))%Q) by (unfold Qle; cbn; lia). pose proof (Qmult_le_0_compat delta _ (Qlt_le_weak _ _ Hd) X). lra. }
  assert (X2 : (x <= hi)%Q). { unfold x, hi. assert (X : (0 <= inject_Z (Z.of_nat (n - 1)) - inject_Z (Z.of_nat i))%Q). { apply (proj1 (Qle_minus_iff _ _)). rewrite <- Zle_Qle. lia. } pose proof (Qmult_le_0_compat delta _ (Qlt_le_weak _ _ Hd) X). lra. }
  clearbody x hi. unfold one_target, inside in *. destruct tm; [split; lra|]. destruct HI as [H1 H2].
  assert (Y1 : (0 <= gamma * (x - v_min))%Q) by (apply Qmult_le_0_compat; lra). assert (Y2 : (0 <= gamma * (hi - x))%Q) by (apply Qmult_le_0_compat; lra). split; lra.
Qed.

Definition target_rel (T : (nat -> list (list Q)) -> batch nat nat -> result (list (list Q))) (gamma v_min delta : Q) (n : nat) : Prop :=
  forall d s a r s' tm, d s' <> [] -> Forall (distribution n) (d s') -> inside gamma v_min (v_min + delta * inject_Z (Z.of_nat (n - 1))) r tm ->
    exists t, T d (one_batch gamma s a r s' tm) = Ok [t] /\ distribution n t /\ exists m', is_max (means (atoms v_min delta n) d s') m' /\ (mean_of t (atoms v_min delta n) == one_target gamma r tm m')%Q.

Section Relations.
Context (gamma v_min delta : Q) (n : nat) (Hg : (0 <= gamma)%Q) (Hn : 2 <= n) (Hd : (0 < delta)%Q).
Notation z := (atoms v_min delta n).
Lemma finish s a r s' tm dist t : distribution n dist -> is_target gamma [transition s a (r, s', tm)] v_min delta n dist t -> (Forall (fun q => (0 <= q)%Q) dist -> Forall (fun q => (0 <= q)%Q) t) ->
  inside gamma v_min (v_min + delta * inject_Z (Z.of_nat (n - 1))) r tm -> distribution n t /\ (mean_of t z == one_target gamma r tm (mean_of dist z))%Q.
Proof.
  intros (L & N & T1) HT HN HI. destruct (C38_target_mean gamma _ v_min delta n dist t HT L T1) as [T2 M].
  { pose proof (inside_atoms gamma v_min delta n r tm Hg Hd HI) as X. revert X. apply Forall_impl. intros x X. rewrite nstep_one. exact X. }
  rewrite nstep_one in M. destruct HT as (c & _ & Lt & _). split; [|exact M]. split; [exact Lt|]. split; [now apply HN|exact T2].
Qed.
Lemma rel_categorical : target_rel (fun d => categorical_target d z) gamma v_min delta n.
Proof.
  intros d s a r s' tm Hne HD HI. destruct (C38_categorical_dqn gamma v_min delta n [[transition s a (r, s', tm)]] (fun _ => d s')) as (b & Eb & ts & Et & F); [repeat constructor; discriminate|exact Hn|exact Hd| |].
  { intros _. split; [exact Hne|]. revert HD. apply Forall_impl. intros p X. apply X. }
  rewrite one_batch_ok in Eb. injection Eb as <-. inversion F as [|w t l1 l2 (s0 & a0 & s1 & dist & _ & [Hin Hmax] & HT & HN) F' E1 E2]; subst. inversion F'; subst.
  exists t. split; [exact Et|]. assert (Dd : distribution n dist) by (rewrite Forall_forall in HD; now apply HD). destruct (finish s a r s' tm dist t Dd HT HN HI) as [Dt M]. split; [exact Dt|]. exists (mean_of dist z). split; [|exact M].
  unfold means. split; [apply in_map_iff; eauto|]. intros x Hx. apply in_map_iff in Hx. destruct Hx as (p & <- & Hp). now apply Hmax.
Qed.
Lemma rel_double : target_rel (fun d => categorical_double_target d d z) gamma v_min delta n.
Proof.
  intros d s a r s' tm Hne HD HI. destruct (C38_categorical_double_dqn gamma v_min delta n [[transition s a (r, s', tm)]] (fun _ => d s') (fun _ => d s')) as (b & Eb & ts & Et & F); [repeat constructor; discriminate|exact Hn|exact Hd| |].
  { intros _. split; [exact Hne|]. split; [reflexivity|]. revert HD. apply Forall_impl. intros p X. apply X. }
  rewrite one_batch_ok in Eb. injection Eb as <-. inversion F as [|w t l1 l2 (s0 & a0 & s1 & i & own & dist & _ & [Hi Hmax] & Hi2 & HT & HN) F' E1 E2]; subst. inversion F'; subst. rewrite Hi in Hi2. injection Hi2 as ->. pose proof (nth_error_In _ _ Hi) as Hin.
  exists t. split; [exact Et|]. assert (Dd : distribution n dist) by (rewrite Forall_forall in HD; now apply HD). destruct (finish s a r s' tm dist t Dd HT HN HI) as [Dt M]. split; [exact Dt|]. exists (mean_of dist z). split; [|exact M].
  unfold means. split; [apply in_map_iff; eauto|]. intros x Hx. apply in_map_iff in Hx. destruct Hx as (p & <- & Hp). now apply Hmax.
Qed.
End Relations.

(** ** The means follow the iteration of DQN *)
Section Means.
Context (D : problem) (W : well_formed D) (gamma v_min delta : Q) (n : nat).
Context (HW : wide_enough D gamma v_min (v_min + delta * inject_Z (Z.of_nat (n - 1)))).
Context (T : (nat -> list (list Q)) -> batch nat nat -> result (list (list Q))) (HT : target_rel T gamma v_min delta n).
Notation z := (atoms v_min delta n).
Lemma zlen : length z = n. Proof. unfold atoms. now rewrite map_length, seq_length. Qed.
Lemma row_ne d s : dist_table D n d -> s < states D -> d s <> [].
Proof. intros Td Hs E. destruct (Td s Hs) as [L _]. rewrite E in L. discriminate. Qed.
Lemma fit_row d d' s a : dist_table D n d -> dist_fits D gamma n T d d' -> s < states D -> a <= last_action D -> exists p, nth_error (d' s) a = Some p /\ distribution n p /\
  exists ts, (mean_of p z == average (outcomes D s a) ts)%Q /\ Forall2 (fun o t => exists b, batch_experiences gamma [[transition s a (snd o)]] = Ok b /\ dqn_target (means z d) b = Ok [t]) (outcomes D s a) ts.
Proof.
  intros Td F Hs Ha. destruct (F s a Hs Ha) as (p & ts & E & Lp & H & F2). exists p. split; [exact E|]. destruct (W s a Hs Ha) as [P G]. pose proof (HW s a Hs Ha) as In.
  assert (X : Forall (distribution n) ts /\ exists us, Forall2 Qeq (map (fun t => mean_of t z) ts) us /\ Forall2 (fun o t => exists b, batch_experiences gamma [[transition s a (snd o)]] = Ok b /\ dqn_target (means z d) b = Ok [t]) (outcomes D s a) us).
  { clear E Lp H P. induction F2 as [|[pr [[r s'] tm]] t l ts (b & Eb & Et) F2 IH]; [split; [constructor|]; exists []; split; constructor|]. apply Forall_cons_iff in G. destruct G as [[_ Hs'] G]. apply Forall_cons_iff in In. destruct In as [I1 In].
    destruct (IH G In) as (Dt & us & Eu & Fu). cbn [snd] in Eb. rewrite one_batch_ok in Eb. injection Eb as <-.
    destruct (HT d s a r s' tm (row_ne d s' Td Hs') (proj2 (Td s' Hs')) I1) as (t0 & Et0 & Dt0 & m' & M & Em). rewrite Et in Et0. injection Et0 as <-. split; [constructor; assumption|].
    destruct (max_ok (means z d s')) as (m2 & E2 & M2). { unfold means. intros X. apply map_eq_nil in X. exact (row_ne d s' Td Hs' X). }
    eexists (_ :: us). cbn [map]. split; [constructor; [|exact Eu]|constructor; [|exact Fu]].
    2:{ exists (one_batch gamma s a r s' tm). cbn [snd]. split; [apply one_batch_ok|]. unfold dqn_target, one_batch. cbn [b_next_state b_reward b_discount b_terminal map rmapM rbind]. rewrite E2. cbn [rbind bellman]. reflexivity. }
    rewrite Em. symmetry. etransitivity; [apply one_bellman|]. assert (Q : (m2 == m')%Q) by (apply Qle_antisym; [apply M, M2|apply M2, M]). unfold one_target. destruct tm; [reflexivity|]. now rewrite Q. }
  destruct X as (Dt & us & Eu & Fu). split.
  - apply (mixture_distribution (outcomes D s a) n p ts P); [|symmetry; eapply Forall2_len; exact F2|exact Lp|exact Dt|exact H]. revert G. apply Forall_impl. intros [pr [[r s'] tm]] [Hp _]. exact Hp.
  - exists us. split; [|exact Fu]. rewrite (mixture_mean (outcomes D s a) n p z ts Lp zlen); [now apply average_eq| |exact H]. revert Dt. apply Forall_impl. intros t X. apply X.
Qed.
Lemma means_follow d : dist_iterates D gamma n T d -> (forall k, dist_table D n (d k)) /\ iterates D gamma dqn_target (fun k => means z (d k)).
Proof.
  intros [H0 H]. assert (Td : forall k, dist_table D n (d k)).
  { induction k as [|k IH]; [exact H0|]. destruct (H k) as [L F]. intros s Hs. split; [now apply L|]. apply Forall_forall. intros p Hp. apply In_nth_error in Hp. destruct Hp as (a & Ea). assert (a < length (d (S k) s)) by (apply nth_error_Some; rewrite Ea; discriminate). rewrite L in H1 by exact Hs.
    destruct (fit_row (d k) (d (S k)) s a IH F Hs ltac:(lia)) as (p' & E & Dp & _). rewrite Ea in E. injection E as <-. exact Dp. }
  assert (Tm : forall k, table D (means z (d k))) by (intros k s Hs; unfold means; rewrite map_length; apply (Td k s Hs)). split; [exact Td|]. split; [apply Tm|]. intros k. split; [apply Tm|].
  intros s a Hs Ha. destruct (fit_row (d k) (d (S k)) s a (Td k) (proj2 (H k)) Hs Ha) as (p & E & _ & ts & M & F). exists (mean_of p z), ts. split; [|split; assumption]. unfold means. now apply (map_nth_error (fun p => mean_of p z)).
Qed.
(** There are distributions that fit. *)
Definition dist_targets (d : nat -> list (list Q)) (s a : nat) : list (list Q) := map (fun o => let '(_, (r, s', tm)) := o in match T d (one_batch gamma s a r s' tm) with Ok [t] => t | _ => [] end) (outcomes D s a).
Definition dist_fitted (d : nat -> list (list Q)) (s : nat) : list (list Q) :=
  map (fun a => map (fun j => average (outcomes D s a) (map (fun t => nth j t 0%Q) (dist_targets d s a))) (seq 0 n)) (seq 0 (S (last_action D))).
Lemma dist_fitted_ok d : dist_table D n d -> dist_fits D gamma n T d (dist_fitted d).
Proof.
  intros Td s a Hs Ha. eexists. exists (dist_targets d s a). split; [unfold dist_fitted; apply map_nth_error; rewrite (nth_error_nth' _ 0) by (rewrite seq_length; lia); rewrite seq_nth by lia; reflexivity|]. split; [now rewrite map_length, seq_length|]. split.
  - intros j Hj. cbn [Nat.add]. set (f := fun j => average (outcomes D s a) (map (fun t => nth j t 0%Q) (dist_targets d s a))). rewrite (nth_indep _ 0%Q (f 0)) by (rewrite map_length, seq_length; exact Hj). rewrite (map_nth f (seq 0 n) 0 j), seq_nth by exact Hj. reflexivity.
  - unfold dist_targets. destruct (W s a Hs Ha) as [_ G]. pose proof (HW s a Hs Ha) as In. induction G as [|[p [[r s'] tm]] l [_ Hs'] G IH]; cbn [map]; constructor.
    + apply Forall_cons_iff in In. destruct In as [I1 In]. exists (one_batch gamma s a r s' tm). cbn [snd]. split; [apply one_batch_ok|]. destruct (HT d s a r s' tm (row_ne d s' Td Hs') (proj2 (Td s' Hs')) I1) as (t0 & Et0 & _). now rewrite Et0.
    + apply IH. now apply Forall_cons_iff in In.
Qed.
Fixpoint dist_iterated (d0 : nat -> list (list Q)) (k : nat) : nat -> list (list Q) := match k with O => d0 | S k => dist_fitted (dist_iterated d0 k) end.
Lemma dist_iterated_ok d0 : dist_table D n d0 -> dist_iterates D gamma n T (dist_iterated d0).
Proof.
  intros H. assert (L : forall d s, length (dist_fitted d s) = S (last_action D)) by (intros d s; unfold dist_fitted; now rewrite map_length, seq_length).
  assert (K : forall k, dist_table D n (dist_iterated d0 k)).
  { induction k as [|k IH]; [exact H|]. intros s Hs. split; [apply L|]. apply Forall_forall. intros p Hp. apply In_nth_error in Hp. destruct Hp as (a & Ea). cbn [dist_iterated] in Ea. assert (X : a < length (dist_fitted (dist_iterated d0 k) s)) by (apply nth_error_Some; rewrite Ea; discriminate). rewrite L in X.
    destruct (fit_row _ _ s a IH (dist_fitted_ok _ IH) Hs ltac:(lia)) as (p' & E & Dp & _). rewrite Ea in E. injection E as <-. exact Dp. }
  split; [exact H|]. intros k. split; [intros s _; apply L|apply dist_fitted_ok, K].
Qed.
End Means.
