(** C105: the statistics of agents are what their names say. *)
From Verif Require Import Base M_Stats.
From Coq Require Import QArith String List Lia Lqa.
Open Scope Q_scope.

(** Specification: averages over the last values seen. *)
Definition last_ones {X} (n : nat) (l : list X) : list X := skipn (length l - n) l.
(** The average over the last [n] of [l]; None (nan) if there is nothing to average. *)
Definition window_average (n : nat) (l : list Q) (x : option Q) : Prop :=
  match last_ones n l with [] => x = None | w => exists m, x = Some m /\ m * inject_Z (Z.of_nat (length w)) == fold_right Qplus 0 w end.
(** Decaying average, started at 0: the latest value has weight 1 - d, the one before d (1 - d), and so on. *)
Fixpoint powers (d : Q) (n : nat) : Q := match n with O => 1 | S n => d * powers d n end.
Fixpoint decayed (d : Q) (l : list Q) : Q := match l with [] => 0 | x :: l => (1 - d) * powers d (length l) * x + decayed d l end.
Definition number (s : stats) (name : string) : option stat := match find (fun p => String.eqb (fst p) name) s with Some p => Some (snd p) | None => None end.
Definition reports (s : stats) (name : string) (P : option Q -> Prop) : Prop := exists x, number s name = Some (Num x) /\ P x.
Definition counts (s : stats) (name : string) (n : nat) : Prop := number s name = Some (Count n).

(** Deques. *)
Lemma push_last {X} m (l : list X) x : push m (last_ones m l) x = last_ones m (l ++ [x]).
Proof.
  unfold push, last_ones. rewrite app_length, skipn_length. cbn [length]. destruct (Nat.ltb_spec (length l - (length l - m)) m) as [H|H].
  - replace (length l - m)%nat with 0%nat by lia. replace (length l + 1 - m)%nat with 0%nat by lia. reflexivity.
  - assert (E : (length l + 1 - m = S (length l - m))%nat) by lia. rewrite E. assert (A : skipn (length l - m) (l ++ [x]) = skipn (length l - m) l ++ [x]) by (rewrite skipn_app; replace (length l - m - length l)%nat with 0%nat by lia; reflexivity).
    rewrite <- A. clear. generalize (l ++ [x]) (length l - m)%nat. intros l0 n. revert n. induction l0 as [|y l0 IH]; intros [|n]; try reflexivity. cbn [skipn]. rewrite IH. reflexivity.
Qed.
Lemma extend_last {X} m xs : forall l : list X, extend m (last_ones m l) xs = last_ones m (l ++ xs).
Proof. induction xs as [|x xs IH]; intros l; cbn; [now rewrite app_nil_r|]. rewrite push_last. unfold extend in IH. rewrite IH, <- app_assoc. reflexivity. Qed.
Lemma last_nil {X} m : last_ones m (@nil X) = []. Proof. reflexivity. Qed.
Lemma mean_window n l : window_average n l (mean_or_nan (last_ones n l)).
Proof.
  unfold window_average, mean_or_nan. destruct (last_ones n l) as [|x w] eqn:E; [reflexivity|]. eexists. split; [reflexivity|]. unfold qtotal. field. intros C. unfold Qeq in C. cbn in C. lia.
Qed.
(** A record that is extended by what each event yields. *)
Lemma record_fold {S E} (on : S -> E -> S) (rec : S -> list Q) (yields : E -> list Q) m : (forall s e, rec (on s e) = extend m (rec s) (yields e)) ->
  forall h s l, rec s = last_ones m l -> rec (fold_left on h s) = last_ones m (l ++ flat_map yields h).
Proof. intros H h. induction h as [|e h IH]; intros s l R; cbn; [now rewrite app_nil_r|]. rewrite (IH _ (l ++ yields e)); [now rewrite <- app_assoc|]. now rewrite H, R, extend_last. Qed.
Lemma record_init {S E} (on : S -> E -> S) (rec : S -> list Q) (yields : E -> list Q) m s h : (forall s e, rec (on s e) = extend m (rec s) (yields e)) -> rec s = [] ->
  window_average m (flat_map yields h) (mean_or_nan (rec (fold_left on h s))).
Proof. intros H R. rewrite (record_fold on rec yields m H h s []) by exact R. apply mean_window. Qed.
Lemma count_fold {S E} (on : S -> E -> S) (cnt : S -> nat) (is : E -> bool) : (forall s e, cnt (on s e) = (cnt s + if is e then 1 else 0)%nat) -> forall h s, cnt (fold_left on h s) = (cnt s + length (filter is h))%nat.
Proof. intros H h. induction h as [|e h IH]; intros s; cbn; [lia|]. rewrite IH, H. destruct (is e); cbn; lia. Qed.

(** ** DQN and the agents derived from it; [taken] are the values of the actions of the minibatches. *)
Definition taken (e : dqn_event) : list Q := match e with DUpdate t _ _ => t | _ => [] end.
Definition dqn_loss (e : dqn_event) : list Q := match e with DUpdate _ _ l => [l] | _ => [] end.
Definition is_update (e : dqn_event) : bool := match e with DUpdate _ _ _ => true | _ => false end.
Definition is_observe (e : dqn_event) : bool := match e with DObserve => true | _ => false end.
Definition is_stored (e : dqn_event) : bool := match e with DStored => true | _ => false end.
Lemma dqn_parts iqn h : let st := dqn_statistics (fold_left (dqn_on iqn) h dqn_init) in
  reports st "average_loss" (window_average 100 (flat_map dqn_loss h)) /\ counts st "n_updates" (length (filter is_update h)) /\ counts st "cumulative_steps" (length (filter is_observe h)) /\ counts st "rlen" (length (filter is_stored h)).
Proof.
  cbv zeta. unfold reports, counts, number, dqn_statistics. cbn [find fst snd String.eqb Ascii.eqb Bool.eqb]. repeat split.
  - eexists. split; [reflexivity|]. apply (record_init (dqn_on iqn) d_loss dqn_loss 100); [|reflexivity]. intros s [| |t a l]; reflexivity.
  - do 2 f_equal. rewrite (count_fold (dqn_on iqn) d_optim_t is_update); [reflexivity|]. intros s [| |t a l]; cbn; lia.
  - do 2 f_equal. rewrite (count_fold (dqn_on iqn) d_steps is_observe); [reflexivity|]. intros s [| |t a l]; cbn; lia.
  - do 2 f_equal. rewrite (count_fold (dqn_on iqn) d_rlen is_stored); [reflexivity|]. intros s [| |t a l]; cbn; lia.
Qed.
Theorem C105_dqn h : let st := dqn_statistics (fold_left (dqn_on false) h dqn_init) in
  reports st "average_q" (window_average 1000 (flat_map taken h)) /\ reports st "average_loss" (window_average 100 (flat_map dqn_loss h)) /\
  counts st "n_updates" (length (filter is_update h)) /\ counts st "cumulative_steps" (length (filter is_observe h)) /\ counts st "rlen" (length (filter is_stored h)).
Proof.
  cbv zeta. split; [|apply dqn_parts]. unfold reports, number, dqn_statistics. cbn [find fst snd String.eqb Ascii.eqb Bool.eqb]. eexists. split; [reflexivity|].
  apply (record_init (dqn_on false) d_q taken 1000); [|reflexivity]. intros s [| |t a l]; reflexivity.
Qed.
(** IQN: average_q is not the average value of the actions taken: the values of all actions enter. *)
Theorem C105_iqn_refuted : ~ forall h, reports (dqn_statistics (fold_left (dqn_on true) h dqn_init)) "average_q" (window_average 1000 (flat_map taken h)).
Proof.
  intros H. destruct (H [DUpdate [1] [0; 1] 0]) as (x & E & W). cbv [window_average last_ones flat_map taken app length Nat.sub skipn] in W. destruct W as (m & -> & M).
  vm_compute in E. injection E as <-. vm_compute in M. discriminate.
Qed.
Definition all_values (e : dqn_event) : list Q := match e with DUpdate _ a _ => a | _ => [] end.
Theorem C105_iqn_partial h : let st := dqn_statistics (fold_left (dqn_on true) h dqn_init) in
  reports st "average_q" (window_average 1000 (flat_map all_values h)) /\ reports st "average_loss" (window_average 100 (flat_map dqn_loss h)) /\
  counts st "n_updates" (length (filter is_update h)) /\ counts st "cumulative_steps" (length (filter is_observe h)) /\ counts st "rlen" (length (filter is_stored h)).
Proof.
  cbv zeta. split; [|apply dqn_parts]. unfold reports, number, dqn_statistics. cbn [find fst snd String.eqb Ascii.eqb Bool.eqb]. eexists. split; [reflexivity|].
  apply (record_init (dqn_on true) d_q all_values 1000); [|reflexivity]. intros s [| |t a l]; reflexivity.
Qed.

(** ** DDPG *)
Definition mean_of (l : list Q) (m : Q) : Prop := m * inject_Z (Z.of_nat (length l)) == fold_right Qplus 0 l.
Theorem C105_ddpg h : Forall (fun e => snd e <> []) h -> let st := ddpg_statistics (fold_left ddpg_update h ddpg_init) in
  reports st "average_q" (window_average 1000 (flat_map snd h)) /\ reports st "average_critic_loss" (window_average 100 (map fst h)) /\ counts st "n_updates" (length h) /\
  exists losses, Forall2 (fun e l => mean_of (snd e) (- l)) h losses /\ reports st "average_actor_loss" (window_average 100 losses).
Proof.
  intros NE. cbv zeta. unfold reports, counts, number, ddpg_statistics. cbn [find fst snd String.eqb Ascii.eqb Bool.eqb]. repeat split.
  - eexists. split; [reflexivity|]. apply (record_init ddpg_update g_q snd 1000); [|reflexivity]. intros s [c q]; reflexivity.
  - eexists. split; [reflexivity|]. replace (map fst h) with (flat_map (fun e : Q * list Q => [fst e]) h) by (clear; induction h; cbn; congruence). apply (record_init ddpg_update g_critic (fun e => [fst e]) 100); [|reflexivity]. intros s [c q]; reflexivity.
  - do 2 f_equal. rewrite (count_fold ddpg_update g_n (fun _ => true)); [|intros s [c q]; cbn; lia]. cbn. clear. induction h; cbn; congruence.
  - set (al := fun e : Q * list Q => - (qtotal (snd e) / inject_Z (Z.of_nat (length (snd e))))). exists (map al h). split.
    + clear - NE. induction NE as [|e h N F IH]; constructor; [|exact IH]. unfold mean_of, al, qtotal. destruct e as [c [|q l]]; [contradiction N; reflexivity|]. cbn [snd]. field. intros C. unfold Qeq in C. cbn in C. lia.
    + eexists. split; [reflexivity|]. replace (map al h) with (flat_map (fun e => [al e]) h) by (clear; induction h; cbn; congruence). apply (record_init ddpg_update g_actor (fun e => [al e]) 100); [|reflexivity]. intros s [c q]; reflexivity.
Qed.

(** ** TD3: the policy is updated in every [delay]-th update. *)
Fixpoint every (delay k : nat) (h : list td3_ev) : list Q :=
  match h with [] => [] | e :: h => (if (S k mod delay =? 0)%nat then [te_policy e] else []) ++ every delay (S k) h end.
Lemma every_length delay : (1 <= delay)%nat -> forall h k, (length (every delay k h) + k / delay = (k + length h) / delay)%nat.
Proof.
  intros D. induction h as [|e h IH]; intros k; cbn [every length]; [now rewrite Nat.add_0_r|]. rewrite app_length. specialize (IH (S k)). replace (k + S (length h))%nat with (S k + length h)%nat by lia. rewrite <- IH.
  assert (X : (S k / delay = k / delay + length (if (S k mod delay =? 0)%nat then [te_policy e] else []))%nat); [|lia].
  pose proof (Nat.div_mod k delay ltac:(lia)) as E1. pose proof (Nat.mod_upper_bound k delay ltac:(lia)) as B. pose proof (Nat.div_mod (S k) delay ltac:(lia)) as E2. pose proof (Nat.mod_upper_bound (S k) delay ltac:(lia)) as B2.
  destruct (Nat.eqb_spec (S k mod delay) 0) as [Z|Z]; cbn [length].
  - symmetry. apply Nat.div_unique with 0%nat; [lia|]. assert (S k / delay <= k / delay + 1)%nat by (apply Nat.lt_succ_r; apply Nat.div_lt_upper_bound; nia). assert (k / delay + 1 <= S k / delay)%nat by nia. nia.
  - symmetry. rewrite Nat.add_0_r. apply Nat.div_unique with (S (k mod delay)); [|lia]. assert (S (k mod delay) <> delay); [|lia]. intros C. apply Z. replace (S k) with (delay * (k / delay + 1))%nat by lia. rewrite Nat.mul_comm. apply Nat.mod_mul. lia.
Qed.
Theorem C105_td3 delay h : (1 <= delay)%nat -> let st := td3_statistics (fold_left (td3_update delay) h td3_init) in
  reports st "average_q1" (window_average 1000 (flat_map te_q1 h)) /\ reports st "average_q2" (window_average 1000 (flat_map te_q2 h)) /\
  reports st "average_q_func1_loss" (window_average 100 (map te_l1 h)) /\ reports st "average_q_func2_loss" (window_average 100 (map te_l2 h)) /\
  reports st "average_policy_loss" (window_average 100 (every delay 0 h)) /\ counts st "q_func_n_updates" (length h) /\ counts st "policy_n_updates" (length h / delay).
Proof.
  intros D. cbv zeta. unfold reports, counts, number, td3_statistics. cbn [find fst snd String.eqb Ascii.eqb Bool.eqb].
  assert (QN : forall h s, t_qn (fold_left (td3_update delay) h s) = (t_qn s + length h)%nat).
  { intros h0. induction h0 as [|e h0 IH]; intros s; cbn [fold_left length]; [lia|]. rewrite IH. unfold td3_update. cbn [t_qn]. destruct (S (t_qn s) mod delay =? 0)%nat; cbn [t_qn]; lia. }
  assert (PR : forall h s l, t_pl s = last_ones 100 l -> t_pl (fold_left (td3_update delay) h s) = last_ones 100 (l ++ every delay (t_qn s) h) /\ t_pn (fold_left (td3_update delay) h s) = (t_pn s + length (every delay (t_qn s) h))%nat).
  { intros h0. induction h0 as [|e h0 IH]; intros s l R; cbn [fold_left every]; [rewrite app_nil_r; split; [exact R|cbn; lia]|].
    set (s1 := td3_update delay s e). assert (Q1 : t_qn s1 = S (t_qn s)) by (unfold s1, td3_update; cbn [t_qn]; destruct (S (t_qn s) mod delay =? 0)%nat; reflexivity).
    destruct (IH s1 (l ++ (if (S (t_qn s) mod delay =? 0)%nat then [te_policy e] else []))) as [I1 I2].
    - unfold s1, td3_update. cbn [t_qn]. destruct (S (t_qn s) mod delay =? 0)%nat; cbn [t_pl]; [rewrite R; apply push_last|now rewrite app_nil_r].
    - rewrite I1, I2, Q1, <- app_assoc, app_length. split; [reflexivity|]. unfold s1, td3_update. cbn [t_qn]. destruct (S (t_qn s) mod delay =? 0)%nat; cbn [t_pn length]; lia. }
  destruct (PR h td3_init [] eq_refl) as [P1 P2]. cbn [app t_qn td3_init] in P1, P2.
  assert (SG : forall f : td3_ev -> Q, map f h = flat_map (fun e => [f e]) h) by (intros f; clear; induction h; cbn; congruence). repeat split.
  - eexists. split; [reflexivity|]. apply (record_init (td3_update delay) t_q1 te_q1 1000); [|reflexivity]. intros s e. unfold td3_update. destruct (_ =? _)%nat; reflexivity.
  - eexists. split; [reflexivity|]. apply (record_init (td3_update delay) t_q2 te_q2 1000); [|reflexivity]. intros s e. unfold td3_update. destruct (_ =? _)%nat; reflexivity.
  - eexists. split; [reflexivity|]. rewrite SG. apply (record_init (td3_update delay) t_l1 (fun e => [te_l1 e]) 100); [|reflexivity]. intros s e. unfold td3_update. destruct (_ =? _)%nat; reflexivity.
  - eexists. split; [reflexivity|]. rewrite SG. apply (record_init (td3_update delay) t_l2 (fun e => [te_l2 e]) 100); [|reflexivity]. intros s e. unfold td3_update. destruct (_ =? _)%nat; reflexivity.
  - eexists. split; [reflexivity|]. rewrite P1. apply mean_window.
  - do 2 f_equal. rewrite QN. reflexivity.
  - do 2 f_equal. rewrite P2. cbn [td3_init t_pn Nat.add]. pose proof (every_length delay D h 0) as L. rewrite Nat.div_0_l in L by lia. cbn [Nat.add] in L. lia.
Qed.

(** ** SAC *)
Theorem C105_sac temp h : let st := sac_statistics (fold_left sac_update h (sac_init temp)) in
  reports st "average_q1" (window_average 1000 (flat_map se_q1 h)) /\ reports st "average_q2" (window_average 1000 (flat_map se_q2 h)) /\
  reports st "average_q_func1_loss" (window_average 100 (map se_l1 h)) /\ reports st "average_q_func2_loss" (window_average 100 (map se_l2 h)) /\
  reports st "average_entropy" (window_average 1000 (flat_map (fun e => match se_entropy e with Some l => l | None => map Qopp (se_logp e) end) h)) /\
  reports st "temperature" (eq (Some (last (map se_temp h) temp))) /\ counts st "n_updates" (length h).
Proof.
  cbv zeta. unfold reports, counts, number, sac_statistics. cbn [find fst snd String.eqb Ascii.eqb Bool.eqb].
  assert (SG : forall f : sac_ev -> Q, map f h = flat_map (fun e => [f e]) h) by (intros f; clear; induction h; cbn; congruence). repeat split.
  - eexists. split; [reflexivity|]. apply (record_init sac_update a_q1 se_q1 1000); reflexivity.
  - eexists. split; [reflexivity|]. apply (record_init sac_update a_q2 se_q2 1000); reflexivity.
  - eexists. split; [reflexivity|]. rewrite SG. apply (record_init sac_update a_l1 (fun e => [se_l1 e]) 100); reflexivity.
  - eexists. split; [reflexivity|]. rewrite SG. apply (record_init sac_update a_l2 (fun e => [se_l2 e]) 100); reflexivity.
  - eexists. split; [reflexivity|]. apply (record_init sac_update a_ent (fun e => match se_entropy e with Some l => l | None => map Qopp (se_logp e) end) 1000); reflexivity.
  - eexists. split; [reflexivity|]. f_equal. clear. assert (G : forall s, last (map se_temp h) (a_temp s) = a_temp (fold_left sac_update h s)); [|exact (G (sac_init temp))].
    induction h as [|e h IH]; intros s; [reflexivity|]. cbn [map fold_left]. rewrite <- IH. cbn [sac_update a_temp]. destruct (map se_temp h) as [|x l]; [reflexivity|]. cbn [last]. clear. revert x. induction l as [|y l IHl]; intros x; [reflexivity|apply IHl].
  - do 2 f_equal. rewrite (count_fold sac_update a_n (fun _ => true)); [|intros s e; cbn; lia]. cbn. clear. induction h; cbn; congruence.
Qed.

(** ** PPO and TRPO *)
Definition p_values (e : ppo_event) : list Q := match e with PAct v _ => v | _ => [] end.
Definition p_entropies (e : ppo_event) : list Q := match e with PAct _ x => x | _ => [] end.
Definition p_vlosses (e : ppo_event) : list Q := match e with PMinibatch v _ => [v] | _ => [] end.
Definition p_plosses (e : ppo_event) : list Q := match e with PMinibatch _ x => [x] | _ => [] end.
Definition is_minibatch (e : ppo_event) : bool := match e with PMinibatch _ _ => true | _ => false end.
Definition last_explained (h : list ppo_event) : option Q := fold_left (fun x e => match e with PDataset y => y | _ => x end) h None.
Theorem C105_ppo w h : let st := ppo_statistics (fold_left (ppo_on w) h ppo_init) in
  reports st "average_value" (window_average (w_value w) (flat_map p_values h)) /\ reports st "average_entropy" (window_average (w_entropy w) (flat_map p_entropies h)) /\
  reports st "average_value_loss" (window_average (w_vloss w) (flat_map p_vlosses h)) /\ reports st "average_policy_loss" (window_average (w_ploss w) (flat_map p_plosses h)) /\
  counts st "n_updates" (length (filter is_minibatch h)) /\ reports st "explained_variance" (eq (last_explained h)).
Proof.
  cbv zeta. unfold reports, counts, number, ppo_statistics. cbn [find fst snd String.eqb Ascii.eqb Bool.eqb]. repeat split.
  - eexists. split; [reflexivity|]. apply (record_init (ppo_on w) p_value p_values (w_value w)); [|reflexivity]. intros s [v x|v x|x]; reflexivity.
  - eexists. split; [reflexivity|]. apply (record_init (ppo_on w) p_entropy p_entropies (w_entropy w)); [|reflexivity]. intros s [v x|v x|x]; reflexivity.
  - eexists. split; [reflexivity|]. apply (record_init (ppo_on w) p_vloss p_vlosses (w_vloss w)); [|reflexivity]. intros s [v x|v x|x]; reflexivity.
  - eexists. split; [reflexivity|]. apply (record_init (ppo_on w) p_ploss p_plosses (w_ploss w)); [|reflexivity]. intros s [v x|v x|x]; reflexivity.
  - do 2 f_equal. rewrite (count_fold (ppo_on w) p_n is_minibatch); [reflexivity|]. intros s [v x|v x|x]; cbn; lia.
  - eexists. split; [reflexivity|]. unfold last_explained. change None with (p_explained ppo_init) at 1. generalize ppo_init. clear. induction h as [|e h IH]; intros s; [reflexivity|]. cbn [fold_left]. rewrite <- IH. destruct e; reflexivity.
Qed.
Definition t_values (e : trpo_event) : list Q := match e with TAct v _ => v | _ => [] end.
Definition t_entropies (e : trpo_event) : list Q := match e with TAct _ x => x | _ => [] end.
Definition t_kls (e : trpo_event) : list Q := match e with TAccepted k _ => [k] | _ => [] end.
Definition t_steps (e : trpo_event) : list Q := match e with TAccepted _ x => [x] | TRejected => [0] | _ => [] end.
Definition last_explained' (h : list trpo_event) : option Q := fold_left (fun x e => match e with TDataset y => y | _ => x end) h None.
Theorem C105_trpo wv we wk ws h : let st := trpo_statistics (fold_left (trpo_on wv we wk ws) h trpo_init) in
  reports st "average_value" (window_average wv (flat_map t_values h)) /\ reports st "average_entropy" (window_average we (flat_map t_entropies h)) /\
  reports st "average_kl" (window_average wk (flat_map t_kls h)) /\ reports st "average_policy_step_size" (window_average ws (flat_map t_steps h)) /\
  reports st "explained_variance" (eq (last_explained' h)).
Proof.
  cbv zeta. unfold reports, number, trpo_statistics. cbn [find fst snd String.eqb Ascii.eqb Bool.eqb]. repeat split.
  - eexists. split; [reflexivity|]. apply (record_init (trpo_on wv we wk ws) r_value t_values wv); [|reflexivity]. intros s [v x|v x| |x]; reflexivity.
  - eexists. split; [reflexivity|]. apply (record_init (trpo_on wv we wk ws) r_entropy t_entropies we); [|reflexivity]. intros s [v x|v x| |x]; reflexivity.
  - eexists. split; [reflexivity|]. apply (record_init (trpo_on wv we wk ws) r_kl t_kls wk); [|reflexivity]. intros s [v x|v x| |x]; reflexivity.
  - eexists. split; [reflexivity|]. apply (record_init (trpo_on wv we wk ws) r_step t_steps ws); [|reflexivity]. intros s [v x|v x| |x]; reflexivity.
  - eexists. split; [reflexivity|]. unfold last_explained'. change None with (r_explained trpo_init) at 1. generalize trpo_init. clear. induction h as [|e h IH]; intros s; [reflexivity|]. cbn [fold_left]. rewrite <- IH. destruct e; reflexivity.
Qed.

(** ** Decaying averages: A2C, A3C, ACER, REINFORCE. *)
Lemma drift_fold {S E} (on : S -> E -> S) (val : S -> Q) (yields : E -> list Q) d : (forall s e, val (on s e) = fold_left (drift d) (yields e) (val s)) ->
  forall h s, val (fold_left on h s) = fold_left (drift d) (flat_map yields h) (val s).
Proof. intros H h. induction h as [|e h IH]; intros s; cbn; [reflexivity|]. now rewrite IH, H, fold_left_app. Qed.
Lemma drift_closed d l : forall x, fold_left (drift d) l x == powers d (length l) * x + decayed d l.
Proof.
  induction l as [|y l IH]; intros x; cbn [fold_left length powers decayed]; [ring|]. rewrite IH. unfold drift. ring.
Qed.
Lemma drift_init d l : fold_left (drift d) l 0 == decayed d l. Proof. rewrite drift_closed. ring. Qed.
Definition some_eq (x : Q) (o : option Q) : Prop := exists y, o = Some y /\ y == x.
Definition c_values (e : ac_event) : list Q := match e with CAct v _ => [v] | _ => [] end.
Definition c_entropies (e : ac_event) : list Q := match e with CAct _ x => [x] | _ => [] end.
Definition c_kls (e : ac_event) : list Q := match e with CLoss k => [k] | _ => [] end.
Theorem C105_actor_critics tr dv de dk h : let s := fold_left (ac_on tr dv de dk) h ac_init in
  reports (a3c_statistics s) "average_value" (some_eq (decayed dv (flat_map c_values h))) /\ reports (a3c_statistics s) "average_entropy" (some_eq (decayed de (flat_map c_entropies h))) /\
  reports (acer_statistics s) "average_value" (some_eq (decayed dv (flat_map c_values h))) /\ reports (acer_statistics s) "average_entropy" (some_eq (decayed de (flat_map c_entropies h))) /\
  reports (acer_statistics s) "average_kl" (some_eq (if tr then decayed dk (flat_map c_kls h) else 0)) /\
  reports (reinforce_statistics s) "average_entropy" (some_eq (decayed de (flat_map c_entropies h))).
Proof.
  cbv zeta. unfold reports, number, a3c_statistics, acer_statistics, reinforce_statistics, some_eq. cbn [find fst snd String.eqb Ascii.eqb Bool.eqb].
  assert (V : k_value (fold_left (ac_on tr dv de dk) h ac_init) == decayed dv (flat_map c_values h)).
  { rewrite (drift_fold (ac_on tr dv de dk) k_value c_values dv); [apply drift_init|]. intros s [v x|k]; cbn; [reflexivity|]. destruct tr; reflexivity. }
  assert (E : k_entropy (fold_left (ac_on tr dv de dk) h ac_init) == decayed de (flat_map c_entropies h)).
  { rewrite (drift_fold (ac_on tr dv de dk) k_entropy c_entropies de); [apply drift_init|]. intros s [v x|k]; cbn; [reflexivity|]. destruct tr; reflexivity. }
  assert (K : k_kl (fold_left (ac_on tr dv de dk) h ac_init) == if tr then decayed dk (flat_map c_kls h) else 0).
  { destruct tr.
    - rewrite (drift_fold (ac_on true dv de dk) k_kl c_kls dk); [apply drift_init|]. intros s [v x|k]; reflexivity.
    - rewrite (drift_fold (ac_on false dv de dk) k_kl (fun _ => []) dk); [|intros s [v x|k]; reflexivity]. assert (N : flat_map (fun _ : ac_event => @nil Q) h = []) by (clear; induction h; cbn; auto). now rewrite N. }
  repeat split; eexists; (split; [reflexivity|]); eexists; (split; [reflexivity|]); assumption.
Qed.
(** The weights of a decaying average add up to 1 - d^n: it lies between the extreme values seen, and 0. *)
Theorem C105_decayed_bounds d l lo hi : 0 <= d <= 1 -> lo <= 0 <= hi -> Forall (fun x => lo <= x <= hi) l -> lo <= decayed d l <= hi.
Proof.
  intros D B F. rewrite <- drift_init. assert (G : forall x, lo <= x <= hi -> lo <= fold_left (drift d) l x <= hi); [|now apply G]. induction F as [|y l Y F IH]; intros x X; cbn; [exact X|]. apply IH. unfold drift. split; nra.
Qed.
(** A2C: average_actor and average_entropy are decaying averages of the policy loss and the entropy, but average_value is one of the losses of the value function, not of values. *)
Theorem C105_a2c_partial da dv de h : let st := a2c_statistics (fold_left (a2c_update da dv de) h a2c_init) in
  reports st "average_actor" (some_eq (decayed da (map ae_action_loss h))) /\ reports st "average_entropy" (some_eq (decayed de (map ae_entropy h))) /\
  reports st "average_value" (some_eq (decayed dv (map ae_value_loss h))).
Proof.
  cbv zeta. unfold reports, number, a2c_statistics, some_eq. cbn [find fst snd String.eqb Ascii.eqb Bool.eqb]. assert (SG : forall f : a2c_ev -> Q, map f h = flat_map (fun e => [f e]) h) by (intros f; clear; induction h; cbn; congruence).
  repeat split; eexists; (split; [reflexivity|]); eexists; (split; [reflexivity|]); rewrite SG.
  - rewrite (drift_fold (a2c_update da dv de) c_actor (fun e => [ae_action_loss e]) da) by reflexivity. apply drift_init.
  - rewrite (drift_fold (a2c_update da dv de) c_entropy (fun e => [ae_entropy e]) de) by reflexivity. apply drift_init.
  - rewrite (drift_fold (a2c_update da dv de) c_value (fun e => [ae_value_loss e]) dv) by reflexivity. apply drift_init.
Qed.
(** Values that are right (no loss) do not show: the statistic stays 0. *)
Theorem C105_a2c_value_refuted : ~ forall da dv de h, Forall (fun e => exists m, mean_of (ae_values e) m) h ->
  forall means, Forall2 (fun e m => mean_of (ae_values e) m) h means -> reports (a2c_statistics (fold_left (a2c_update da dv de) h a2c_init)) "average_value" (some_eq (decayed dv means)).
Proof.
  intros H. destruct (H (1#2) (1#2) (1#2) [mkAE [5; 5] 0 0 0]) with (means := [5]) as (x & E & y & -> & Y).
  - constructor; [exists 5; reflexivity|constructor].
  - constructor; [reflexivity|constructor].
  - vm_compute in E. injection E as <-. vm_compute in Y. discriminate.
Qed.

(** Runs. *)
Example C105_ex : dqn_statistics (fold_left (dqn_on false) [DObserve; DStored; DUpdate [1; 3] [0; 1; 2; 3] 4; DObserve; DUpdate [5; 7] [0; 0; 0; 0] 6] dqn_init) =
  [("average_q", Num (Some (16 # 4))); ("average_loss", Num (Some (10 # 2))); ("cumulative_steps", Count 2); ("n_updates", Count 2); ("rlen", Count 1)]%string.
Proof. reflexivity. Qed.
Example C105_ex' : extend 3 [] [1; 2; 3; 4; 5] = [3; 4; 5] /\ decayed (1 # 2) [4; 2] == 2 /\ every 2 0 [mkTE [] [] 0 0 7; mkTE [] [] 0 0 8; mkTE [] [] 0 0 9; mkTE [] [] 0 0 10] = [8; 10].
Proof. repeat split. Qed.

Print Assumptions C105_dqn.
Print Assumptions C105_iqn_refuted.
Print Assumptions C105_iqn_partial.
Print Assumptions C105_ddpg.
Print Assumptions C105_td3.
Print Assumptions C105_sac.
Print Assumptions C105_ppo.
Print Assumptions C105_trpo.
Print Assumptions C105_actor_critics.
Print Assumptions C105_decayed_bounds.
Print Assumptions C105_a2c_partial.
Print Assumptions C105_a2c_value_refuted.
