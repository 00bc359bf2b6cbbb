(** C134: exact fitting of the targets of DQN, Double DQN, AL and PAL finds the optimal policy of every finite decision problem. *)
From Coq Require Import Setoid Reals QArith Qreals Qminmax Lra.
From Verif Require Import Base P_Base M_ReplayBuffer M_Batch M_ActionValue M_Targets S_Targets S_ValueIteration P_ValueIteration P_FittedTargets.
Close Scope Q_scope. Close Scope R_scope. Open Scope nat_scope.

(** The largest entry of every row approaches [U]. *)
Definition best_values_approach (D : problem) (q : nat -> nat -> list Q) (U : nat -> R) : Prop :=
  forall s (m : nat -> Q), s < states D -> (forall k, is_max (q k s) (m k)) -> Un_cv (fun k => Q2R (m k)) (U s).
(** From some iteration on every greedy policy is optimal and earns [U]. *)
Definition eventually_optimal (D : problem) (gamma : Q) (q : nat -> nat -> list Q) (U : nat -> R) : Prop :=
  exists N, forall k policy, N <= k -> greedy D (q k) policy -> optimal_with D gamma policy U.
(** The entry for a state and an action approaches [L s a]. *)
Definition entries_approach (D : problem) (q : nat -> nat -> list Q) (L : nat -> nat -> R) : Prop :=
  forall s a (x : nat -> Q), s < states D -> a <= last_action D -> (forall k, nth_error (q k s) a = Some (x k)) -> Un_cv (fun k => Q2R (x k)) (L s a).
Definition unit_interval (x : Q) : Prop := (0 <= x)%Q /\ (x < 1)%Q.

Lemma best_values D q U : (forall k, table D (q k)) -> (forall s, s < states D -> Un_cv (fun k => rowmax D (q k) s) (U s)) -> best_values_approach D q U.
Proof. intros Tb H s m Hs Hm. apply (cv_ext (fun k => rowmax D (q k) s)); [|now apply H]. intros k. apply vmax_row; [now apply Tb|apply Hm]. Qed.
Lemma zero_unit : (0 <= 0)%Q /\ (0 < 1)%Q. Proof. split; [apply Qle_refl|reflexivity]. Qed.
Lemma Q2R_0 : Q2R 0 = 0%R. Proof. unfold Q2R. cbn. lra. Qed.

Lemma plain D gamma T q : determines T gamma (rel_dqn gamma) -> well_formed D -> unit_interval gamma -> iterates D gamma T q ->
  exists U, best_values_approach D q U /\ eventually_optimal D gamma q U /\ entries_approach D q (fun s a => expected_value gamma U (outcomes D s a)).
Proof.
  intros HT W Hg HI. destruct (whole D W gamma 0 Hg zero_unit T (rel_dqn gamma) 0 0 HT (below_dqn D gamma) ltac:(rewrite Q2R_0; lra) ltac:(lra) q HI) as (U & HU & Ho & Hb).
  exists U. split; [apply best_values; [apply (tables D gamma T q HI)|exact HU]|]. split; [exact Ho|]. intros s a x Hs Ha Hx e He. destruct (Hb s a Hs Ha (e / 2)%R ltac:(lra)) as (N & HN). exists N. intros k Hk. specialize (HN k Hk). rewrite Q2R_0, (entry_eq _ _ _ (Hx k)) in HN.
  replace (U s - (U s - expected_value gamma U (outcomes D s a)) / (1 - 0))%R with (expected_value gamma U (outcomes D s a)) in HN by field. unfold R_dist. apply Rabs_def1; lra.
Qed.
(** DQN *)
Theorem C134_dqn D gamma q : well_formed D -> unit_interval gamma -> iterates D gamma dqn_target q ->
  exists U, best_values_approach D q U /\ eventually_optimal D gamma q U /\ entries_approach D q (fun s a => expected_value gamma U (outcomes D s a)).
Proof. apply plain, det_dqn. Qed.
(** Double DQN, when the target network is a copy of the network *)
Theorem C134_double_dqn D gamma q : well_formed D -> unit_interval gamma -> iterates D gamma (fun target_model => double_dqn_target target_model target_model) q ->
  exists U, best_values_approach D q U /\ eventually_optimal D gamma q U /\ entries_approach D q (fun s a => expected_value gamma U (outcomes D s a)).
Proof. apply plain, det_double. Qed.
(** Advantage learning: the same best values and policies; what an action is short of the best is enlarged by the factor 1 / (1 - alpha). *)
Theorem C134_al D gamma alpha q : well_formed D -> unit_interval gamma -> unit_interval alpha -> iterates D gamma (al_target alpha) q ->
  exists U, best_values_approach D q U /\ eventually_optimal D gamma q U /\
    entries_approach D q (fun s a => (U s - (U s - expected_value gamma U (outcomes D s a)) / (1 - Q2R alpha))%R).
Proof.
  intros W Hg Hal HI. pose proof (Rbounds alpha Hal) as Ra. assert (L1 : (0 <= Q2R alpha <= Q2R alpha)%R) by lra.
  destruct (whole D W gamma alpha Hg Hal (al_target alpha) (rel_al alpha gamma) (Q2R alpha) (Q2R alpha) (det_al alpha gamma) (below_al D gamma alpha) L1 L1 q HI) as (U & HU & Ho & _).
  exists U. split; [apply best_values; [apply (tables D gamma _ q HI)|exact HU]|]. split; [exact Ho|]. intros s a x Hs Ha Hx. apply (cv_ext (fun k => entry (q k s) a)); [intros k; apply entry_eq, Hx|]. rewrite <- ev_rout.
  apply (al_cv (states D) (last_action D) (Q2R gamma) (rout D) (wf_real D W) (Q2R alpha) Ra (fun k s a => entry (q k s) a)); [|exact HU|exact Hs|exact Ha].
  intros k s1 a1 Hs1 Ha1. destruct (sandwich D W gamma (al_target alpha) (rel_al alpha gamma) (Q2R alpha) (Q2R alpha) (q k) (q (S k)) (det_al alpha gamma) (below_al D gamma alpha) (tables D gamma _ q HI k) (proj2 (proj2 HI k)) s1 a1 Hs1 Ha1) as [L Up].
  cbv beta. rewrite ev_rout. change (entry (q (S k) s1) a1 = expected_value gamma (rowmax D (q k)) (outcomes D s1 a1) - Q2R alpha * (rowmax D (q k) s1 - entry (q k s1) a1))%R. lra.
Qed.
(** Persistent advantage learning: the same best values and policies; every entry ends up between its optimal value and where advantage learning takes it. *)
Theorem C134_pal D gamma alpha q : well_formed D -> unit_interval gamma -> unit_interval alpha -> iterates D gamma (pal_target alpha) q ->
  exists U, best_values_approach D q U /\ eventually_optimal D gamma q U /\
    forall s a, s < states D -> a <= last_action D -> forall eps, (0 < eps)%R -> exists N, forall k x, N <= k -> nth_error (q k s) a = Some x ->
      (U s - (U s - expected_value gamma U (outcomes D s a)) / (1 - Q2R alpha) - eps <= Q2R x <= expected_value gamma U (outcomes D s a) + eps)%R.
Proof.
  intros W Hg Hal HI. pose proof (Rbounds alpha Hal) as Ra. assert (L1 : (0 <= Q2R alpha <= Q2R alpha)%R) by lra. assert (L2 : (0 <= 0 <= Q2R alpha)%R) by lra.
  destruct (whole D W gamma alpha Hg Hal (pal_target alpha) (rel_pal alpha gamma) (Q2R alpha) 0 (det_pal alpha gamma) (below_pal D gamma alpha (proj1 Hal)) L1 L2 q HI) as (U & HU & Ho & Hb).
  exists U. split; [apply best_values; [apply (tables D gamma _ q HI)|exact HU]|]. split; [exact Ho|]. intros s a Hs Ha eps He. destruct (Hb s a Hs Ha eps He) as (N & HN). exists N. intros k x Hk Hx. specialize (HN k Hk). now rewrite (entry_eq _ _ _ Hx) in HN.
Qed.
(** The iteration exists, from every table. *)
Theorem C134_iterates_exist D gamma alpha q0 : well_formed D -> table D q0 ->
  (exists q, q 0 = q0 /\ iterates D gamma dqn_target q) /\ (exists q, q 0 = q0 /\ iterates D gamma (fun target_model => double_dqn_target target_model target_model) q) /\
  (exists q, q 0 = q0 /\ iterates D gamma (al_target alpha) q) /\ (exists q, q 0 = q0 /\ iterates D gamma (pal_target alpha) q).
Proof.
  intros W Tb. repeat apply conj; eexists (iterated D gamma _ q0); (split; [reflexivity|]).
  - exact (iterated_ok D W gamma _ _ (det_dqn gamma) q0 Tb).
  - exact (iterated_ok D W gamma _ _ (det_double gamma) q0 Tb).
  - exact (iterated_ok D W gamma _ _ (det_al alpha gamma) q0 Tb).
  - exact (iterated_ok D W gamma _ _ (det_pal alpha gamma) q0 Tb).
Qed.

(** ** alpha must be less than 1 *)
(** One state; the first action earns 1, the second nothing; both end the episode. *)
Definition bandit : problem := {| states := 1; last_action := 1; outcomes := fun _ a => [(1%Q, (if a =? 0 then 1%Q else 0%Q, 0, true))] |}.
Lemma bandit_wf : well_formed bandit.
Proof. intros s a _ _. split; [reflexivity|]. repeat constructor. cbn. discriminate. Qed.
(** For every alpha greater than 1 advantage learning may never find the optimal policy ... *)
Theorem C134_larger_alpha_may_never_be_optimal (alpha : Q) : (1 < alpha)%Q -> exists q, iterates bandit (1 # 2) (al_target alpha) q /\
  forall k policy U, greedy bandit (q k) policy -> ~ optimal_with bandit (1 # 2) policy U.
Proof.
  intros Ha. assert (Hd : (0 < alpha - 1)%Q) by (apply Qlt_minus_iff in Ha; exact Ha). set (x := (- (1 / (alpha - 1)))%Q). exists (fun _ _ => [x; 0%Q]).
  assert (Hx : (x < 0)%Q).
  { unfold x. apply Qlt_minus_iff. setoid_replace (0 + - - (1 / (alpha - 1)))%Q with (1 / (alpha - 1))%Q by ring. apply Qlt_shift_div_l; [exact Hd|]. rewrite Qmult_0_l. reflexivity. }
  assert (Ex : (1 + alpha * (x - 0) == x)%Q). { unfold x. field. intros E. rewrite E in Hd. discriminate. }
  assert (Tb : table bandit (fun _ => [x; 0%Q])) by (intros s _; reflexivity).
  assert (Mx : forall m, is_max [x; 0%Q] m -> (m == 0)%Q).
  { intros m [Hin Hm]. cbn in Hin. destruct Hin as [<-|[<-|[]]]; [|reflexivity]. exfalso. specialize (Hm 0%Q (or_intror (or_introl eq_refl))). apply (Qlt_not_le _ _ Hx Hm). }
  split.
  - split; [exact Tb|]. intros k. split; [exact Tb|]. intros s a Hs Ha1. cbn in Hs, Ha1.
    set (r := if a =? 0 then 1%Q else 0%Q). destruct (det_al alpha (1 # 2) (fun _ => [x; 0%Q]) s a r 0 true ltac:(cbn; lia) ltac:(cbn; lia)) as (t & Et & m' & m & v & M' & M & N & E).
    assert (Ev : (v == (if a =? 0 then x else 0))%Q /\ exists y, nth_error [x; 0%Q] a = Some y /\ (y == t)%Q).
    { destruct a as [|[|a]]; [| |lia]; cbn in N; injection N as <-; (split; [reflexivity|]); (eexists; split; [reflexivity|]); rewrite E, (Mx m M); unfold one_target, r; cbn [Nat.eqb]; [rewrite <- Ex at 1|]; ring. }
    destruct Ev as [_ (y & Ny & Ey)]. exists y, [t]. split; [exact Ny|]. split; [cbn [bandit outcomes average]; rewrite Ey; ring|]. constructor; [|constructor]. exists (one_batch (1 # 2) s a r 0 true). split; [apply one_batch_ok|exact Et].
  - intros k policy U G (Adm & V & Opt). specialize (G 0 Nat.lt_0_1). assert (P1 : policy 0 = 1).
    { destruct G as (m & E & M). destruct (policy 0) as [|[|p]]; [|reflexivity|destruct p; discriminate]. cbn in E. injection E as <-. exfalso. specialize (M 0%Q (or_intror (or_introl eq_refl))). apply (Qlt_not_le _ _ Hx M). }
    assert (U0 : U 0 = 0%R) by (rewrite (V 0 Nat.lt_0_1), P1; unfold Q2R; cbn; lra).
    specialize (Opt (fun _ => 0) (fun _ => 1%R)). assert (X : (1 <= U 0%nat)%R); [|rewrite U0 in X; lra]. apply Opt; [intros s _; cbn; lia| |exact Nat.lt_0_1].
    intros s _. unfold Q2R. cbn. lra.
Qed.
(** ... and for alpha = 1 the entries of actions that are not optimal may fall below every bound. *)
Theorem C134_alpha_one_may_diverge : exists q, iterates bandit (1 # 2) (al_target 1) q /\ forall bound, exists N, forall k x, N <= k -> nth_error (q k 0) 1 = Some x -> (Q2R x < bound)%R.
Proof.
  exists (fun k _ => [1%Q; inject_Z (- Z.of_nat k)]). assert (Tb : forall k, table bandit (fun _ => [1%Q; inject_Z (- Z.of_nat k)])) by (intros k s _; reflexivity).
  assert (Neg : forall k, (inject_Z (- Z.of_nat k) < 1)%Q) by (intros k; unfold Qlt; cbn; lia).
  assert (Mx : forall k m, is_max [1%Q; inject_Z (- Z.of_nat k)] m -> (m == 1)%Q).
  { intros k m [Hin Hm]. cbn in Hin. destruct Hin as [<-|[<-|[]]]; [reflexivity|]. exfalso. specialize (Hm 1%Q (or_introl eq_refl)). apply (Qlt_not_le _ _ (Neg k) Hm). }
  split.
  - split; [apply Tb|]. intros k. split; [apply Tb|]. intros s a Hs Ha1. cbn in Hs, Ha1.
    set (r := if a =? 0 then 1%Q else 0%Q). destruct (det_al 1 (1 # 2) (fun _ => [1%Q; inject_Z (- Z.of_nat k)]) s a r 0 true ltac:(cbn; lia) ltac:(cbn; lia)) as (t & Et & m' & m & v & M' & M & N & E).
    assert (Ev : exists y, nth_error [1%Q; inject_Z (- Z.of_nat (S k))] a = Some y /\ (y == t)%Q).
    { destruct a as [|[|a]]; [| |lia]; cbn in N; injection N as <-; (eexists; split; [reflexivity|]); rewrite E, (Mx k m M); unfold one_target, r; cbn [Nat.eqb]; [ring|].
      replace (- Z.of_nat (S k))%Z with (- Z.of_nat k - 1)%Z by lia. unfold Z.sub. rewrite inject_Z_plus. change (inject_Z (- (1))) with (-1)%Q. ring. }
    destruct Ev as (y & Ny & Ey). exists y, [t]. split; [exact Ny|]. split; [cbn [bandit outcomes average]; rewrite Ey; ring|]. constructor; [|constructor]. exists (one_batch (1 # 2) s a r 0 true). split; [apply one_batch_ok|exact Et].
  - intros bound. exists (Z.to_nat (up (Rabs bound)) + 1). intros k x Hk Hx. cbn in Hx. injection Hx as <-. unfold Q2R, inject_Z. cbn [Qnum Qden]. rewrite Rinv_1, Rmult_1_r, opp_IZR.
    destruct (archimed (Rabs bound)) as [Hu _]. assert (Hz : (IZR (up (Rabs bound)) < IZR (Z.of_nat k))%R) by (apply IZR_lt; lia). pose proof (Rle_abs (- bound)) as X. rewrite Rabs_Ropp in X. lra.
Qed.

(** ** An example: two states; in state 0 action 0 earns 1 and ends the episode, action 1 leads to state 1 with probability 1/2; state 1 pays 8 for action 1. *)
Definition two : problem := {| states := 2; last_action := 1; outcomes := fun s a =>
  match s, a with
  | 0, 0 => [(1%Q, (1%Q, 0, true))]
  | 0, _ => [((1 # 2)%Q, (0%Q, 0, false)); ((1 # 2)%Q, (0%Q, 1, false))]
  | _, 0 => [(1%Q, (0%Q, 0, false))]
  | _, _ => [(1%Q, (8%Q, 0, true))]
  end |}.
Example C134_two_wf : well_formed two.
Proof. intros s a Hs Ha. cbn in Hs, Ha. destruct s as [|[|s]]; [| |lia]; (destruct a as [|[|a]]; [| |lia]); (split; [reflexivity|]); repeat constructor; cbn; try discriminate; lia. Qed.
Definition start (s : nat) : list Q := [5%Q; 0%Q].
Example C134_two_start : table two start. Proof. intros s _. reflexivity. Qed.
(** Discount 1/2, alpha 1/2.  At first the greedy action in state 0 is the wrong one. *)
Example C134_two_dqn : map (fun k => map (fun s => map Qred (iterated two (1 # 2) dqn_target start k s)) [0; 1]) [0; 1; 2; 3] =
  [[[5; 0]; [5; 0]]; [[1; 5 # 2]; [5 # 2; 8]]; [[1; 21 # 8]; [5 # 4; 8]]; [[1; 85 # 32]; [21 # 16; 8]]]%Q.
Proof. vm_compute. reflexivity. Qed.
Example C134_two_al : map (fun k => map (fun s => map Qred (iterated two (1 # 2) (al_target (1 # 2)) start k s)) [0; 1]) [0; 1; 2] =
  [[[5; 0]; [5; 0]]; [[1; 0]; [5 # 2; 11 # 2]]; [[1; 9 # 8]; [-1; 8]]]%Q.
Proof. vm_compute. reflexivity. Qed.
Example C134_two_pal : exists q, q 0 = start /\ iterates two (1 # 2) (pal_target (1 # 2)) q /\ exists U, eventually_optimal two (1 # 2) q U.
Proof.
  destruct (C134_iterates_exist two (1 # 2) (1 # 2) start C134_two_wf C134_two_start) as (_ & _ & _ & q & E & I). exists q. split; [exact E|]. split; [exact I|].
  assert (H : unit_interval (1 # 2)) by (split; [discriminate|reflexivity]). destruct (C134_pal two (1 # 2) (1 # 2) q C134_two_wf H H I) as (U & _ & O & _). exists U. exact O.
Qed.

Print Assumptions C134_dqn.
Print Assumptions C134_double_dqn.
Print Assumptions C134_al.
Print Assumptions C134_pal.
Print Assumptions C134_iterates_exist.
Print Assumptions C134_larger_alpha_may_never_be_optimal.
Print Assumptions C134_alpha_one_may_diverge.
