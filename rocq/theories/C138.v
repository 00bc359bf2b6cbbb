(** C138: exactly or nearly fitted critics of DDPG, TD3 and SAC evaluate the policy. *)
From Coq Require Import Reals QArith Qreals Qabs Qminmax Lra.
From Verif Require Import Base M_ReplayBuffer M_Batch Vec M_Targets M_ActorCritic S_ValueIteration P_FittedTargets S_PolicyEvaluation P_PolicyEvaluation.
Close Scope Q_scope. Close Scope R_scope. Open Scope nat_scope.

Lemma C138_gamma gamma : (0 <= gamma < 1)%Q -> (0 <= Q2R gamma < 1)%R.
Proof. intros [H K]. apply Qle_Rle in H. apply Qlt_Rlt in K. rewrite Q2R_0 in H. rewrite Q2R_1 in K. lra. Qed.
Lemma C138_tau tau : (0 < tau <= 1)%Q -> (0 <= Q2R tau <= 1)%R.
Proof. intros [H K]. apply Qlt_Rlt in H. apply Qle_Rle in K. rewrite Q2R_0 in H. rewrite Q2R_1 in K. lra. Qed.
Lemma C138_eps eps : (0 <= eps)%Q -> (0 <= Q2R eps)%R. Proof. intros H. apply Qle_Rle in H. now rewrite Q2R_0 in H. Qed.

(** Every policy has a worth, and only one, whatever its choices are charged. *)
Theorem C138_worth D gamma pi charge : well_formed D -> (0 <= gamma < 1)%Q -> proper D pi ->
  (exists U, worth D gamma pi charge U) /\ forall U U', worth D gamma pi charge U -> worth D gamma pi charge U' -> forall s a, s < states D -> a <= last_action D -> U s a = U' s a.
Proof. intros W Hg P. split; [exact (worth_exists D W gamma (C138_gamma _ Hg) pi charge P)|]. intros U U' H H'. exact (worth_unique D W gamma (C138_gamma _ Hg) pi charge U U' P H H'). Qed.

(** After [k] rounds with the averaging rate tau, an initial error [d] of the target critics has shrunk to (1 - tau (1 - gamma))^k d, and errors [eps] of every fit add up to at most
    eps / (1 - gamma).  DDPG, with averaging (Some tau) or copying (None, rate 1). *)
Theorem C138_ddpg D gamma eps method pi q t U d : well_formed D -> (0 <= gamma < 1)%Q -> (0 <= eps)%Q -> match method with None => True | Some tau => (0 < tau <= 1)%Q end -> proper D (real pi) ->
  ddpg_rounds D gamma eps method pi q t -> worth D gamma (real pi) free U -> (0 <= d)%R -> within D (t 0) U d ->
  forall k, let rest := ((1 - match method with None => 1 | Some tau => Q2R tau end * (1 - Q2R gamma)) ^ k * d)%R in
    within D (t k) U (rest + Q2R eps / (1 - Q2R gamma))%R /\ within D (q (S k)) U (Q2R gamma * rest + Q2R eps / (1 - Q2R gamma))%R.
Proof.
  intros W Hg He Hm P [L F] HU Hd H0 k. apply C138_gamma in Hg. apply C138_eps in He.
  assert (Hr : (0 <= Q2R (rate method) <= 1)%R) by (destruct method; cbn [rate]; [now apply C138_tau|rewrite Q2R_1; lra]).
  assert (HU' : worth D gamma (real pi) (fun s a => Q2R ((fun _ _ => 0%Q) s a)) U) by (intros s a Hs Ha; rewrite Q2R_0; exact (HU s a Hs Ha)).
  pose proof (single_rounds D W gamma eps (rate method) pi P Hg Hr He method eq_refl (fun k _ a' b => ddpg_target gamma (cell D (t k)) [a'] b) _ q t U d (fun k => gives_ddpg gamma _) L F HU' Hd H0 k) as [A B].
  rewrite left_over_critic in B by lra. unfold left_over in A. cbv zeta. replace (match method with None => 1%R | Some tau => Q2R tau end) with (Q2R (rate method)) by (destruct method; [reflexivity|apply Q2R_1]). now split.
Qed.

(** TD3: both critics and both target critics. *)
Theorem C138_td3 D gamma eps tau pi q1 q2 t1 t2 U d : well_formed D -> (0 <= gamma < 1)%Q -> (0 <= eps)%Q -> (0 < tau <= 1)%Q -> proper D (real pi) ->
  td3_rounds D gamma eps tau pi q1 q2 t1 t2 -> worth D gamma (real pi) free U -> (0 <= d)%R -> within D (t1 0) U d -> within D (t2 0) U d ->
  forall k, let rest := ((1 - Q2R tau * (1 - Q2R gamma)) ^ k * d)%R in
    (forall t, In t [t1; t2] -> within D (t k) U (rest + Q2R eps / (1 - Q2R gamma))%R) /\ (forall q, In q [q1; q2] -> within D (q (S k)) U (Q2R gamma * rest + Q2R eps / (1 - Q2R gamma))%R).
Proof.
  intros W Hg He Ht P (L1 & L2 & F) HU Hd H1 H2 k. apply C138_gamma in Hg. apply C138_eps in He. apply C138_tau in Ht.
  assert (HU' : worth D gamma (real pi) (fun s a => Q2R ((fun _ _ => 0%Q) s a)) U) by (intros s a Hs Ha; rewrite Q2R_0; exact (HU s a Hs Ha)).
  pose proof (double_rounds D W gamma eps tau pi P Hg Ht He (fun k _ a' b => td3_target (cell D (t1 k)) (cell D (t2 k)) [a'] b) _ q1 q2 t1 t2 U d (fun k => gives_td3 gamma _ _) L1 L2 F HU' Hd H1 H2 k) as [[A A'] [B B']].
  rewrite left_over_critic in B, B' by lra. split; (intros x [<-|[<-|[]]]; assumption).
Qed.

(** SAC: the worth includes the entropy bonus, the temperature times the negated log-probability of every later choice. *)
Theorem C138_sac D gamma eps tau temperature pi lp q1 q2 t1 t2 U d : well_formed D -> (0 <= gamma < 1)%Q -> (0 <= eps)%Q -> (0 < tau <= 1)%Q -> proper D (real pi) ->
  sac_rounds D gamma eps tau temperature pi lp q1 q2 t1 t2 -> worth D gamma (real pi) (fun s a => (Q2R temperature * Q2R (lp s a))%R) U -> (0 <= d)%R -> within D (t1 0) U d -> within D (t2 0) U d ->
  forall k, let rest := ((1 - Q2R tau * (1 - Q2R gamma)) ^ k * d)%R in
    (forall t, In t [t1; t2] -> within D (t k) U (rest + Q2R eps / (1 - Q2R gamma))%R) /\ (forall q, In q [q1; q2] -> within D (q (S k)) U (Q2R gamma * rest + Q2R eps / (1 - Q2R gamma))%R).
Proof.
  intros W Hg He Ht P (L1 & L2 & F) HU Hd H1 H2 k. apply C138_gamma in Hg. apply C138_eps in He. apply C138_tau in Ht.
  assert (HU' : worth D gamma (real pi) (fun s a => Q2R ((fun s a => temperature * lp s a)%Q s a)) U).
  { intros s a Hs Ha. rewrite (HU s a Hs Ha). destruct (W s a Hs Ha) as [_ G]. clear - G. induction G as [|[p [[r s'] tm]] l _ G IH]; cbn [expected_value]; [reflexivity|]. rewrite IH. f_equal. f_equal. f_equal. destruct tm; [reflexivity|]. f_equal.
    unfold state_worth. apply mean_ext. intros c _. now rewrite Q2R_mult. }
  pose proof (double_rounds D W gamma eps tau pi P Hg Ht He (fun k s' a' b => sac_target (cell D (t1 k)) (cell D (t2 k)) temperature [(a', lp s' a')] b) _ q1 q2 t1 t2 U d (fun k => gives_sac gamma _ _ _ _) L1 L2 F HU' Hd H1 H2 k) as [[A A'] [B B']].
  rewrite left_over_critic in B, B' by lra. split; (intros x [<-|[<-|[]]]; assumption).
Qed.

(** Such rounds exist, with exact fits, from any target critics. *)
Theorem C138_rounds_exist D gamma tau temperature pi lp t1 t2 : well_formed D -> proper D (real pi) -> length t1 = size D -> length t2 = size D ->
  (forall method, exists q t, t 0 = t1 /\ ddpg_rounds D gamma 0 method pi q t) /\
  (exists q1' q2' t1' t2', t1' 0 = t1 /\ t2' 0 = t2 /\ td3_rounds D gamma 0 tau pi q1' q2' t1' t2') /\
  (exists q1' q2' t1' t2', t1' 0 = t1 /\ t2' 0 = t2 /\ sac_rounds D gamma 0 tau temperature pi lp q1' q2' t1' t2').
Proof.
  intros W P L1 L2. split; [|split].
  - intros method. set (fit := fun t => fitted_table D gamma pi (fun _ a' b => ddpg_target gamma (cell D t) [a'] b)). set (t := fix t k := match k with O => t1 | S k => synchronize method (t k) (fit (t k)) end).
    exists (fun k => match k with O => [] | S k => fit (t k) end), t. split; [reflexivity|]. split; [exact L1|]. intros k. split; [|reflexivity]. apply (fitted_table_ok D gamma pi _ _ _ (gives_ddpg gamma (cell D (t k)))).
  - set (fit := fun t => fitted_table D gamma pi (fun _ a' b => td3_target (cell D (fst t)) (cell D (snd t)) [a'] b)).
    set (t := fix t k := match k with O => (t1, t2) | S k => (soft_copy tau (fst (t k)) (fit (t k)), soft_copy tau (snd (t k)) (fit (t k))) end).
    exists (fun k => match k with O => [] | S k => fit (t k) end), (fun k => match k with O => [] | S k => fit (t k) end), (fun k => fst (t k)), (fun k => snd (t k)). do 2 (split; [reflexivity|]). split; [exact L1|]. split; [exact L2|]. intros k. cbv zeta.
    do 2 (split; [apply (fitted_table_ok D gamma pi _ _ _ (gives_td3 gamma (cell D (fst (t k))) (cell D (snd (t k)))))|]). split; reflexivity.
  - set (fit := fun t => fitted_table D gamma pi (fun s' a' b => sac_target (cell D (fst t)) (cell D (snd t)) temperature [(a', lp s' a')] b)).
    set (t := fix t k := match k with O => (t1, t2) | S k => (soft_copy tau (fst (t k)) (fit (t k)), soft_copy tau (snd (t k)) (fit (t k))) end).
    exists (fun k => match k with O => [] | S k => fit (t k) end), (fun k => match k with O => [] | S k => fit (t k) end), (fun k => fst (t k)), (fun k => snd (t k)). do 2 (split; [reflexivity|]). split; [exact L1|]. split; [exact L2|]. intros k. cbv zeta.
    do 2 (split; [apply (fitted_table_ok D gamma pi _ _ _ (gives_sac gamma (cell D (fst (t k))) (cell D (snd (t k))) temperature lp))|]). split; reflexivity.
Qed.

(** A concrete case: one state; action 0 ends the episode with reward 0, action 1 pays 1 and goes on.  The policy tosses a coin; gamma = 1/2.  Action 1 is worth 4/3:
    1 + 1/2 (1/2 * 0 + 1/2 * 4/3). *)
Definition C138_D : problem := {| states := 1; last_action := 1; outcomes := fun _ a => match a with 0 => [(1, (0, 0%nat, true))]%Q | _ => [(1, (1, 0%nat, false))]%Q end |}.
Definition C138_pi : nat -> list (Q * nat) := fun _ => [((1 # 2)%Q, 0); ((1 # 2)%Q, 1)].
Example C138_ex_hyps : well_formed C138_D /\ proper C138_D (real C138_pi) /\ worth C138_D (1 # 2) (real C138_pi) free (fun _ a => match a with 0 => 0%R | _ => (4 / 3)%R end).
Proof.
  split; [|split].
  - intros s a Hs Ha. cbn in Hs, Ha. assert (s = 0) by lia. assert (E : a = 0 \/ a = 1) by lia. subst s. destruct E as [-> | ->]; (split; [reflexivity|]); repeat constructor; discriminate.
  - intros s Hs. cbn. unfold Q2R. cbn. split; [lra|]. repeat constructor; cbn; lra || lia.
  - intros s a Hs Ha. cbn in Hs, Ha. assert (E : a = 0 \/ a = 1) by lia. destruct E as [-> | ->]; cbn; unfold free, Q2R; cbn; lra.
Qed.
(** One round of TD3 with tau = 1/2 from the target critics (0, 2) and (0, 4): both critics become (0, 1 + 1/2 * 1/2 * 2) = (0, 3/2), the targets (0, 7/4) and (0, 11/4). *)
Example C138_ex_round :
  let fit := fitted_table C138_D (1 # 2) C138_pi (fun _ a' b => td3_target (cell C138_D [0; 2]%Q) (cell C138_D [0; 4]%Q) [a'] b) in
  map Qred fit = [0; 3 # 2]%Q /\ map Qred (soft_copy (1 # 2) [0; 2]%Q fit) = [0; 7 # 4]%Q /\ map Qred (soft_copy (1 # 2) [0; 4]%Q fit) = [0; 11 # 4]%Q.
Proof. vm_compute. repeat split. Qed.

Print Assumptions C138_worth.
Print Assumptions C138_ddpg.
Print Assumptions C138_td3.
Print Assumptions C138_sac.
Print Assumptions C138_rounds_exist.
