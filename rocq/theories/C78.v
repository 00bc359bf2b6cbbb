(** C78: resuming a saved TD3, SAC or DDPG agent. *)
From Coq Require Import QArith Lia.
From Verif Require Import Base Vec M_Batch M_ActorCritic S_ActorCritic P_ActorCritic C76.
Open Scope nat_scope.

(** The claim: after load, the agent acts and learns as the saved one would have; [load] into any agent [s0] of the same class, any later history.
    Outputs are what the actions are taken from. *)
Definition continues {X Y} (f : X -> ev Y -> result (X * option source)) (loaded saved : X) : Prop :=
  forall es, rmap snd (history f loaded es) = rmap snd (history f saved es).

(** It holds when neither agent is (or both are) still in burn-in and, for TD3, the numbers of critic updates agree modulo the delay; what is in the
    gradients of the loading agent does not matter. *)
Theorem C78_continues_partial {Ob A St N : Type} (D : loss Ob A N -> slot -> vec) (opt_step : St -> vec -> vec -> vec * St) (clip : vec -> vec)
    (q_value : vec -> Ob -> A -> Q) (sample : N -> vec -> list Ob -> list A) (log_prob : vec -> Ob -> A -> Q) (smoothing : N -> list A -> list A)
    (temperature_of : vec -> Q) (burnin : bool) :
  (forall tau delay (s0 saved : td3 St), q_n s0 mod delay = q_n saved mod delay -> (burnin = true -> (policy_n s0 = 0 <-> policy_n saved = 0)) ->
     continues (td3_ev D opt_step clip q_value sample smoothing tau delay burnin) (td3_load s0 saved) saved) /\
  (forall c (s0 saved : sac St), (s_temp s0 = None <-> s_temp saved = None) -> (burnin = true -> (s_policy_n s0 = 0 <-> s_policy_n saved = 0)) ->
     continues (sac_ev D opt_step clip q_value sample log_prob temperature_of c burnin) (sac_load s0 saved) saved) /\
  (forall gamma method (s0 saved : ddpg St), (burnin = true -> (d_n s0 = 0 <-> d_n saved = 0)) ->
     continues (ddpg_ev D opt_step q_value sample gamma method burnin) (ddpg_load s0 saved) saved).
Proof.
  split; [|split].
  - intros tau delay s0 saved Hq Hp es.
    pose proof (history_sim (td3_R delay burnin) (td3_ev D opt_step clip q_value sample smoothing tau delay burnin) (td3_ev_sim D opt_step clip q_value sample smoothing tau delay burnin) es (td3_load s0 saved) saved) as H.
    destruct (history _ (td3_load s0 saved) es) as [[t o]|], (history _ saved es) as [[t' o']|]; cbn [rmap snd]; try (exfalso; apply H; repeat split; (assumption || apply Hp; assumption)).
    + destruct H as (_ & ->); [|reflexivity]. split; [repeat split|]. split; [exact Hq|exact Hp].
    + f_equal. apply H. split; [repeat split|]. split; [exact Hq|exact Hp].
  - intros c s0 saved Ht Hp es.
    pose proof (history_sim (sac_R burnin) (sac_ev D opt_step clip q_value sample log_prob temperature_of c burnin) (sac_ev_sim D opt_step clip q_value sample log_prob temperature_of c burnin) es (sac_load s0 saved) saved) as H.
    assert (R0 : sac_R burnin (sac_load s0 saved) saved).
    { split; [|exact Hp]. split; [split; reflexivity|]. split; [split; reflexivity|]. split; [split; reflexivity|]. split; [|split; reflexivity].
      cbn [sac_load s_temp]. destruct (s_temp s0), (s_temp saved); try (destruct Ht as (T1 & T2); exfalso; (discriminate T1 || discriminate T2); reflexivity); [split; reflexivity|exact I]. }
    specialize (H R0). destruct (history _ (sac_load s0 saved) es) as [[t o]|], (history _ saved es) as [[t' o']|]; cbn [rmap snd]; try contradiction.
    + destruct H as (_ & ->). reflexivity.
    + f_equal. exact H.
  - intros gamma method s0 saved Hp es.
    pose proof (history_sim (ddpg_R burnin) (ddpg_ev D opt_step q_value sample gamma method burnin) (ddpg_ev_sim D opt_step q_value sample gamma method burnin) es (ddpg_load s0 saved) saved) as H.
    assert (R0 : ddpg_R burnin (ddpg_load s0 saved) saved) by (split; [repeat split|exact Hp]).
    specialize (H R0). destruct (history _ (ddpg_load s0 saved) es) as [[t o]|], (history _ saved es) as [[t' o']|]; cbn [rmap snd]; try contradiction.
    + destruct H as (_ & ->). reflexivity.
    + f_equal. exact H.
Qed.

(** It fails when a trained agent is loaded into a fresh one with burnin_action_func given: training actions are burn-in actions again.  And it fails
    for TD3 without burn-in, when the number of critic updates at saving is no multiple of policy_update_delay: the policy is updated at other times. *)
Definition ex78_net : net unit := ex_net 1 0.
Theorem C78_continues_refuted :
  (exists (saved s0 : td3 unit),
     td3_updates ex_D ex_step (fun g => g) ex_q ex_sample ex_smoothing (1 # 2) 1 (td3_init ex78_net ex78_net ex78_net) ex_xs = Ok saved /\ s0 = td3_init ex78_net ex78_net ex78_net /\
     ~ continues (td3_ev ex_D ex_step (fun g => g) ex_q ex_sample ex_smoothing (1 # 2) 1 true) (td3_load s0 saved) saved) /\
  (exists (saved s0 : td3 unit),
     td3_updates ex_D ex_step (fun g => g) ex_q ex_sample ex_smoothing (1 # 2) 2 (td3_init ex78_net ex78_net ex78_net) ex_xs = Ok saved /\ s0 = td3_init ex78_net ex78_net ex78_net /\
     ~ continues (td3_ev ex_D ex_step (fun g => g) ex_q ex_sample ex_smoothing (1 # 2) 2 false) (td3_load s0 saved) saved) /\
  (exists (c : sac_cfg) (saved s0 : sac unit),
     saved = sac_update ex_D ex_step (fun g => g) ex_q ex_sample (fun _ _ _ => 0%Q) (fun p => nth 0 p 0%Q) c s0 ((tt, tt), ex_batch 1 1 0) /\ s0 = sac_init ex78_net ex78_net ex78_net None /\
     ~ continues (sac_ev ex_D ex_step (fun g => g) ex_q ex_sample (fun _ _ _ => 0%Q) (fun p => nth 0 p 0%Q) c true) (sac_load s0 saved) saved) /\
  (exists (saved s0 : ddpg unit),
     saved = ddpg_update ex_D ex_step ex_q ex_sample (1 # 2) s0 (tt, ex_batch 1 1 0) /\ s0 = mkDDPG ex78_net ex78_net (par ex78_net) (par ex78_net) 0 /\
     ~ continues (ddpg_ev ex_D ex_step ex_q ex_sample (1 # 2) None true) (ddpg_load s0 saved) saved).
Proof.
  split; [|split; [|split]].
  - eexists. eexists. split; [vm_compute; reflexivity|]. split; [reflexivity|]. intros H. specialize (H [ActTrain]). vm_compute in H. discriminate H.
  - eexists. eexists. split; [vm_compute; reflexivity|]. split; [reflexivity|]. intros H. specialize (H [Update (tt, ex_batch 1 1 0); ActEval]). vm_compute in H. discriminate H.
  - exists {| initial_temperature := 1; entropy_target := 0; s_tau := 1 |}. eexists. eexists. split; [reflexivity|]. split; [reflexivity|]. intros H. specialize (H [ActTrain]). vm_compute in H. discriminate H.
  - eexists. eexists. split; [reflexivity|]. split; [reflexivity|]. intros H. specialize (H [ActTrain]). vm_compute in H. discriminate H.
Qed.

(** A case of the positive part: a trained agent loaded into a fresh one whose gradients are not zero, after a multiple of the delay, without burn-in. *)
Example C78_case :
  exists saved, td3_updates ex_D ex_step (fun g => g) ex_q ex_sample ex_smoothing (1 # 2) 2 (td3_init ex78_net ex78_net ex78_net) (firstn 2 ex_xs) = Ok saved /\
  let loaded := td3_load (td3_init (ex_net 8 5) (ex_net 8 5) (ex_net 8 5)) saved in
  q_n loaded <> q_n saved /\ q_n loaded mod 2 = q_n saved mod 2 /\
  rmap (fun p => map (option_map (fun x => match x with OnPolicy p => map Qred p | BurnIn => [] end)) (snd p))
    (history (td3_ev ex_D ex_step (fun g => g) ex_q ex_sample ex_smoothing (1 # 2) 2 false) loaded [ActTrain; Update (tt, ex_batch 1 1 0); Update (tt, ex_batch 1 1 0); ActEval])
  = Ok [Some [3%Q]; None; None; Some [25 # 4]%Q].
Proof. eexists. split; [vm_compute; reflexivity|]. vm_compute. split; [discriminate|]. split; [reflexivity|]. reflexivity. Qed.

Print Assumptions C78_continues_partial.
Print Assumptions C78_continues_refuted.
