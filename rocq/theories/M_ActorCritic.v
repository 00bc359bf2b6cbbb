(** Model of the updates, the training actions and the loading of DDPG, TD3 and SAC: ddpg.py:50-300, td3.py:64-300,
    soft_actor_critic.py:78-352.  A network carries its parameters, the gradients accumulated in it and the state of its optimizer.
    Automatic differentiation is an oracle [D]: the gradient of a loss (described by everything it is computed from) with respect to the parameters
    of a network; backward() adds it to the gradients of every network the loss is computed from, whichever optimizer is stepped afterwards.
    Optimizers ([opt_step]), gradient clipping ([clip]; the identity for max_grad_norm=None), networks and sampling are oracles; [N] is the
    randomness of one update.  All parameters of a network are taken together as one vector of floating-point values (M_CopyParam.v has the
    name-by-name copying).  zero_grad() is modelled as setting gradients to zero.  Statistics are not modelled. *)
From Coq Require Import QArith Qminmax.
From Verif Require Import Base Vec M_Batch M_Targets.
Open Scope nat_scope.

Section ActorCritic.
  Context {Ob A St N : Type}.
  Notation batch := (batch Ob A).

  Record net := mkNet { par : vec; grad : vec; ost : St }.

  (** The losses, with what they are computed from. *)
  Inductive loss :=
  | Mse (scale : Q) (target : list Q) (q : vec) (states : list Ob) (actions : list A)   (* scale * F.mse_loss(target_q, q(states, actions)) *)
  | NegQ (policy q : vec) (states : list Ob) (noise : N)                                (* -mean(q(states, policy(states).rsample())) *)
  | SoftQ (temperature : Q) (policy q1 q2 : vec) (states : list Ob) (noise : N)         (* mean(temperature * log_prob - min(q1, q2)) *)
  | TempLoss (log_temperature : vec) (log_probs : list Q) (entropy_target : Q).         (* -mean(exp(log_temperature) * (log_prob + entropy_target)) *)
  (** the networks a gradient is taken for *)
  Inductive slot := SPolicy | SQ1 | SQ2 | STemp.

  Context (D : loss -> slot -> vec) (opt_step : St -> vec -> vec -> vec * St) (clip : vec -> vec).
  Context (q_value : vec -> Ob -> A -> Q) (sample : N -> vec -> list Ob -> list A) (log_prob : vec -> Ob -> A -> Q).
  Context (smoothing : N -> list A -> list A).                 (* target_policy_smoothing_func *)
  Context (temperature_of : vec -> Q).                         (* TemperatureHolder.forward: exp of its parameter *)

  Definition zero_grad (n : net) : net := mkNet (par n) (vzero (length (par n))) (ost n).
  Definition deposit (n : net) (g : vec) : net := mkNet (par n) (vadd (grad n) g) (ost n).
  Definition step (n : net) : net := let '(p, st) := opt_step (ost n) (par n) (grad n) in mkNet p (grad n) st.
  Definition clip_grad (n : net) : net := mkNet (par n) (clip (grad n)) (ost n).

  (** copy_param.py:9-23 on whole networks *)
  Definition soft_copy (tau : Q) (target source : vec) : vec := vadd (vscale (1 - tau) target) (vscale tau source).

  (** ** TD3 *)
  Record td3 := mkTD3 { policy : net; q1 : net; q2 : net; t_policy : vec; t_q1 : vec; t_q2 : vec; q_n : nat; policy_n : nat }.

  (** td3.py:182-231 update_q_func *)
  Definition td3_update_q (s : td3) (nz : N) (b : batch) : td3 :=
    let next_actions := smoothing nz (sample nz (t_policy s) (b_next_state b)) in
    let target := td3_target (q_value (t_q1 s)) (q_value (t_q2 s)) next_actions b in
    let loss1 := Mse 1 target (par (q1 s)) (b_state b) (b_action b) in
    let loss2 := Mse 1 target (par (q2 s)) (b_state b) (b_action b) in
    let q1 := step (clip_grad (deposit (zero_grad (q1 s)) (D loss1 SQ1))) in
    let q2 := step (clip_grad (deposit (zero_grad (q2 s)) (D loss2 SQ2))) in
    mkTD3 (policy s) q1 q2 (t_policy s) (t_q1 s) (t_q2 s) (S (q_n s)) (policy_n s).

  (** td3.py:233-250 update_policy: backward() also reaches the parameters of q_func1 *)
  Definition td3_update_policy (s : td3) (nz : N) (b : batch) : td3 :=
    let loss := NegQ (par (policy s)) (par (q1 s)) (b_state b) nz in
    let policy := deposit (zero_grad (policy s)) (D loss SPolicy) in
    let q1 := deposit (q1 s) (D loss SQ1) in
    mkTD3 (step (clip_grad policy)) q1 (q2 s) (t_policy s) (t_q1 s) (t_q2 s) (q_n s) (S (policy_n s)).

  (** td3.py:160-180 *)
  Definition td3_sync (tau : Q) (s : td3) : td3 :=
    mkTD3 (policy s) (q1 s) (q2 s) (soft_copy tau (t_policy s) (par (policy s))) (soft_copy tau (t_q1 s) (par (q1 s))) (soft_copy tau (t_q2 s) (par (q2 s)))
      (q_n s) (policy_n s).

  (** td3.py:252-259 *)
  Definition td3_update (tau : Q) (delay : nat) (s : td3) (x : N * batch) : result td3 :=
    let '(nz, b) := x in
    let s := td3_update_q s nz b in
    match delay with
    | 0 => Err ZeroDivisionError
    | _ => Ok (if q_n s mod delay =? 0 then td3_sync tau (td3_update_policy s nz b) else s)
    end.
  Fixpoint td3_updates (tau : Q) (delay : nat) (s : td3) (xs : list (N * batch)) : result td3 :=
    match xs with [] => Ok s | x :: xs => s <- td3_update tau delay s x ;; td3_updates tau delay s xs end.

  (** td3.py:94-157 *)
  Definition td3_init (policy q1 q2 : net) : td3 := mkTD3 policy q1 q2 (par policy) (par q1) (par q2) 0 0.

  (** ** SAC; [temp]: temperature_holder and its optimizer, None with entropy_target=None *)
  Record sac := mkSAC { s_policy : net; s_q1 : net; s_q2 : net; s_temp : option net; s_t_q1 : vec; s_t_q2 : vec; s_policy_n : nat }.
  Record sac_cfg := { initial_temperature : Q; entropy_target : Q; s_tau : Q }.

  (** soft_actor_critic.py:185-191 *)
  Definition temperature (c : sac_cfg) (s : sac) : Q := match s_temp s with None => initial_temperature c | Some n => temperature_of (par n) end.

  (** soft_actor_critic.py:207-263 *)
  Definition sac_update_q (c : sac_cfg) (s : sac) (nz : N) (b : batch) : sac :=
    let next_actions := sample nz (par (s_policy s)) (b_next_state b) in
    let samples := map (fun p => (snd p, log_prob (par (s_policy s)) (fst p) (snd p))) (combine (b_next_state b) next_actions) in
    let target := sac_target (q_value (s_t_q1 s)) (q_value (s_t_q2 s)) (temperature c s) samples b in
    let loss1 := Mse (1 # 2) target (par (s_q1 s)) (b_state b) (b_action b) in
    let loss2 := Mse (1 # 2) target (par (s_q2 s)) (b_state b) (b_action b) in
    let q1 := step (clip_grad (deposit (zero_grad (s_q1 s)) (D loss1 SQ1))) in
    let q2 := step (clip_grad (deposit (zero_grad (s_q2 s)) (D loss2 SQ2))) in
    mkSAC (s_policy s) q1 q2 (s_temp s) (s_t_q1 s) (s_t_q2 s) (s_policy_n s).

  (** soft_actor_critic.py:264-272 *)
  Definition sac_update_temperature (c : sac_cfg) (n : net) (log_probs : list Q) : net :=
    step (clip_grad (deposit (zero_grad n) (D (TempLoss (par n) log_probs (entropy_target c)) STemp))).

  (** soft_actor_critic.py:274-309: backward() also reaches both Q-functions; the log-probabilities are those of the policy before its step *)
  Definition sac_update_policy (c : sac_cfg) (s : sac) (nz : N) (b : batch) : sac :=
    let actions := sample nz (par (s_policy s)) (b_state b) in
    let log_probs := map (fun p => log_prob (par (s_policy s)) (fst p) (snd p)) (combine (b_state b) actions) in
    let loss := SoftQ (temperature c s) (par (s_policy s)) (par (s_q1 s)) (par (s_q2 s)) (b_state b) nz in
    let policy := deposit (zero_grad (s_policy s)) (D loss SPolicy) in
    let q1 := deposit (s_q1 s) (D loss SQ1) in
    let q2 := deposit (s_q2 s) (D loss SQ2) in
    mkSAC (step (clip_grad policy)) q1 q2 (option_map (fun n => sac_update_temperature c n log_probs) (s_temp s)) (s_t_q1 s) (s_t_q2 s) (S (s_policy_n s)).

  (** soft_actor_critic.py:193-205, 311-317 *)
  Definition sac_sync (c : sac_cfg) (s : sac) : sac :=
    mkSAC (s_policy s) (s_q1 s) (s_q2 s) (s_temp s) (soft_copy (s_tau c) (s_t_q1 s) (par (s_q1 s))) (soft_copy (s_tau c) (s_t_q2 s) (par (s_q2 s))) (s_policy_n s).
  (** the randomness of the two samplings of one update: [fst] for the next actions, [snd] for the policy loss *)
  Definition sac_update (c : sac_cfg) (s : sac) (x : (N * N) * batch) : sac :=
    let '((nz1, nz2), b) := x in sac_sync c (sac_update_policy c (sac_update_q c s nz1 b) nz2 b).
  (** soft_actor_critic.py:99-180 *)
  Definition sac_init (policy q1 q2 : net) (temp : option net) : sac := mkSAC policy q1 q2 temp (par q1) (par q2) 0.

  (** ** DDPG: the target networks are synchronised by batch_observe (M_OffPolicy.v), here the event [DSync] *)
  Record ddpg := mkDDPG { d_policy : net; d_q : net; d_t_policy : vec; d_t_q : vec; d_n : nat }.
  (** ddpg.py:188-202 update, with 140-186; [gamma] is used in place of the batch's discounts *)
  Definition ddpg_update (gamma : Q) (s : ddpg) (x : N * batch) : ddpg :=
    let '(nz, b) := x in
    let next_actions := sample nz (d_t_policy s) (b_next_state b) in
    let target := ddpg_target gamma (q_value (d_t_q s)) next_actions b in
    let critic_loss := Mse 1 target (par (d_q s)) (b_state b) (b_action b) in
    let q := step (deposit (zero_grad (d_q s)) (D critic_loss SQ1)) in
    let actor_loss := NegQ (par (d_policy s)) (par q) (b_state b) nz in
    let policy := step (deposit (zero_grad (d_policy s)) (D actor_loss SPolicy)) in
    mkDDPG policy (deposit q (D actor_loss SQ1)) (d_t_policy s) (d_t_q s) (S (d_n s)).

  (** copy_param.py:38-42: Hard = None *)
  Definition synchronize (method : option Q) (dst src : vec) : vec := match method with None => src | Some tau => soft_copy tau dst src end.
  (** ddpg.py:130-138 *)
  Definition ddpg_sync (method : option Q) (s : ddpg) : ddpg :=
    mkDDPG (d_policy s) (d_q s) (synchronize method (d_t_policy s) (par (d_policy s))) (synchronize method (d_t_q s) (par (d_q s))) (d_n s).

  (** ** Actions, saving and loading *)
  (** What a training action is taken from: td3.py:281-291, soft_actor_critic.py:341-347, ddpg.py:265-275: burnin_action_func, or the policy
      (whose samples go through the explorer in DDPG and TD3). *)
  Inductive source := BurnIn | OnPolicy (p : vec).
  Definition act_train (burnin : bool) (policy_n : nat) (policy : net) : source :=
    if burnin && (policy_n =? 0) then BurnIn else OnPolicy (par policy).
  (** td3.py:273-275, soft_actor_critic.py:332-335, ddpg.py:261-263 *)
  Definition act_eval (policy : net) : source := OnPolicy (par policy).

  (** agent.py:104-133 and each module's load_state_dict: parameters and optimizer state are overwritten, gradients are not *)
  Definition load_net (n saved : net) : net := mkNet (par saved) (grad n) (ost saved).
  (** td3.py:64-74 saved_attributes *)
  Definition td3_load (s saved : td3) : td3 :=
    mkTD3 (load_net (policy s) (policy saved)) (load_net (q1 s) (q1 saved)) (load_net (q2 s) (q2 saved)) (t_policy saved) (t_q1 saved) (t_q2 saved) (q_n s) (policy_n s).
  (** soft_actor_critic.py:84-95 saved_attributes; an attribute that is None is skipped *)
  Definition sac_load (s saved : sac) : sac :=
    mkSAC (load_net (s_policy s) (s_policy saved)) (load_net (s_q1 s) (s_q1 saved)) (load_net (s_q2 s) (s_q2 saved))
      (match s_temp s, s_temp saved with Some n, Some m => Some (load_net n m) | o, _ => o end) (s_t_q1 saved) (s_t_q2 saved) (s_policy_n s).
  (** ddpg.py:58 saved_attributes *)
  Definition ddpg_load (s saved : ddpg) : ddpg :=
    mkDDPG (load_net (d_policy s) (d_policy saved)) (load_net (d_q s) (d_q saved)) (d_t_policy saved) (d_t_q saved) (d_n s).

  (** Histories of an agent: updates, training actions, evaluation actions; the output of each event. *)
  Inductive ev (X : Type) := Update (x : X) | ActTrain | ActEval | Sync.
  Arguments Update {X}. Arguments ActTrain {X}. Arguments ActEval {X}. Arguments Sync {X}.
  Definition td3_ev (tau : Q) (delay : nat) (burnin : bool) (s : td3) (e : ev (N * batch)) : result (td3 * option source) :=
    match e with
    | Update x => s <- td3_update tau delay s x ;; Ok (s, None)
    | ActTrain => Ok (s, Some (act_train burnin (policy_n s) (policy s)))
    | ActEval => Ok (s, Some (act_eval (policy s)))
    | Sync => Ok (s, None)   (* TD3 synchronises within update only *)
    end.
  Definition sac_ev (c : sac_cfg) (burnin : bool) (s : sac) (e : ev ((N * N) * batch)) : result (sac * option source) :=
    match e with
    | Update x => Ok (sac_update c s x, None)
    | ActTrain => Ok (s, Some (act_train burnin (s_policy_n s) (s_policy s)))
    | ActEval => Ok (s, Some (act_eval (s_policy s)))
    | Sync => Ok (s, None)
    end.
  Definition ddpg_ev (gamma : Q) (method : option Q) (burnin : bool) (s : ddpg) (e : ev (N * batch)) : result (ddpg * option source) :=
    match e with
    | Update x => Ok (ddpg_update gamma s x, None)
    | ActTrain => Ok (s, Some (act_train burnin (d_n s) (d_policy s)))
    | ActEval => Ok (s, Some (act_eval (d_policy s)))
    | Sync => Ok (ddpg_sync method s, None)
    end.
  Fixpoint history {X s} (f : s -> ev X -> result (s * option source)) (st : s) (es : list (ev X)) : result (s * list (option source)) :=
    match es with
    | [] => Ok (st, [])
    | e :: es => ' (st, o) <- f st e ;; ' (st, os) <- history f st es ;; Ok (st, o :: os)
    end.
End ActorCritic.
Arguments net : clear implicits. Arguments loss : clear implicits. Arguments td3 : clear implicits. Arguments sac : clear implicits. Arguments ddpg : clear implicits.
Arguments Update {X}. Arguments ActTrain {X}. Arguments ActEval {X}. Arguments Sync {X}.
