(** Model of the target values of the off-policy agents.  A batch is what batch_experiences returns (M_Batch.v).  A network is a
    function applied to every example of the batch separately (no batch normalisation in training mode); random numbers (sampled actions,
    quantile thresholds) are inputs, one per example.  Recurrent models are not covered here. *)
From Coq Require Import QArith Qminmax.
From Verif Require Import Base M_Batch M_ActionValue.
Open Scope nat_scope.

Section Targets.
  Context {S A : Type}.

  (** batch_rewards + discount * (1.0 - batch_terminal) * next_q *)
  Fixpoint bellman (rewards discounts terminals next : list Q) : list Q :=
    match rewards, discounts, terminals, next with
    | r :: rs, d :: ds, tm :: tms, q :: qs => (r + d * (1 - tm) * q)%Q :: bellman rs ds tms qs
    | _, _, _, _ => []
    end.

  (** dqn.py:387-404 DQN._compute_target_values *)
  Definition dqn_target (target_model : S -> list Q) (b : batch S A) : result (list Q) :=
    next_q_max <- rmapM max (map target_model (b_next_state b)) ;;
    Ok (bellman (b_reward b) (b_discount b) (b_terminal b) next_q_max).

  (** double_dqn.py:12-42 *)
  Definition double_dqn_target (model target_model : S -> list Q) (b : batch S A) : result (list Q) :=
    greedy <- rmapM greedy_action (map model (b_next_state b)) ;;
    next_q_max <- rmapM (fun p => evaluate_action (fst p) (snd p)) (combine (map target_model (b_next_state b)) greedy) ;;
    Ok (bellman (b_reward b) (b_discount b) (b_terminal b) next_q_max).

  (** iqn.py:289-335; [target_model] takes a state and quantile thresholds; [taus_tilde], [taus_prime]: one list per example *)
  Definition iqn_target (target_model : S -> list Q -> list (list Q)) (taus_tilde taus_prime : list (list Q)) (b : batch S A) : result (list (list Q)) :=
    greedy <- rmapM greedy_action (map (fun p => quantile_q_values (target_model (fst p) (snd p))) (combine (b_next_state b) taus_tilde)) ;;
    maxz <- rmapM (fun p => evaluate_action_as_quantiles (fst p) (snd p)) (combine (map (fun p => target_model (fst p) (snd p)) (combine (b_next_state b) taus_prime)) greedy) ;;
    Ok (map (fun p => let '(r, d, tm, z) := p in map (fun q => r + d * (1 - tm) * q)%Q z) (combine (combine (combine (b_reward b) (b_discount b)) (b_terminal b)) maxz)).

  (** td3.py:182-206: [next_actions] are the smoothed samples of the target policy *)
  Definition td3_target (target_q1 target_q2 : S -> A -> Q) (next_actions : list A) (b : batch S A) : list Q :=
    let next_q1 := map (fun p => target_q1 (fst p) (snd p)) (combine (b_next_state b) next_actions) in
    let next_q2 := map (fun p => target_q2 (fst p) (snd p)) (combine (b_next_state b) next_actions) in
    let next_q := map (fun p => Qmin (fst p) (snd p)) (combine next_q1 next_q2) in
    bellman (b_reward b) (b_discount b) (b_terminal b) next_q.

  (** soft_actor_critic.py:214-238: [samples] are the sampled next actions with their log-probabilities *)
  Definition sac_target (target_q1 target_q2 : S -> A -> Q) (temperature : Q) (samples : list (A * Q)) (b : batch S A) : list Q :=
    let next_q1 := map (fun p => target_q1 (fst p) (fst (snd p))) (combine (b_next_state b) samples) in
    let next_q2 := map (fun p => target_q2 (fst p) (fst (snd p))) (combine (b_next_state b) samples) in
    let next_q := map (fun p => Qmin (fst p) (snd p)) (combine next_q1 next_q2) in
    let entropy_term := map (fun p : A * Q => (temperature * snd p)%Q) samples in
    bellman (b_reward b) (b_discount b) (b_terminal b) (map (fun p : Q * Q => (fst p - snd p)%Q) (combine next_q entropy_term)).

  (** ddpg.py:148-166: self.gamma in place of the batch's discounts *)
  Definition ddpg_target (gamma : Q) (target_q : S -> A -> Q) (next_actions : list A) (b : batch S A) : list Q :=
    let next_q := map (fun p => target_q (fst p) (snd p)) (combine (b_next_state b) next_actions) in
    bellman (b_reward b) (map (fun _ => gamma) (b_reward b)) (b_terminal b) next_q.

  (** elementwise a + alpha * b *)
  Definition add_scaled (alpha : Q) (a b : list Q) : list Q := map (fun p : Q * Q => (fst p + alpha * snd p)%Q) (combine a b).

  (** al.py:25-75 AL._compute_y_and_t (the target t); actions are indices *)
  Definition al_target (alpha : Q) (target_model : S -> list Q) (b : batch S nat) : result (list Q) :=
    next_q_max <- rmapM max (map target_model (b_next_state b)) ;;
    let t_q := bellman (b_reward b) (b_discount b) (b_terminal b) next_q_max in
    cur <- rmapM (fun p => compute_advantage (fst p) (snd p)) (combine (map target_model (b_state b)) (b_action b)) ;;
    Ok (add_scaled alpha t_q cur).

  (** pal.py:25-80 PAL._compute_y_and_t (the target t) *)
  Definition pal_target (alpha : Q) (target_model : S -> list Q) (b : batch S nat) : result (list Q) :=
    next_q_max <- rmapM max (map target_model (b_next_state b)) ;;
    let t_q := bellman (b_reward b) (b_discount b) (b_terminal b) next_q_max in
    cur <- rmapM (fun p => compute_advantage (fst p) (snd p)) (combine (map target_model (b_state b)) (b_action b)) ;;
    next <- rmapM (fun p => compute_advantage (fst p) (snd p)) (combine (map target_model (b_next_state b)) (b_action b)) ;;
    Ok (add_scaled alpha t_q (map (fun p => Qmax (fst p) (snd p)) (combine cur next))).

  (** dpp.py:20-87 AbstractDPP._compute_y_and_t (the target t); [l_operator] is the softmax expectation, logsumexp or max *)
  Definition dpp_target (l_operator : list Q -> result Q) (target_model : S -> list Q) (b : batch S nat) : result (list Q) :=
    target_q <- rmapM (fun p => evaluate_action (fst p) (snd p)) (combine (map target_model (b_state b)) (b_action b)) ;;
    target_q_expect <- rmapM l_operator (map target_model (b_state b)) ;;
    next <- rmapM l_operator (map target_model (b_next_state b)) ;;
    let batch_q_target := bellman (b_reward b) (b_discount b) (b_terminal b) next in
    Ok (map (fun p => let '(q, t, e) := p in q + t - e)%Q (combine (combine target_q batch_q_target) target_q_expect)).

  (** dqn.py:406-430 (the prediction y): Q(s, a) *)
  Definition dqn_prediction (model : S -> list Q) (b : batch S nat) : result (list Q) :=
    rmapM (fun p => evaluate_action (fst p) (snd p)) (combine (map model (b_state b)) (b_action b)).
End Targets.
