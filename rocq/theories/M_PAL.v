(** Model of pfrl/agents/double_pal.py:8-71 (DoublePAL._compute_y_and_t, the target), with feed-forward networks; conventions of M_Targets.v. *)
From Coq Require Import QArith Qminmax.
From Verif Require Import Base M_Batch M_ActionValue M_Targets.
Open Scope nat_scope.

Definition double_pal_target {S} (alpha : Q) (model target_model : S -> list Q) (b : batch S nat) : result (list Q) :=
  greedy <- rmapM greedy_action (map model (b_next_state b)) ;;
  next_q_max <- rmapM (fun p => evaluate_action (fst p) (snd p)) (combine (map target_model (b_next_state b)) greedy) ;;
  let t_q := bellman (b_reward b) (b_discount b) (b_terminal b) next_q_max in
  cur <- rmapM (fun p => compute_advantage (fst p) (snd p)) (combine (map target_model (b_state b)) (b_action b)) ;;
  next <- rmapM (fun p => compute_advantage (fst p) (snd p)) (combine (map target_model (b_next_state b)) (b_action b)) ;;
  Ok (add_scaled alpha t_q (map (fun p => Qmax (fst p) (snd p)) (combine cur next))).
