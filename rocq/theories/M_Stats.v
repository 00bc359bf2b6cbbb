(** Statistics of the agents: get_statistics and the records behind it.  What the networks, losses and distributions yield enters as events; the numbers are exact.
    Averages are reported as None where numpy gives nan. *)
From Verif Require Import Base.
From Coq Require Import QArith String List.
Open Scope Q_scope.

(** collections.deque(maxlen=m): append drops the oldest element of a full deque. *)
Definition push {X} (m : nat) (l : list X) (x : X) : list X := if (length l <? m)%nat then l ++ [x] else tl (l ++ [x]).
Definition extend {X} (m : nat) (l : list X) (xs : list X) : list X := fold_left (push m) xs l.
Definition qtotal (l : list Q) : Q := fold_right Qplus 0 l.
(** _mean_or_nan: pfrl/agents/dqn.py:39-41 (the same in ddpg.py:17, ppo.py:23, soft_actor_critic.py:19, td3.py:17, trpo.py:71). *)
Definition mean_or_nan (l : list Q) : option Q := match l with [] => None | _ => Some (qtotal l / inject_Z (Z.of_nat (length l))) end.
(** x += (1 - decay) * (new - x) *)
Definition drift (decay x new : Q) : Q := x + (1 - decay) * (new - x).

(** One entry of get_statistics: a name with a number (None: nan) or a count. *)
Inductive stat := Num (x : option Q) | Count (n : nat).
Definition stats := list (string * stat).

(** pfrl/agents/dqn.py: __init__ 258-264, update 345-365 (and update_from_episodes 370-386), _compute_loss 445, _batch_observe_train 516-518.
    categorical_dqn.py:173-174 records the values of the actions taken, as dqn.py:445 does; iqn.py:369 records the values of all actions. *)
Inductive dqn_event := DObserve | DStored | DUpdate (taken all : list Q) (loss : Q).
Record dqn_st := mkD { d_q : list Q; d_loss : list Q; d_optim_t : nat; d_steps : nat; d_rlen : nat }.
Definition dqn_init : dqn_st := mkD [] [] 0 0 0.
(** [DStored]: the replay buffer gets one transition longer (it is read by get_statistics; capacity is not reached in this model). *)
Definition dqn_on (iqn : bool) (s : dqn_st) (e : dqn_event) : dqn_st :=
  match e with
  | DObserve => mkD (d_q s) (d_loss s) (d_optim_t s) (S (d_steps s)) (d_rlen s)
  | DStored => mkD (d_q s) (d_loss s) (d_optim_t s) (d_steps s) (S (d_rlen s))
  | DUpdate taken all loss => mkD (extend 1000 (d_q s) (if iqn then all else taken)) (push 100 (d_loss s) loss) (S (d_optim_t s)) (d_steps s) (d_rlen s)
  end.
(** dqn.py:812-819 *)
Definition dqn_statistics (s : dqn_st) : stats :=
  [("average_q", Num (mean_or_nan (d_q s))); ("average_loss", Num (mean_or_nan (d_loss s))); ("cumulative_steps", Count (d_steps s)); ("n_updates", Count (d_optim_t s)); ("rlen", Count (d_rlen s))]%string.

(** pfrl/agents/ddpg.py: __init__ 127-130, compute_critic_loss 171, compute_actor_loss 176-185, update 188-202.  The actor loss is minus the mean of the values [qs]
    (of a minibatch that is not empty). *)
Record ddpg_st := mkG { g_q : list Q; g_actor : list Q; g_critic : list Q; g_n : nat }.
Definition ddpg_init : ddpg_st := mkG [] [] [] 0.
Definition ddpg_update (s : ddpg_st) (e : Q * list Q) : ddpg_st :=
  let '(critic_loss, qs) := e in
  mkG (extend 1000 (g_q s) qs) (push 100 (g_actor s) (- (qtotal qs / inject_Z (Z.of_nat (length qs))))) (push 100 (g_critic s) critic_loss) (S (g_n s)).
(** ddpg.py:306-312 *)
Definition ddpg_statistics (s : ddpg_st) : stats :=
  [("average_q", Num (mean_or_nan (g_q s))); ("average_actor_loss", Num (mean_or_nan (g_actor s))); ("average_critic_loss", Num (mean_or_nan (g_critic s))); ("n_updates", Count (g_n s))]%string.

(** pfrl/agents/td3.py: __init__ 143-158, update_q_func 213-231, update_policy 234-250, update 252-259.  An event carries the predictions and losses of both Q-functions and
    the loss of the policy if it is updated. *)
Record td3_ev := mkTE { te_q1 : list Q; te_q2 : list Q; te_l1 : Q; te_l2 : Q; te_policy : Q }.
Record td3_st := mkT3 { t_q1 : list Q; t_q2 : list Q; t_l1 : list Q; t_l2 : list Q; t_pl : list Q; t_pn : nat; t_qn : nat }.
Definition td3_init : td3_st := mkT3 [] [] [] [] [] 0 0.
Definition td3_update (delay : nat) (s : td3_st) (e : td3_ev) : td3_st :=
  let s := mkT3 (extend 1000 (t_q1 s) (te_q1 e)) (extend 1000 (t_q2 s) (te_q2 e)) (push 100 (t_l1 s) (te_l1 e)) (push 100 (t_l2 s) (te_l2 e)) (t_pl s) (t_pn s) (S (t_qn s)) in
  if (Nat.modulo (t_qn s) delay =? 0)%nat then mkT3 (t_q1 s) (t_q2 s) (t_l1 s) (t_l2 s) (push 100 (t_pl s) (te_policy e)) (S (t_pn s)) (t_qn s) else s.
(** td3.py:319-328 *)
Definition td3_statistics (s : td3_st) : stats :=
  [("average_q1", Num (mean_or_nan (t_q1 s))); ("average_q2", Num (mean_or_nan (t_q2 s))); ("average_q_func1_loss", Num (mean_or_nan (t_l1 s))); ("average_q_func2_loss", Num (mean_or_nan (t_l2 s)));
   ("average_policy_loss", Num (mean_or_nan (t_pl s))); ("policy_n_updates", Count (t_pn s)); ("q_func_n_updates", Count (t_qn s))]%string.

(** pfrl/agents/soft_actor_critic.py: __init__ 184-188, update_q_func 247-250, update_policy_and_temperature 297-308, update 310-315.  [se_entropy] is None if the distribution
    has no entropy; then minus the log-probabilities of the sampled actions are recorded.  [se_temp] is the temperature after the update. *)
Record sac_ev := mkSE { se_q1 : list Q; se_q2 : list Q; se_l1 : Q; se_l2 : Q; se_entropy : option (list Q); se_logp : list Q; se_temp : Q }.
Record sac_st := mkSA { a_q1 : list Q; a_q2 : list Q; a_l1 : list Q; a_l2 : list Q; a_ent : list Q; a_n : nat; a_temp : Q }.
Definition sac_init (temp : Q) : sac_st := mkSA [] [] [] [] [] 0 temp.
Definition sac_update (s : sac_st) (e : sac_ev) : sac_st :=
  mkSA (extend 1000 (a_q1 s) (se_q1 e)) (extend 1000 (a_q2 s) (se_q2 e)) (push 100 (a_l1 s) (se_l1 e)) (push 100 (a_l2 s) (se_l2 e))
    (extend 1000 (a_ent s) (match se_entropy e with Some l => l | None => map Qopp (se_logp e) end)) (S (a_n s)) (se_temp e).
(** soft_actor_critic.py:376-385 *)
Definition sac_statistics (s : sac_st) : stats :=
  [("average_q1", Num (mean_or_nan (a_q1 s))); ("average_q2", Num (mean_or_nan (a_q2 s))); ("average_q_func1_loss", Num (mean_or_nan (a_l1 s))); ("average_q_func2_loss", Num (mean_or_nan (a_l2 s)));
   ("n_updates", Count (a_n s)); ("average_entropy", Num (mean_or_nan (a_ent s))); ("temperature", Num (Some (a_temp s)))]%string.

(** pfrl/agents/ppo.py: __init__ 395-400, batch_act_train 734-735, _lossfun 662-663 with 531-532 and 605-606, _update_if_dataset_is_ready 445-447. *)
Inductive ppo_event := PAct (values entropies : list Q) | PMinibatch (value_loss policy_loss : Q) | PDataset (explained : option Q).
Record ppo_windows := mkW { w_value : nat; w_entropy : nat; w_vloss : nat; w_ploss : nat }.
Record ppo_st := mkP { p_value : list Q; p_entropy : list Q; p_vloss : list Q; p_ploss : list Q; p_n : nat; p_explained : option Q }.
Definition ppo_init : ppo_st := mkP [] [] [] [] 0 None.
Definition ppo_on (w : ppo_windows) (s : ppo_st) (e : ppo_event) : ppo_st :=
  match e with
  | PAct vs es => mkP (extend (w_value w) (p_value s) vs) (extend (w_entropy w) (p_entropy s) es) (p_vloss s) (p_ploss s) (p_n s) (p_explained s)
  | PMinibatch vl pl => mkP (p_value s) (p_entropy s) (push (w_vloss w) (p_vloss s) vl) (push (w_ploss w) (p_ploss s) pl) (S (p_n s)) (p_explained s)
  | PDataset x => mkP (p_value s) (p_entropy s) (p_vloss s) (p_ploss s) (p_n s) x
  end.
(** ppo.py:809-817 *)
Definition ppo_statistics (s : ppo_st) : stats :=
  [("average_value", Num (mean_or_nan (p_value s))); ("average_entropy", Num (mean_or_nan (p_entropy s))); ("average_value_loss", Num (mean_or_nan (p_vloss s)));
   ("average_policy_loss", Num (mean_or_nan (p_ploss s))); ("n_updates", Count (p_n s)); ("explained_variance", Num (p_explained s))]%string.

(** pfrl/agents/trpo.py: __init__ 234-240, batch_act_train 762-763, _line_search 649-693: the kl divergence and step size of an accepted step, or step size 0;
    _update_if_dataset_is_ready 303-305. *)
Inductive trpo_event := TAct (values entropies : list Q) | TAccepted (kl step : Q) | TRejected | TDataset (explained : option Q).
Record trpo_st := mkTR { r_value : list Q; r_entropy : list Q; r_kl : list Q; r_step : list Q; r_explained : option Q }.
Definition trpo_init : trpo_st := mkTR [] [] [] [] None.
Definition trpo_on (wv we wk ws : nat) (s : trpo_st) (e : trpo_event) : trpo_st :=
  match e with
  | TAct vs es => mkTR (extend wv (r_value s) vs) (extend we (r_entropy s) es) (r_kl s) (r_step s) (r_explained s)
  | TAccepted kl st => mkTR (r_value s) (r_entropy s) (push wk (r_kl s) kl) (push ws (r_step s) st) (r_explained s)
  | TRejected => mkTR (r_value s) (r_entropy s) (r_kl s) (push ws (r_step s) 0) (r_explained s)
  | TDataset x => mkTR (r_value s) (r_entropy s) (r_kl s) (r_step s) x
  end.
(** trpo.py:837-844 *)
Definition trpo_statistics (s : trpo_st) : stats :=
  [("average_value", Num (mean_or_nan (r_value s))); ("average_entropy", Num (mean_or_nan (r_entropy s))); ("average_kl", Num (mean_or_nan (r_kl s)));
   ("average_policy_step_size", Num (mean_or_nan (r_step s))); ("explained_variance", Num (r_explained s))]%string.

(** pfrl/agents/a2c.py: __init__ 106-108, update 204-213.  [ae_values] are the values predicted in this update (a2c.py:175). *)
Record a2c_ev := mkAE { ae_values : list Q; ae_action_loss : Q; ae_value_loss : Q; ae_entropy : Q }.
Record a2c_st := mkA2 { c_actor : Q; c_value : Q; c_entropy : Q }.
Definition a2c_init : a2c_st := mkA2 0 0 0.
Definition a2c_update (da dv de : Q) (s : a2c_st) (e : a2c_ev) : a2c_st :=
  mkA2 (drift da (c_actor s) (ae_action_loss e)) (drift dv (c_value s) (ae_value_loss e)) (drift de (c_entropy s) (ae_entropy e)).
(** a2c.py:289-294 *)
Definition a2c_statistics (s : a2c_st) : stats := [("average_actor", Num (Some (c_actor s))); ("average_value", Num (Some (c_value s))); ("average_entropy", Num (Some (c_entropy s)))]%string.

(** pfrl/agents/a3c.py: __init__ 105-106, _act_train 259-265, get_statistics 308-312; pfrl/agents/acer.py: __init__ 381-383, _act_train 745-751, compute_one_step_pi_loss 446-453,
    get_statistics 825-830; pfrl/agents/reinforce.py: __init__ 84, _act_train 122-125, get_statistics 216-219. *)
Inductive ac_event := CAct (value entropy : Q) | CLoss (kl : Q).
Record ac_st := mkAC { k_value : Q; k_entropy : Q; k_kl : Q }.
Definition ac_init : ac_st := mkAC 0 0 0.
Definition ac_on (use_trust_region : bool) (dv de dk : Q) (s : ac_st) (e : ac_event) : ac_st :=
  match e with
  | CAct v en => mkAC (drift dv (k_value s) v) (drift de (k_entropy s) en) (k_kl s)
  | CLoss kl => if use_trust_region then mkAC (k_value s) (k_entropy s) (drift dk (k_kl s) kl) else s
  end.
Definition a3c_statistics (s : ac_st) : stats := [("average_value", Num (Some (k_value s))); ("average_entropy", Num (Some (k_entropy s)))]%string.
Definition acer_statistics (s : ac_st) : stats := [("average_value", Num (Some (k_value s))); ("average_entropy", Num (Some (k_entropy s))); ("average_kl", Num (Some (k_kl s)))]%string.
Definition reinforce_statistics (s : ac_st) : stats := [("average_entropy", Num (Some (k_entropy s)))]%string.
