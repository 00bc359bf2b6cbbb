(** Model of evaluations of recurrent agents: pfrl/experiments/evaluator.py:67-97 and 218-251 (run_evaluation_episodes, batch_run_evaluation_episodes), which run the loops of M_Evaluator in the
    agent's evaluation mode (agent.py:63-70), with the agents of M_RecDQN and M_PPOAgent and with those that act in one environment (A3C, ACER, REINFORCE, StateQFunctionActor). *)
From Coq Require Import QArith.
From Verif Require Import Base M_Batch M_Train M_Evaluator M_ReplayBuffer M_Episodic M_SampleNK M_RecDQN M_PPO M_PPOData M_PPOAgent.
Close Scope Q_scope. Open Scope nat_scope.

(** What evaluations use of an agent: batch_act with the outcome [R] of whatever is drawn at random, batch_observe, and the attribute training. *)
Record evagent (S Ob Ac R : Type) := mkEvagent {
  ea_act : R -> S -> list Ob -> result (S * list Ac); ea_observe : S -> list (outcome Ob) -> result S; ea_training : S -> bool; ea_mode : bool -> S -> S }.
Arguments mkEvagent {S Ob Ac R}. Arguments ea_act {S Ob Ac R}. Arguments ea_observe {S Ob Ac R}. Arguments ea_training {S Ob Ac R}. Arguments ea_mode {S Ob Ac R}.

(** An environment, or a vector of environments; [V] is its state together with that of the random number generators, from which [chance] draws.  It may raise. *)
Record world1 (V Ob Ac R : Type) := mkW1 { w_reset : V -> V * result Ob; w_step : Ac -> V -> V * result (outcome Ob); w_chance : V -> R }.
Record worldn (V Ob Ac R : Type) := mkWn { wn_num : nat; wn_reset : option (list bool) -> V -> V * result (list Ob); wn_step : list Ac -> V -> V * result (list (outcome Ob)); wn_chance : V -> R }.
Arguments mkW1 {V Ob Ac R}. Arguments w_reset {V Ob Ac R}. Arguments w_step {V Ob Ac R}. Arguments w_chance {V Ob Ac R}.
Arguments mkWn {V Ob Ac R}. Arguments wn_num {V Ob Ac R}. Arguments wn_reset {V Ob Ac R}. Arguments wn_step {V Ob Ac R}. Arguments wn_chance {V Ob Ac R}.

Section Evaluations.
Context {V S Ob Ac R : Type} (A : evagent S Ob Ac R).

(** agent.py:157-165: act and observe of a BatchAgent; the other agents have them themselves. *)
Definition euser (E : world1 V Ob Ac R) : userland (V * S) Ob Ac := {|
  env_reset := fun w => let (v, o) := w_reset E (fst w) in ((v, snd w), o);
  agent_act := fun obs w => match ea_act A (w_chance E (fst w)) (snd w) [obs] with
                            | Ok (s, a :: _) => ((fst w, s), Ok a)
                            | Ok (s, []) => ((fst w, s), Err IndexError)
                            | Err e => (w, Err e)
                            end;
  env_step := fun a w => let (v, y) := w_step E a (fst w) in ((v, snd w), y);
  agent_observe := fun obs r done reset w => match ea_observe A (snd w) [(obs, r, done, reset)] with Ok s => ((fst w, s), Ok tt) | Err e => (w, Err e) end;
  step_hooks := []; evaluator := None; max_score := fun _ => 0%Q; agent_has_t := false |}.
(** zip(batch_obs, batch_reward, batch_done, batch_reset) *)
Definition zip_outcomes (obss : list Ob) (rs : list Q) (dones resets : list bool) : list (outcome Ob) :=
  map (fun '(o, (r, (d, e))) => (o, r, d, e)) (combine obss (combine rs (combine dones resets))).
Definition ebuser (E : worldn V Ob Ac R) : buserland (V * S) Ob Ac := {|
  num_envs := wn_num E;
  benv_reset := fun mask w => let (v, o) := wn_reset E mask (fst w) in ((v, snd w), o);
  M_Train.batch_act := fun obss w => match ea_act A (wn_chance E (fst w)) (snd w) obss with Ok (s, a) => ((fst w, s), Ok a) | Err e => (w, Err e) end;
  benv_step := fun a w => let (v, y) := wn_step E a (fst w) in ((v, snd w), y);
  M_Train.batch_observe := fun obss rs dones resets w => match ea_observe A (snd w) (zip_outcomes obss rs dones resets) with Ok s => ((fst w, s), Ok tt) | Err e => (w, Err e) end;
  bstep_hooks := []; bevaluator := None; bmax_score := fun _ => 0%Q; bagent_has_t := false |}.

(** evaluator.py:89-97 and 243-251: with agent.eval_mode(): return _run_episodes(...). *)
Definition run_evaluation (E : world1 V Ob Ac R) (M : mode) (max_len : option nat) (fuel : nat) (v : V) (s : S) : V * S * result (list (Q * nat)) :=
  let '(w, _, r) := run_episodes (euser E) M max_len fuel ((v, ea_mode A false s), 0) in (fst (fst w), ea_mode A (ea_training A s) (snd (fst w)), r).
Definition batch_run_evaluation (E : worldn V Ob Ac R) (M : mode) (max_len : option nat) (fuel : nat) (v : V) (s : S) : V * S * result (list (Q * nat)) :=
  let '(w, _, r) := batch_run_episodes (ebuser E) M max_len fuel ((v, ea_mode A false s), 0) in (fst (fst w), ea_mode A (ea_training A s) (snd (fst w)), r).

(** A life of the agent: training [X] and evaluations, each starting in any state of its environment; it is over when something raises.  What can be seen of an evaluation: the parameters, the
    evaluation, and how it ended. *)
Context {X P : Type} (train : X -> S -> result S) (params : S -> P).
Inductive evaluation := Single (E : world1 V Ob Ac R) (M : mode) (max_len : option nat) (fuel : nat) (v : V) | Vector (E : worldn V Ob Ac R) (M : mode) (max_len : option nat) (fuel : nat) (v : V).
Inductive deed := Train (x : X) | Evaluate (e : evaluation).
Definition evaluate (e : evaluation) (s : S) : V * S * result (list (Q * nat)) :=
  match e with Single E M l fuel v => run_evaluation E M l fuel v s | Vector E M l fuel v => batch_run_evaluation E M l fuel v s end.
Fixpoint life (s : S) (ds : list deed) : result (S * list (P * evaluation * V * list (Q * nat))) :=
  match ds with
  | [] => Ok (s, [])
  | Train x :: ds => s <- train x s ;; life s ds
  | Evaluate e :: ds => let '(v, s', r) := evaluate e s in scores <- r ;; '(s'', l) <- life s' ds ;; Ok (s'', (params s, e, v, scores) :: l)
  end.
End Evaluations.
Arguments evaluation : clear implicits. Arguments deed : clear implicits.

(** ** Recurrent DQN agents and their variants.  In evaluation mode the action is greedy.  (IQN does the same in iqn.py:402-433, but without act_deterministically it draws quantiles: not modelled.) *)
Section DQN.
Context {Ob Ac AV H Pm Op : Type}.
Context (cell : Pm -> Ob -> H -> AV * H) (zero : H) (greedy : AV -> Ac) (U : updater) (tui fuel : nat).
Context (learn : Pm -> Pm -> Op -> list (list (trans (rec Ob Ac H))) -> Pm * Op) (sync : Pm -> Pm -> Pm) (draws : nat -> oracle * (nat -> nat -> nat)).
Definition dqn_evagent {R} : evagent (rdqn Ob Ac H Pm Op) Ob Ac R := mkEvagent
  (fun _ s obs => '(s, _, a) <- M_RecDQN.batch_act cell zero greedy s obs (fun _ _ av => greedy av) ;; Ok (s, a))
  (fun s l => '(s, _) <- M_RecDQN.batch_observe zero U tui fuel learn sync draws s l ;; Ok s)
  q_training
  (fun b s => mkRdqn (q_model s) (q_target s) (q_opt s) (q_t s) (q_optim_t s) (q_buf s) (q_last s) (q_train s) (q_prev s) (q_test s) b).
(** Training: any acting and observing. *)
Definition dqn_train (es : list (list Ob * (nat -> nat -> AV -> Ac) + list (outcome Ob))) (s : rdqn Ob Ac H Pm Op) : result (rdqn Ob Ac H Pm Op) :=
  '(s, _) <- M_RecDQN.run cell zero greedy U tui fuel learn sync draws s (map (fun e => match e with inl (obs, ex) => M_RecDQN.Act obs ex | inr l => M_RecDQN.Observe l end) es) ;; Ok s.
End DQN.

(** ** PPO and TRPO *)
Section PPO.
Context {Ob Act Dist HS Pm : Type}.
Context (cell : Pm -> Ob -> HS -> (Dist * Q) * HS) (zero : HS) (log_prob : Dist -> Act -> Q) (mode_ : Dist -> Act) (act_deterministically : bool).
Context (recurrent : option (option nat)) (update_interval : nat) (gamma lambd : Q) (learn : Pm -> list (list (ptr Ob Act HS)) -> Pm).
Definition ppo_evagent : evagent (ppo Ob Act HS Pm) Ob Act (nat -> Dist -> Act) := mkEvagent
  (fun sampler s obs => '(s, _, a) <- M_PPOAgent.batch_act cell zero mode_ act_deterministically recurrent s obs sampler ;; Ok (s, a))
  (fun s l => '(s, _) <- M_PPOAgent.batch_observe cell zero log_prob recurrent update_interval gamma lambd learn s l ;; Ok s)
  o_training
  (fun b s => mkPpo (o_p s) (o_mem s) (o_bl s) (o_last s) (o_train s) (o_prev s) (o_test s) b).
Definition ppo_train (es : list (list Ob * (nat -> Dist -> Act) + list (outcome Ob))) (s : ppo Ob Act HS Pm) : result (ppo Ob Act HS Pm) :=
  '(s, _) <- M_PPOAgent.run cell zero log_prob mode_ act_deterministically recurrent update_interval gamma lambd learn s
               (map (fun e => match e with inl (obs, sm) => M_PPOAgent.Act_ obs sm | inr l => M_PPOAgent.Observe l end) es) ;; Ok s.
End PPO.

(** ** Agents that act in one environment: a3c.py:285-302, acer.py:759-772 and 817-819, reinforce.py:158-174, state_q_function_actor.py:56-70, 78-91 and 119-121.  Only evaluation mode is modelled, with
    a single state None or Some h; training changes the parameters and does not touch test_recurrent_states (these lines are all that do).  [pick]: the action taken, greedy, the mode or a sample. *)
Section One.
Context {Ob Ac Y H Pm R : Type} (cell : Pm -> Ob -> H -> Y * H) (zero : H) (pick : R -> nat -> Y -> Ac).
Record one := mkOne { i_p : Pm; i_test : option H; i_training : bool }.
Definition one_evagent : evagent one Ob Ac R := mkEvagent
  (fun c s obs => match obs with
                  | [o] => let (y, h) := cell (i_p s) o (match i_test s with None => zero | Some h => h end) in Ok (mkOne (i_p s) (Some h) (i_training s), [pick c 0 y])
                  | _ => Err TypeError
                  end)
  (fun s l => match l with
              | [(_, _, done, reset)] => Ok (if done || reset then mkOne (i_p s) None (i_training s) else s)
              | _ => Err TypeError
              end)
  i_training
  (fun b s => mkOne (i_p s) (i_test s) b).
Definition one_train (p : Pm) (s : one) : result one := Ok (mkOne p (i_test s) (i_training s)).
End One.
Arguments one : clear implicits.
