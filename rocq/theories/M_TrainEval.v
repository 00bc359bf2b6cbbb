(** Model of train_agent_with_evaluation (pfrl/experiments/train_agent.py:114-221) and train_agent_batch_with_evaluation
    (pfrl/experiments/train_agent_batch.py:150-263): the training loops of M_Train with the evaluator of M_Evaluator, on one world.
    Not modelled: output directory, logging, tensorboard, elapsed times; statistics other than the mean (see C20). *)
From Verif Require Import Base M_Train M_Evaluator.
Open Scope nat_scope.

(** The evaluator's own state is kept beside the world; user code does not touch it. *)
Definition lift {W S X} (f : W -> W * result X) (ws : W * S) : (W * S) * result X := let (w, r) := f (fst ws) in ((w, snd ws), r).
(** Evaluator.evaluate_if_necessary as called by the training loop. *)
Definition consult {W} (EU : evuser W) (EP : evargs) (t episodes : nat) (ws : W * evstate) : (W * evstate) * result (option Q) :=
  let '(s, w, _, r) := evaluate_if_necessary EU EP (snd ws) (fst ws) t episodes in ((w, s), r).

(** An evaluation hook: which training functions it supports, and the call (evaluation_hooks.py:13-24). *)
Record ehook (W : Type) := mkEHook { h_train : bool; h_batch : bool; h_call : nat -> Q -> W -> W * result unit }.
Arguments mkEHook {W}. Arguments h_train {W}. Arguments h_batch {W}. Arguments h_call {W}.

(** Arguments common to both functions; [None] is Python's None. *)
Record eval_args := mkEvalArgs {
  e_n_steps : option nat; e_n_episodes : option nat; e_interval : nat; e_max_episode_len : option nat; e_save_best : bool }.
(** Evaluator.__init__ (evaluator.py:418-442): exactly one of n_steps and n_episodes. *)
Definition eval_mode (EA : eval_args) : result mode :=
  match e_n_steps EA, e_n_episodes EA with
  | Some n, None => Ok (NSteps n)
  | None, Some n => Ok (NEpisodes n)
  | _, _ => Err AssertionError
  end.

Section Train.
Context {W Ob A : Type}.
(** [U]: the training environment, the agent in training mode, step hooks (the fields evaluator and max_score are not used);
    [eval_act], [eval_observe]: the agent in evaluation mode; [eval_env]: reset and step of eval_env, if given. *)
Context (U : userland W Ob A) (P : train_args) (EA : eval_args) (hooks : list (ehook W))
        (eval_act : Ob -> W -> W * result A) (eval_observe : Ob -> Q -> bool -> bool -> W -> W * result unit)
        (eval_env : option ((W -> W * result Ob) * (A -> W -> W * result (Ob * Q * bool * bool)))) (fuel : nat).

(** train_agent.py:183-188: eval_env = env if None. *)
Definition eval_user : userland W Ob A := {|
  env_reset := match eval_env with Some e => fst e | None => env_reset U end;
  agent_act := eval_act;
  env_step := match eval_env with Some e => snd e | None => env_step U end;
  agent_observe := eval_observe; step_hooks := []; evaluator := None; max_score := fun _ => 0%Q; agent_has_t := false |}.
(** 190-191: eval_max_episode_len = train_max_episode_len if None. *)
Definition eval_len : option nat := match e_max_episode_len EA with Some m => Some m | None => a_max_episode_len P end.
(** evaluator.py:463-471 / 67-97: the scores of the evaluation episodes; at most [fuel] steps are considered. *)
Definition scores (m : mode) (w : W) : W * result (list Q) :=
  let '(s, _, r) := run_episodes eval_user m eval_len fuel (w, 0) in (fst s, rmap (map fst) r).
Definition with_evaluator (EU : evuser W) (EP : evargs) : userland (W * evstate) Ob A := {|
  env_reset := lift (env_reset U);
  agent_act := fun o => lift (agent_act U o);
  env_step := fun a => lift (env_step U a);
  agent_observe := fun o r d b => lift (agent_observe U o r d b);
  step_hooks := map (fun h t => lift (h t)) (step_hooks U);
  evaluator := Some (consult EU EP);
  max_score := fun ws => es_max (snd ws);
  agent_has_t := agent_has_t U |}.
Definition evargs_of : evargs := mkEvArgs (e_interval EA) (a_offset P) (e_save_best EA).

(** train_agent.py:171-221.  The result: the world afterwards, the calls made, the history or an exception. *)
Definition train_agent_with_evaluation (w : W) (t0 : nat) : W * list ev * result (list Q) :=
  if negb (forallb h_train hooks) then (w, [], Err ValueError)
  else if (match eval_env with None => a_eval_during_episode P | Some _ => false end) then (w, [], Err AssertionError)
  else match eval_mode EA with
       | Err e => (w, [], Err e)
       | Ok m =>
           match evaluator_init evargs_of with
           | Err e => (w, [], Err e)
           | Ok s0 =>
               let EU := mkEv (scores m) (map h_call hooks) in
               let '(s, tr, r) := train_agent (with_evaluator EU evargs_of) P ((w, s0), t0) in (fst (fst s), tr, r)
           end
       end.
End Train.

Section Batch.
Context {W Ob A : Type}.
Context (U : buserland W Ob A) (P : train_args) (EA : eval_args) (hooks : list (ehook W))
        (eval_act : list Ob -> W -> W * result (list A)) (eval_observe : list Ob -> list Q -> list bool -> list bool -> W -> W * result unit)
        (eval_env : option (nat * (option (list bool) -> W -> W * result (list Ob)) * (list A -> W -> W * result (list (Ob * Q * bool * bool))))) (fuel : nat).

(** train_agent_batch.py:227-228: eval_env = env if None.  [eval_env] is given by num_envs, reset and step. *)
Definition beval_user : buserland W Ob A := {|
  num_envs := match eval_env with Some (n, _, _) => n | None => num_envs U end;
  benv_reset := match eval_env with Some (_, r, _) => r | None => benv_reset U end;
  batch_act := eval_act;
  benv_step := match eval_env with Some (_, _, s) => s | None => benv_step U end;
  batch_observe := eval_observe; bstep_hooks := []; bevaluator := None; bmax_score := fun _ => 0%Q; bagent_has_t := false |}.
Definition bscores (m : mode) (w : W) : W * result (list Q) :=
  let '(s, _, r) := batch_run_episodes beval_user m (eval_len P EA) fuel (w, 0) in (fst s, rmap (map fst) r).
Definition with_bevaluator (EU : evuser W) (EP : evargs) : buserland (W * evstate) Ob A := {|
  num_envs := num_envs U;
  benv_reset := fun m => lift (benv_reset U m);
  batch_act := fun o => lift (batch_act U o);
  benv_step := fun a => lift (benv_step U a);
  batch_observe := fun o r d b => lift (batch_observe U o r d b);
  bstep_hooks := map (fun h t => lift (h t)) (bstep_hooks U);
  bevaluator := Some (consult EU EP);
  bmax_score := fun ws => es_max (snd ws);
  bagent_has_t := bagent_has_t U |}.

(** train_agent_batch.py:216-263. *)
Definition train_agent_batch_with_evaluation (w : W) (t0 : nat) : W * list bev * result (list Q) :=
  if negb (forallb h_batch hooks) then (w, [], Err ValueError)
  else match eval_mode EA with
       | Err e => (w, [], Err e)
       | Ok m =>
           match evaluator_init (evargs_of P EA) with
           | Err e => (w, [], Err e)
           | Ok s0 =>
               let EU := mkEv (bscores m) (map h_call hooks) in
               let '(s, tr, r) := train_agent_batch (with_bevaluator EU (evargs_of P EA)) P ((w, s0), t0) in (fst (fst s), tr, r)
           end
       end.
End Batch.
