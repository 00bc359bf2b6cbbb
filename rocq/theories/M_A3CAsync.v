(** Model of asynchronous A3C training as a whole: pfrl/experiments/train_agent_async.py:27-145 (train_loop) run by several processes under an
    arbitrary schedule (M_Async.v), each with its own environment and its own A3C agent (M_A3C.v, pfrl/agents/a3c.py), all agents sharing one
    set of parameters.

    Environments are arbitrary: the observation of each reset and step comes with the schedule, as do the sampled actions and the calls made
    by an evaluation.  Simplifications: an optimizer step on the shared parameters (a3c.py:207-216: gradients copied, optimizer step, parameters
    copied back) is one atomic step; in reality it is not protected by a lock and two of them may overlap parameter by parameter (Hogwild).
    An evaluation is one step too: by C69_isolated the worker does not see what the others write in the meantime. *)
From Coq Require Import QArith.
From Verif Require Import Base M_Train M_Async M_A3C.
Open Scope nat_scope.

Section A3CAsync.
Context {Ob Act Pm RS : Type}.
Variable P : async_args.
Variable N : net Ob Pm RS.
Variable opt : Pm -> upd Ob Act Pm RS -> Pm.
Variable c : cfg.

(** Each process has its own agent, whose process_idx is the number of the process (train_agent_async.py:268-284: make_agent(process_idx)). *)
Definition cfg_of (i : nat) : cfg :=
  {| process_idx := i; t_max := t_max c; gamma := gamma c; recurrent := recurrent c; pi_loss_coef := pi_loss_coef c; v_loss_coef := v_loss_coef c;
     keep_loss_scale_same := keep_loss_scale_same c; normalize_grad_by_t_max := normalize_grad_by_t_max c |}.

(** A process: the local variables of train_loop, its agent (whose field [shared_model] is what it saw of the shared parameters last) and
    the variable obs (None: not yet assigned). *)
Record proc := mkProc { p_loop : worker; p_agent : st Ob Act Pm RS; p_obs : option Ob }.
(** The whole: shared counters and events, the shared parameters, the processes. *)
Record sys := mkSys { y_shared : shared; y_params : Pm; y_procs : list proc }.

(** A call of the evaluator to the agent (evaluator.py:18-96 inside agent.eval_mode()). *)
Inductive ecall := EvAct (o : Ob) (a : Act) | EvObserve (o : Ob) (r : Q) (done reset : bool).
Definition ecall_ev (e : ecall) : M_A3C.ev Ob Act Pm := match e with EvAct o a => CallAct o a | EvObserve o r d z => CallObserve o r d z end.

(** Schedules: process [idx] moves; [ch] is what its user code does (M_Async.v), [o] the observation that a reset or step returns, [a] the
    action sampled, [ev] the calls of an evaluation. *)
Inductive csched := CRun (idx : nat) (ch : M_Async.choice) (o : Ob) (a : Act) (evs : list ecall) | CStop | CExn.

(** The calls that process [idx] makes to its agent in its next step.  Before its update the agent sees the shared parameters as they are. *)
Definition agent_calls (y : sys) (ch : M_Async.choice) (a : Act) (evs : list ecall) (k : proc) : result (list (M_A3C.ev Ob Act Pm)) :=
  if sh_killed (y_shared y) || c_raise ch then Ok []
  else match wk_pc (p_loop k) with
       | PcAct => match p_obs k with Some o => Ok [CallAct o a] | None => Err RuntimeError end
       | PcObserve => match p_obs k with
                      | Some o => Ok [Others (y_params y); CallObserve o (wk_r (p_loop k)) (wk_done (p_loop k)) (wk_reset (p_loop k))]
                      | None => Err RuntimeError end
       | PcEval => Ok (SetTraining false :: map ecall_ev evs ++ [SetTraining true])
       | _ => Ok []
       end.

(** The variable obs after the step: assigned by reset (61, 122) and step (69). *)
Definition next_obs (y : sys) (ch : M_Async.choice) (o : Ob) (k : proc) : option Ob :=
  if sh_killed (y_shared y) || c_raise ch then p_obs k
  else match wk_pc (p_loop k) with PcReset _ | PcStep => Some o | _ => p_obs k end.

(** The shared parameters after the calls: an update writes them. *)
Definition written (q : Pm) (s : st Ob Act Pm RS) (outs : list (out Ob Act Pm RS)) : Pm :=
  if existsb (fun o => match o with Updated _ => true | _ => false end) outs then shared_model s else q.

(** What is recorded of a process: what reset (None) and step (reward, done, needs_reset) of its environment returned, and the calls to its
    agent with what they let out. *)
Inductive cev := EnvGave (o : Ob) (r : option (Q * bool * bool)) | AgentCall (e : M_A3C.ev Ob Act Pm) (o : out Ob Act Pm RS).
Definition env_gave (y : sys) (ch : M_Async.choice) (o : Ob) (k : proc) : list cev :=
  if sh_killed (y_shared y) || c_raise ch then []
  else match wk_pc (p_loop k) with
       | PcReset _ => [EnvGave o None]
       | PcStep => [EnvGave o (Some (c_r ch, c_done ch, c_needs ch))]
       | _ => []
       end.

(** One step: the new state, what happened, and the record of M_Async.v. *)
Definition cstep (y : sys) (x : csched) : result (sys * list (nat * cev) * list (nat * aev)) :=
  let g := y_shared y in
  match x with
  | CRun idx ch o a evs =>
      match nth_error (y_procs y) idx with
      | Some k =>
          calls <- agent_calls y ch a evs k ;;
          '(s, outs) <- runs N opt (cfg_of idx) (p_agent k) calls ;;
          let '(g', l', es) := wstep P idx ch g (p_loop k) in
          Ok (mkSys g' (written (y_params y) s outs) (list_set (y_procs y) idx (mkProc l' s (next_obs y ch o k))),
              map (pair idx) (env_gave y ch o k ++ map (fun '(e, ou) => AgentCall e ou) (combine calls outs)), map (pair idx) es)
      | None => Ok (y, [], [])
      end
  | CStop => Ok (mkSys (mkSh (sh_counter g) (sh_episodes g) true (sh_exn g) (sh_killed g)) (y_params y) (y_procs y), [], [])
  | CExn => Ok (mkSys (mkSh (sh_counter g) (sh_episodes g) (sh_stop g) true (sh_killed g)) (y_params y) (y_procs y), [], [])
  end.

Fixpoint crun (y : sys) (xs : list csched) : result (sys * list (nat * cev) * list (nat * aev)) :=
  match xs with
  | [] => Ok (y, [], [])
  | x :: xs => '(y1, te1, ta1) <- cstep y x ;; '(y2, te2, ta2) <- crun y1 xs ;; Ok (y2, te1 ++ te2, ta1 ++ ta2)
  end.

(** train_agent_async.py:225-294: the shared model of every process is that of the main process's agent (235-249, 282-284), with parameters
    [p0]; the local model of process [i] is the copy made when its agent was created (a3c.py:68-72): of the shared model if there is only
    [agent] (286), but of whatever make_agent(i) initialised its network with if there is a make_agent (280-281). *)
Definition own_params (p0 : Pm) (make_agent : option (nat -> Pm)) (i : nat) : Pm := match make_agent with Some f => f i | None => p0 end.
Definition a3c_async (processes : nat) (p0 : Pm) (make_agent : option (nat -> Pm)) (xs : list csched) :=
  crun (mkSys (mkSh 0 0 false false false) p0 (map (fun i => mkProc worker0 (init (own_params p0 make_agent i)) None) (seq 0 processes))) xs.

(** train_agent_async.py:322-329: the agent returned is the one of the main process.  The worker processes act on copies of it (async_.py:21-27:
    forked), so of its attributes only those in shared memory change: the shared model (a3c.py:126-128), not the model it acts with. *)
Definition returned_agent (p0 : Pm) (y : sys) : st Ob Act Pm RS :=
  let s := init p0 in
  {| training := training s; t := t s; t_start := t_start s; past_obs := past_obs s; past_action := past_action s; past_rewards := past_rewards s;
     past_recurrent_state := past_recurrent_state s; train_rs := train_rs s; test_rs := test_rs s; model := model s; shared_model := y_params y |}.

(** agent.save by a process (train_agent_async.py:133-137): of the networks only the local model is saved (a3c.py:44). *)
Definition saved_params (k : proc) : Pm := model (p_agent k).
End A3CAsync.
Arguments csched : clear implicits.
Arguments sys : clear implicits.
Arguments proc : clear implicits.
Arguments ecall : clear implicits.
Arguments cev : clear implicits.
