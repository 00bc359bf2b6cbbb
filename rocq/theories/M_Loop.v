(** Model of a whole training run of a DQN agent in one environment: pfrl/experiments/train_agent.py:15-111 (M_Train) around pfrl/agents/dqn.py (M_DQN), pfrl/agent.py
    (act and observe of a BatchAgent: one-element batches) and an environment (M_Wrappers).

    Simplifications.  Those of M_DQN (no recurrent states, no statistics).  Step hooks act on the optimizer (learning rates).  The evaluator uses the network and an environment of its
    own: in evaluation mode the agent's attributes do not change (C40_evaluation).  When observe raises, the changes it made before are not seen any more (training has ended).
    [explorer] is the choice of an action from the network, the step number and the observation; random numbers are part of it, as functions of the step number. *)
From Coq Require Import QArith.
From Verif Require Import Base M_Wrappers M_Train M_ReplayBuffer M_Batch M_DQN.
Close Scope Q_scope. Open Scope nat_scope.

Section Loop.
Context {Ob Ac J Pm Op M Smp Orc Sv E X : Type}.
Context (e : env E Ob Ac J).
Context (B : @buffer Ob Ac M Smp Orc Sv) (U : updater) (target_update_interval : nat).
Context (learn : Pm -> Pm -> Op -> list Smp -> Pm * Op * list Q) (sync : Pm -> Pm -> Pm) (draws : nat -> Orc).
Context (explorer : Ob -> Pm -> nat -> Ac).
Context (hooks : list (nat -> Op -> Op * result unit)) (evaluate : option (nat -> nat -> Pm -> X -> X * result (option Q))) (best : X -> Q).

(** The environment with the record of its calls, the agent, the minibatches it has learned from so far, the evaluator's own state. *)
Record world := mkWorld { w_env : E * list (cmd Ac * reply Ob J); w_agent : @dqn Ob Ac Pm Op M; w_learned : list (list Smp); w_eval : X }.
Definition with_env (w : world) v := mkWorld v (w_agent w) (w_learned w) (w_eval w).
Definition with_opt (w : world) (o : Op) : world :=
  let s := w_agent w in mkWorld (w_env w) (mkDqn (d_model s) (d_target s) o (d_t s) (d_optim_t s) (d_steps s) (d_buf s) (d_last s)) (w_learned w) (w_eval w).

Definition user : userland world Ob Ac := {|
  env_reset := fun w => let (v, r) := e_reset (logged e) (w_env w) in (with_env w v, r);
  agent_act := fun obs w => let (s, a) := act (w_agent w) obs (explorer obs) in (mkWorld (w_env w) s (w_learned w) (w_eval w), Ok a);
  env_step := fun a w => let (v, r) := e_step (logged e) a (w_env w) in (with_env w v, rmap (fun o => (o_obs o, o_rew o, o_done o, o_needs o)) r);
  agent_observe := fun obs r done reset w =>
    match observe B U target_update_interval learn sync draws (w_agent w) obs r done reset with
    | Ok (s, bs) => (mkWorld (w_env w) s (w_learned w ++ bs) (w_eval w), Ok tt)
    | Err x => (w, Err x)
    end;
  step_hooks := map (fun (h : nat -> Op -> Op * result unit) t w => let (o, r) := h t (d_opt (w_agent w)) in (with_opt w o, r)) hooks;
  evaluator := match evaluate with
               | Some f => Some (fun t episodes w => let (x, r) := f t episodes (d_model (w_agent w)) (w_eval w) in (mkWorld (w_env w) (w_agent w) (w_learned w) x, r))
               | None => None
               end;
  max_score := fun w => best (w_eval w);
  agent_has_t := true |}.

(** train_agent.py:43-45: agent.t = step_offset (M_Train only records it; nothing before it looks at agent.t). *)
Definition with_t (w : world) (t : nat) : world :=
  let s := w_agent w in mkWorld (w_env w) (mkDqn (d_model s) (d_target s) (d_opt s) t (d_optim_t s) (d_steps s) (d_buf s) (d_last s)) (w_learned w) (w_eval w).
(** One call of train_agent: the world after it and what it returned or raised. *)
Definition train (P : train_args) (w : world) : world * result (list Q) :=
  let '(s, _, r) := train_agent user P (with_t w (a_offset P), 0) in (fst s, r).
(** A new agent in a new environment [v]. *)
Definition start (p : Pm) (o : Op) (n : nat) (m : M) (v : E) (x : X) : world := mkWorld (v, []) (dqn_init p o n m) [] x.
End Loop.
Arguments world : clear implicits.
