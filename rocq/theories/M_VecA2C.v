(** The A2C agent (M_A2C) as an agent of a training run in a vector environment (M_VecLoop): pfrl/agents/a2c.py:110-287.

    Simplifications.  Those of M_A2C.  The model, the optimizer and the random numbers are [Pl]: [decide] is the forward pass in which actions are sampled (240-242), [value] the forward pass for
    the bootstrap (170-172), [learn] the gradient step on states, actions and returns (175-201).  [learn] gets the rollout and the returns.  Hooks act on [Pl]; an evaluator may change it
    as well; its calls of the agent are made in evaluation mode, in which the rest does not change (C60).  phi is part of the observations. *)
From Coq Require Import QArith.
From Verif Require Import Base M_Train M_VecLoop M_A2C.
Close Scope Q_scope. Open Scope nat_scope.

Section Agent.
Context {O A Pl X : Type}.
(** An update: the rollout it read, the policy that computed the bootstrap value, the returns (one list per environment). *)
Record lesson := mkLesson { l_rollout : rollout O A; l_policy : Pl; l_returns : list (list Q) }.
(** [a_values]: the values predicted in the calls of batch_act so far; [a_lessons]: the updates so far.  These two are records only, nothing reads them. *)
Record agent := mkAgent { a_core : result (a2c O A); a_policy : Pl; a_values : list (list Q); a_lessons : list lesson }.
Context (use_gae : bool) (gamma tau : Q) (update_steps n : nat).
Context (decide : list O -> Pl -> Pl * (list A * list Q)) (value : option (list O) -> Pl -> list Q) (learn : lesson -> Pl -> Pl).

(** Row [k] of a tensor of the storage for environment [i]; initial fill [d] (a2c.py:129-145: zeros, or ones for masks). *)
Definition cells (d : Q) (i : nat) (rows : list (option (list Q))) : list Q := map (fun row => match row with Some l => nth i l d | None => d end) rows.
(** a2c.py:150-174 for the environments 0 .. n-1 *)
Definition lesson_of (r : rollout O A) (p : Pl) : lesson :=
  let next_value := value (last (r_states r) None) p in
  mkLesson r p (map (fun i => compute_returns use_gae gamma tau (cells 0%Q i (r_rewards r)) (cells 1%Q i (r_masks r)) (cells 0%Q i (r_values r)) (nth i next_value 0%Q)) (seq 0 n)).
Definition study (r : option (rollout O A)) (s : agent) : agent :=
  match r with None => s | Some r => let l := lesson_of r (a_policy s) in mkAgent (a_core s) (learn l (a_policy s)) (a_values s) (a_lessons s ++ [l]) end.

(** a2c.py:225-248.  (At t = 0 the model is also asked for a sample to find the shape of an action: not modelled.  An update, had it been due, would come before the actions are chosen;
    C133 shows that it is never due here.) *)
Definition a2c_act (obss : list O) (s : agent) : agent * result (list A) :=
  match a_core s with
  | Err x => (s, Err x)
  | Ok c =>
    let (p, av) := decide obss (a_policy s) in
    let '(c', r) := call update_steps c (BatchAct true obss (fst av) (snd av)) in
    match r with
    | Ok u => (study u (mkAgent (Ok c') p (a_values s ++ [snd av]) (a_lessons s)), Ok (fst av))
    | Err x => (mkAgent (Err x) p (a_values s) (a_lessons s), Err x)
    end
  end.
(** a2c.py:261-287 *)
Definition a2c_observe (obss : list O) (rs : list Q) (dones resets : list bool) (s : agent) : agent * result unit :=
  match a_core s with
  | Err x => (s, Err x)
  | Ok c =>
    let '(c', r) := call update_steps c (BatchObserve true obss rs dones resets) in
    match r with
    | Ok u => (study u (mkAgent (Ok c') (a_policy s) (a_values s) (a_lessons s)), Ok tt)
    | Err x => (mkAgent (Err x) (a_policy s) (a_values s) (a_lessons s), Err x)
    end
  end.
(** train_agent_batch.py:59-60: agent.t = step_offset *)
Definition a2c_set_t (step_offset : nat) (s : agent) : agent := mkAgent (rmap (set_offset (Z.of_nat step_offset)) (a_core s)) (a_policy s) (a_values s) (a_lessons s).
(** a2c.py:102-103 *)
Definition a2c_new (p : Pl) : agent := mkAgent (Ok a2c_init) p [] [].
Definition policy_hook (h : nat -> Pl -> Pl * result unit) (t : nat) (s : agent) : agent * result unit := let (p, r) := h t (a_policy s) in (mkAgent (a_core s) p (a_values s) (a_lessons s), r).
Definition policy_eval (f : nat -> nat -> Pl * X -> (Pl * X) * result (option Q)) (t k : nat) (sx : agent * X) : (agent * X) * result (option Q) :=
  let '((p, x), r) := f t k (a_policy (fst sx), snd sx) in ((mkAgent (a_core (fst sx)) p (a_values (fst sx)) (a_lessons (fst sx)), x), r).
End Agent.
Arguments agent : clear implicits. Arguments lesson : clear implicits.
