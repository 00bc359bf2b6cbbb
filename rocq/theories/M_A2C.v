(** Model of A2C's rollout storage and return computation: pfrl/agents/a2c.py. *)
From Coq Require Import QArith.
From Verif Require Import Base.
Open Scope nat_scope.

(** * a2c.py:150-167 _compute_returns, for one environment (every operation there is elementwise over environments).
    [rewards] and [masks] have update_steps entries, [values] are value_preds[0..update_steps-1].  The loops run over reversed indices and
    write returns[i]; here they carry returns[i+1] (resp. gae and value_preds[i+1]) and collect the results.  Floats are rationals. *)
(* 163-167 *)
Fixpoint plain_returns (gamma : Q) (reversed : list (Q * Q)) (next_return : Q) (acc : list Q) : list Q :=
  match reversed with
  | [] => acc
  | (reward, mask) :: t => let r := (reward + gamma * next_return * mask)%Q in plain_returns gamma t r (r :: acc)
  end.
(* 151-161 *)
Fixpoint gae_returns (gamma tau : Q) (reversed : list (Q * Q * Q)) (gae next_value : Q) (acc : list Q) : list Q :=
  match reversed with
  | [] => acc
  | (reward, mask, value) :: t =>
    let delta := (reward + gamma * next_value * mask - value)%Q in
    let gae' := (delta + gamma * tau * mask * gae)%Q in
    gae_returns gamma tau t gae' value ((gae' + value)%Q :: acc)
  end.
Definition compute_returns (use_gae : bool) (gamma tau : Q) (rewards masks values : list Q) (next_value : Q) : list Q :=
  if use_gae
  then gae_returns gamma tau (rev (combine (combine rewards masks) values)) 0%Q next_value []
  else plain_returns gamma (rev (combine rewards masks)) next_value [].

(** * The rollout storage.  A row (one per time step, for all environments) is [None] while it still has its initial fill of zeros or
    ones (a2c.py:110-148).  Shapes are not modelled: a row is written as a whole. *)
Section Storage.
  Context {Ob Act : Type}.
  Record storage := {
    states : list (option (list Ob));
    actions : list (option (list Act));
    rewards : list (option (list Q));
    value_preds : list (option (list Q));
    masks : list (option (list Q))
  }.
  (* [sto] is None before _flush_storage has created the attributes *)
  Record a2c := { t : Z; t_start : Z; sto : option storage }.

  (* a2c.py:102-103 *)
  Definition a2c_init : a2c := {| t := 0; t_start := 0; sto := None |}.
  (* experiments/train_agent_batch.py:59-61: [if hasattr(agent, "t"): agent.t = step_offset] *)
  Definition set_offset (step_offset : Z) (s : a2c) : a2c := {| t := step_offset; t_start := t_start s; sto := sto s |}.

  (* a2c.py:110-148 _flush_storage *)
  Definition flush_storage (update_steps : nat) (s : a2c) : a2c :=
    {| t := t s; t_start := t_start s;
       sto := Some {| states := repeat None (update_steps + 1); actions := repeat None update_steps; rewards := repeat None update_steps;
                      value_preds := repeat None (update_steps + 1); masks := repeat None update_steps |} |}.

  (* self.states etc. before they exist *)
  Definition get_sto (s : a2c) : result storage := match sto s with Some x => Ok x | None => Err AttributeError end.

  (* What update() (169-213) reads from the storage; the gradient step itself is not modelled. *)
  Record rollout := { r_states : list (option (list Ob)); r_actions : list (option (list Act)); r_rewards : list (option (list Q)); r_masks : list (option (list Q)); r_values : list (option (list Q)) }.
  (* 169-202: states[0] = states[-1]; t_start = t; with use_gae also value_preds[-1] = next_value, which is overwritten before it is read *)
  Definition update (s : a2c) : result (a2c * rollout) :=
    x <- get_sto s ;;
    last <- py_get (states x) (-1) ;;
    st <- py_set (states x) 0 last ;;
    Ok ({| t := t s; t_start := t s; sto := Some {| states := st; actions := actions x; rewards := rewards x; value_preds := value_preds x; masks := masks x |} |},
        {| r_states := states x; r_actions := actions x; r_rewards := rewards x; r_masks := masks x; r_values := removelast (value_preds x) |}).

  Definition update_if (update_steps : nat) (s : a2c) : result (a2c * option rollout) :=
    if (t s - t_start s =? Z.of_nat update_steps)%Z
    then '(s, r) <- update s ;; Ok (s, Some r)
    else Ok (s, None).

  (* a2c.py:225-248 _batch_act_train; [acts] and [values] are what the model answers for this observation (the sample taken at 231-233 only
     serves to find the shape of an action). *)
  Definition batch_act_train (update_steps : nat) (obs : list Ob) (acts : list Act) (values : list Q) (s : a2c) : result (a2c * option rollout) :=
    let s := if (t s =? 0)%Z then flush_storage update_steps s else s in
    x <- get_sto s ;;
    st <- py_set (states x) (t s - t_start s) (Some obs) ;;
    let s := {| t := t s; t_start := t_start s; sto := Some {| states := st; actions := actions x; rewards := rewards x; value_preds := value_preds x; masks := masks x |} |} in
    '(s, r) <- update_if update_steps s ;;
    x <- get_sto s ;;
    ac <- py_set (actions x) (t s - t_start s) (Some acts) ;;
    vp <- py_set (value_preds x) (t s - t_start s) (Some values) ;;
    Ok ({| t := t s; t_start := t_start s; sto := Some {| states := states x; actions := ac; rewards := rewards x; value_preds := vp; masks := masks x |} |}, r).

  (* a2c.py:265-275: a reset counts as done *)
  Fixpoint effective_done (dones resets : list bool) : list bool :=
    match dones, resets with d :: ds, r :: rs => (if r then true else d) :: effective_done ds rs | ds, _ => ds end.

  (* a2c.py:261-287 _batch_observe_train *)
  Definition batch_observe_train (update_steps : nat) (obs : list Ob) (rs : list Q) (dones resets : list bool) (s : a2c) : result (a2c * option rollout) :=
    let s := {| t := (t s + 1)%Z; t_start := t_start s; sto := sto s |} in
    x <- get_sto s ;;
    mk <- py_set (masks x) (t s - t_start s - 1) (Some (map (fun d : bool => if d then 0%Q else 1%Q) (effective_done dones resets))) ;;
    rw <- py_set (rewards x) (t s - t_start s - 1) (Some rs) ;;
    st <- py_set (states x) (t s - t_start s) (Some obs) ;;
    update_if update_steps {| t := t s; t_start := t_start s; sto := Some {| states := st; actions := actions x; rewards := rw; value_preds := value_preds x; masks := mk |} |}.

  (* a2c.py:215-223; in evaluation mode nothing is stored *)
  Inductive op :=
  | BatchAct (training : bool) (obs : list Ob) (acts : list Act) (values : list Q)
  | BatchObserve (training : bool) (obs : list Ob) (rs : list Q) (dones resets : list bool).
  Definition call (update_steps : nat) (s : a2c) (o : op) : a2c * result (option rollout) :=
    match o with
    | BatchAct true obs acts values => match batch_act_train update_steps obs acts values s with Ok (s', r) => (s', Ok r) | Err e => (s, Err e) end
    | BatchObserve true obs rs dones resets => match batch_observe_train update_steps obs rs dones resets s with Ok (s', r) => (s', Ok r) | Err e => (s, Err e) end
    | BatchAct false _ _ _ | BatchObserve false _ _ _ _ => (s, Ok None)
    end.
End Storage.
Arguments a2c : clear implicits.
Arguments rollout : clear implicits.
Arguments op : clear implicits.
