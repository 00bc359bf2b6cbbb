(** Model of one A3C worker: pfrl/agents/a3c.py.
    Parameters, recurrent states, observations and actions are abstract.  The network is an oracle: the value it predicts and the recurrent
    state it moves to, for given parameters, recurrent state and observation.  The action sampled at 254 comes with the call.  Gradient,
    clipping and optimizer step (207-216) are one oracle: new shared parameters from the old shared parameters and what the loss was computed
    from.  The other workers write the shared parameters at any moment between two calls ([Others]).  Not modelled: phi/batch_states (identity),
    assert_shared_memory (111-124), the averages kept for get_statistics, the shape assertions, evaluating() (no layer depends on the mode). *)
From Coq Require Import QArith.
From Verif Require Import Base.
Open Scope nat_scope.

(** Python dicts with int keys; the most recent binding is first. *)
Definition dict (X : Type) := list (nat * X).
Definition dset {X} (d : dict X) (k : nat) (x : X) : dict X := (k, x) :: d.
Fixpoint dget {X} (d : dict X) (k : nat) : result X :=
  match d with [] => Err KeyError | (k', x) :: d => if k' =? k then Ok x else dget d k end.
(** [d[i] for i in ks] *)
Fixpoint dgets {X} (d : dict X) (ks : list nat) : result (list X) :=
  match ks with [] => Ok [] | k :: ks => x <- dget d k ;; xs <- dgets d ks ;; Ok (x :: xs) end.

Section A3C.
  Context {Ob Act P RS : Type}.

  Record net := { value : P -> option RS -> Ob -> Q; advance : P -> option RS -> Ob -> RS }.
  Record cfg := { process_idx : nat; t_max : nat; gamma : Q; recurrent : bool; pi_loss_coef : Q; v_loss_coef : Q;
                  keep_loss_scale_same : bool; normalize_grad_by_t_max : bool }.

  (** What one update computes its loss from: the parameters, the recurrent state and observation at which the model is evaluated for each
      step, the action, the return, and the factors of the two losses. *)
  Record upd := { u_params : P; u_inputs : list (option RS * Ob); u_actions : list Act; u_returns : list Q; u_pi_factor : Q; u_v_factor : Q }.

  Record st := { training : bool; t : nat; t_start : nat; past_obs : dict Ob; past_action : dict Act; past_rewards : dict Q;
                 past_recurrent_state : dict (option RS); train_rs : option RS; test_rs : option RS; model : P; shared_model : P }.

  (* 46-106; model is a deep copy of the shared model *)
  Definition init (p : P) : st :=
    {| training := true; t := 0; t_start := 0; past_obs := []; past_action := []; past_rewards := []; past_recurrent_state := [];
       train_rs := None; test_rs := None; model := p; shared_model := p |}.

  Definition range (a b : nat) : list nat := seq a (b - a).

  (* 181-186: [is] is reversed(range(t_start, t)) *)
  Fixpoint rev_returns (g : Q) (rewards : dict Q) (is : list nat) (R : Q) : result (list Q) :=
    match is with
    | [] => Ok []
    | i :: is => r <- dget rewards i ;; let R := (R * g + r)%Q in rest <- rev_returns g rewards is R ;; Ok (R :: rest)
    end.

  (* 164-170: the packed forward pass of a sequence starting in state [rs] *)
  Fixpoint unroll (N : net) (p : P) (rs : option RS) (obs : list Ob) : list (option RS * Ob) :=
    match obs with [] => [] | o :: obs => (rs, o) :: unroll N p (Some (advance N p rs o)) obs end.

  (* 130-228; [statevar] is None after a terminal state.  The state keeps every attribute that update does not assign. *)
  Definition update (N : net) (opt : P -> upd -> P) (c : cfg) (statevar : option Ob) (s : st) : result (st * upd) :=
    _ <- passert (t_start s <? t s) ;;
    let n := t s - t_start s in
    let R := match statevar with
             | None => 0%Q
             | Some o => value N (model s) (if recurrent c then train_rs s else None) o
             end in
    let '(pf, vf) :=
      if keep_loss_scale_same c && (n <? t_max c)
      then let factor := (inject_Z (Z.of_nat (t_max c)) / inject_Z (Z.of_nat n))%Q in ((pi_loss_coef c * factor)%Q, (v_loss_coef c * factor)%Q)
      else (pi_loss_coef c, v_loss_coef c) in
    let '(pf, vf) :=
      if normalize_grad_by_t_max c then ((pf / inject_Z (Z.of_nat n))%Q, (vf / inject_Z (Z.of_nat n))%Q) else (pf, vf) in
    batch_obs <- dgets (past_obs s) (range (t_start s) (t s)) ;;
    inputs <- (if recurrent c
               then rs0 <- dget (past_recurrent_state s) (t_start s) ;; Ok (unroll N (model s) rs0 batch_obs)
               else Ok (map (fun o => (None, o)) batch_obs)) ;;
    batch_action <- dgets (past_action s) (range (t_start s) (t s)) ;;
    revs <- rev_returns (gamma c) (past_rewards s) (rev (range (t_start s) (t s))) R ;;
    let u := {| u_params := model s; u_inputs := inputs; u_actions := batch_action; u_returns := rev revs; u_pi_factor := pf; u_v_factor := vf |} in
    let shared := opt (shared_model s) u in
    Ok ({| training := training s; t := t s; t_start := t s; past_obs := []; past_action := []; past_rewards := []; past_recurrent_state := [];
           train_rs := train_rs s; test_rs := test_rs s; model := shared; shared_model := shared |}, u).

  (** What a call lets out: the parameters, recurrent state and observation that determine the distribution of the returned action; the update
      that was made. *)
  Inductive out := Nothing | Chose (p : P) (rs : option RS) (o : Ob) | Updated (u : upd).

  (* 242-267; [a] is the sampled action *)
  Definition act_train (N : net) (c : cfg) (o : Ob) (a : Act) (s : st) : st * out :=
    let rs := if recurrent c then train_rs s else None in
    ({| training := training s; t := t s; t_start := t_start s; past_obs := dset (past_obs s) (t s) o; past_action := dset (past_action s) (t s) a;
        past_rewards := past_rewards s;
        past_recurrent_state := if recurrent c then dset (past_recurrent_state s) (t s) (train_rs s) else past_recurrent_state s;
        train_rs := if recurrent c then Some (advance N (model s) (train_rs s) o) else train_rs s;
        test_rs := test_rs s; model := model s; shared_model := shared_model s |}, Chose (model s) rs o).

  Definition set_train_rs (rs : option RS) (s : st) : st :=
    {| training := training s; t := t s; t_start := t_start s; past_obs := past_obs s; past_action := past_action s; past_rewards := past_rewards s;
       past_recurrent_state := past_recurrent_state s; train_rs := rs; test_rs := test_rs s; model := model s; shared_model := shared_model s |}.
  Definition set_test_rs (rs : option RS) (s : st) : st :=
    {| training := training s; t := t s; t_start := t_start s; past_obs := past_obs s; past_action := past_action s; past_rewards := past_rewards s;
       past_recurrent_state := past_recurrent_state s; train_rs := train_rs s; test_rs := rs; model := model s; shared_model := shared_model s |}.

  (* 269-283; 272-275: the debug line of process 0 reads past_action[t - 1] *)
  Definition observe_train (N : net) (opt : P -> upd -> P) (c : cfg) (o : Ob) (r : Q) (done reset : bool) (s : st) : result (st * out) :=
    let s := {| training := training s; t := S (t s); t_start := t_start s; past_obs := past_obs s; past_action := past_action s;
                past_rewards := dset (past_rewards s) (t s) r; past_recurrent_state := past_recurrent_state s; train_rs := train_rs s;
                test_rs := test_rs s; model := model s; shared_model := shared_model s |} in
    _ <- (if process_idx c =? 0 then rmap (fun _ => tt) (dget (past_action s) (t s - 1)) else Ok tt) ;;
    '(s, ou) <- (if (t s - t_start s =? t_max c) || done || reset
                 then '(s, u) <- update N opt c (if done then None else Some o) s ;; Ok (s, Updated u)
                 else Ok (s, Nothing)) ;;
    Ok (if done || reset then set_train_rs None s else s, ou).

  (* 285-302 *)
  Definition act_eval (N : net) (c : cfg) (o : Ob) (s : st) : st * out :=
    let rs := if recurrent c then test_rs s else None in
    (if recurrent c then set_test_rs (Some (advance N (model s) (test_rs s) o)) s else s, Chose (model s) rs o).
  Definition observe_eval (done reset : bool) (s : st) : st := if done || reset then set_test_rs None s else s.

  (** Calls of the worker, switches between training and evaluation mode (agent.py:63-70 eval_mode), and writes of other workers. *)
  Inductive ev := SetTraining (b : bool) | CallAct (o : Ob) (a : Act) | CallObserve (o : Ob) (r : Q) (done reset : bool) | Others (p : P).

  (* 230-240 *)
  Definition step (N : net) (opt : P -> upd -> P) (c : cfg) (s : st) (e : ev) : result (st * out) :=
    match e with
    | SetTraining b =>
      Ok ({| training := b; t := t s; t_start := t_start s; past_obs := past_obs s; past_action := past_action s; past_rewards := past_rewards s;
             past_recurrent_state := past_recurrent_state s; train_rs := train_rs s; test_rs := test_rs s; model := model s; shared_model := shared_model s |}, Nothing)
    | CallAct o a => Ok (if training s then act_train N c o a s else act_eval N c o s)
    | CallObserve o r d z => if training s then observe_train N opt c o r d z s else Ok (observe_eval d z s, Nothing)
    | Others p =>
      Ok ({| training := training s; t := t s; t_start := t_start s; past_obs := past_obs s; past_action := past_action s; past_rewards := past_rewards s;
             past_recurrent_state := past_recurrent_state s; train_rs := train_rs s; test_rs := test_rs s; model := model s; shared_model := p |}, Nothing)
    end.

  Fixpoint runs (N : net) (opt : P -> upd -> P) (c : cfg) (s : st) (es : list ev) : result (st * list out) :=
    match es with
    | [] => Ok (s, [])
    | e :: es => '(s, o) <- step N opt c s e ;; '(s, os) <- runs N opt c s es ;; Ok (s, o :: os)
    end.
End A3C.
Arguments net : clear implicits.
Arguments upd : clear implicits.
Arguments st : clear implicits.
Arguments out : clear implicits.
Arguments ev : clear implicits.
