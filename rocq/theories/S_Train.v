(** Specification for C16: a protocol automaton and projections of the record of calls. *)
From Verif Require Import Base M_Train.
Open Scope nat_scope.

(** Where the interaction stands: nothing done yet; [k] steps into an episode; action chosen; stepped but the agent has not
    been told; episode over; user code raised. *)
Inductive phase := Idle | Running (k : nat) | Acting (k : nat) | Stepped (k : nat) (r : Q) (done needs_reset : bool) | Ended.

Definition settled (p : phase) : Prop := p = Ended \/ exists k, p = Running k.

Inductive advance (P : train_args) : phase -> ev -> phase -> Prop :=
| ad_first : advance P Idle EReset (Running 0)
| ad_reset : advance P Ended EReset (Running 0)
| ad_act k : advance P (Running k) EAct (Acting k)
| ad_step k r d n : advance P (Acting k) (EStep (Some (r, d, n))) (Stepped (S k) r d n)
| ad_observe k r d n :
    let reset := (match a_max_episode_len P with Some m => k =? m | None => false end) || n in
    advance P (Stepped k r d n) (EObserve r d reset) (if d || reset then Ended else Running k)
| ad_raised k : advance P (Acting k) (EStep None) (Acting k)
| ad_hook p i t : settled p -> advance P p (EHook i t) p
| ad_eval p t e s : settled p -> (p = Ended \/ t = a_steps P \/ a_eval_during_episode P = true) -> advance P p (EEval t e s) p
| ad_save p t s : advance P p (ESave t s) p
| ad_set_t p t : advance P p (ESetT t) p.
Inductive advances (P : train_args) : phase -> list ev -> phase -> Prop :=
| as_nil p : advances P p [] p
| as_cons p e p1 tr p2 : advance P p e p1 -> advances P p1 tr p2 -> advances P p (e :: tr) p2.

Definition hook_calls (tr : list ev) : list (nat * nat) := flat_map (fun e => match e with EHook i t => [(t, i)] | _ => [] end) tr.
Definition saves (tr : list ev) : list (nat * suffix) := flat_map (fun e => match e with ESave t s => [(t, s)] | _ => [] end) tr.
Definition steps_made (tr : list ev) : nat := length (filter (fun e => match e with EStep (Some _) => true | _ => false end) tr).
Definition eval_times (tr : list ev) : list nat := flat_map (fun e => match e with EEval t _ _ => [t] | _ => [] end) tr.
Definition eval_scores (tr : list ev) : list Q := flat_map (fun e => match e with EEval _ _ (Some s) => [s] | _ => [] end) tr.
(** Multiples of the checkpoint frequency. *)
Definition multiple_of (freq : option nat) (t : nat) : bool :=
  match freq with Some f => negb (f =? 0) && (t mod f =? 0) | None => false end.

(** User code that never raises. *)
Definition never_raises {W Ob A} (U : userland W Ob A) : Prop :=
  (forall w, exists w' x, env_reset U w = (w', Ok x)) /\
  (forall o w, exists w' x, agent_act U o w = (w', Ok x)) /\
  (forall a w, exists w' x, env_step U a w = (w', Ok x)) /\
  (forall o r d b w, exists w' x, agent_observe U o r d b w = (w', Ok x)) /\
  Forall (fun h => forall t w, exists w' x, h t w = (w', Ok x)) (step_hooks U) /\
  (forall f, evaluator U = Some f -> forall t e w, exists w' x, f t e w = (w', Ok x)).

(** ** C17: what one environment and the agent see of it. *)
Definition view (i : nat) (e : bev) : list ev :=
  match e with
  | BReset None => [EReset]
  | BReset (Some mask) => match nth_error mask i with Some false => [EReset] | _ => [] end
  | BAct => [EAct]
  | BStep None => [EStep None]
  | BStep (Some outs) => match nth_error outs i with Some o => [EStep (Some o)] | None => [] end
  | BObserve rs ds bs =>
      match nth_error rs i, nth_error ds i, nth_error bs i with Some r, Some d, Some b => [EObserve r d b] | _, _, _ => [] end
  | _ => []
  end.
Definition view_of (i : nat) (tr : list bev) : list ev := flat_map (view i) tr.
Definition bhook_calls (tr : list bev) : list (nat * nat) := flat_map (fun e => match e with BHook i t => [(t, i)] | _ => [] end) tr.
Definition bsaves (tr : list bev) : list (nat * suffix) := flat_map (fun e => match e with BSave t s => [(t, s)] | _ => [] end) tr.
Definition bsteps_made (tr : list bev) : nat := length (filter (fun e => match e with BStep (Some _) => true | _ => false end) tr).
Definition beval_times (tr : list bev) : list nat := flat_map (fun e => match e with BEval t _ _ => [t] | _ => [] end) tr.
Definition beval_scores (tr : list bev) : list Q := flat_map (fun e => match e with BEval _ _ (Some s) => [s] | _ => [] end) tr.
(** The step function answers for every environment. *)
Definition env_complete {W Ob A} (U : buserland W Ob A) : Prop :=
  forall a w w' outs, benv_step U a w = (w', Ok outs) -> length outs = num_envs U.
Definition bnever_raises {W Ob A} (U : buserland W Ob A) : Prop :=
  (forall m w, exists w' x, benv_reset U m w = (w', Ok x)) /\
  (forall o w, exists w' x, batch_act U o w = (w', Ok x)) /\
  (forall a w, exists w' x, benv_step U a w = (w', Ok x)) /\
  (forall o r d b w, exists w' x, batch_observe U o r d b w = (w', Ok x)) /\
  Forall (fun h => forall t w, exists w' x, h t w = (w', Ok x)) (bstep_hooks U) /\
  (forall f, bevaluator U = Some f -> forall t e w, exists w' x, f t e w = (w', Ok x)).
