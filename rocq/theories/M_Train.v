(** Model of pfrl/experiments/train_agent.py: train_agent, and train_agent_batch.py: train_agent_batch. *)
From Coq Require Export QArith.
From Verif Require Import Base.
Close Scope Q_scope.
Open Scope nat_scope.

(** A Python function that may call out: a state (everything the environment, the agent, the hooks and the evaluator can
    touch, and the variable t), the list of calls made, and a value or an exception. *)
Section Monad.
Context {W E : Type}.
Definition prog (X : Type) := W * nat -> (W * nat) * list E * result X.
Definition pret {X} (x : X) : prog X := fun s => (s, [], Ok x).
Definition pbind {X Y} (m : prog X) (k : X -> prog Y) : prog Y := fun s =>
  match m s with
  | (s1, l1, Ok x) => match k x s1 with (s2, l2, r) => (s2, l1 ++ l2, r) end
  | (s1, l1, Err e) => (s1, l1, Err e)
  end.
(** A call to user code: it may change the state and may raise; [ev] is the record of the call. *)
Definition pcall {X} (ev : result X -> E) (f : W -> W * result X) : prog X := fun s =>
  let (w, r) := f (fst s) in ((w, snd s), [ev r], r).
Definition pemit (e : E) : prog unit := fun s => (s, [e], Ok tt).
Definition pget_t : prog nat := fun s => (s, [], Ok (snd s)).
Definition pget_w : prog W := fun s => (s, [], Ok (fst s)).
Definition pset_t (t : nat) : prog unit := fun s => ((fst s, t), [], Ok tt).
End Monad.
Notation "x <-- e ;;; k" := (pbind e (fun x => k)) (at level 61, e at next level, right associativity).
Notation "' p <-- e ;;; k" := (pbind e (fun p => k)) (at level 61, p pattern, e at next level, right associativity).

Inductive suffix := Checkpoint | Except | Finish.

(** Calls made by train_agent.  A raised exception is [None] in [EStep]. *)
Inductive ev :=
| EReset | ESetT (t : nat) | EAct | EStep (out : option (Q * bool * bool)) | EObserve (r : Q) (done reset : bool)
| EHook (i t : nat) | EEval (t episodes : nat) (score : option Q) | ESave (t : nat) (s : suffix).

Section TrainAgent.
Context {W Ob A : Type}.
(** User code. [env_step] returns observation, reward, done and info.get("needs_reset", False). *)
Record userland := mkUser {
  env_reset : W -> W * result Ob;
  agent_act : Ob -> W -> W * result A;
  env_step : A -> W -> W * result (Ob * Q * bool * bool);
  agent_observe : Ob -> Q -> bool -> bool -> W -> W * result unit;
  step_hooks : list (nat -> W -> W * result unit);
  evaluator : option (nat -> nat -> W -> W * result (option Q));
  max_score : W -> Q;
  agent_has_t : bool }.
Record train_args := mkArgs {
  a_steps : nat; a_offset : nat; a_checkpoint_freq : option nat; a_max_episode_len : option nat;
  a_successful : option Q; a_eval_during_episode : bool }.
Context (U : userland) (P : train_args).

(** train_agent.py:60-61: the for loop over hooks, [i] numbering the hook. *)
Fixpoint run_hooks (i : nat) (hs : list (nat -> W -> W * result unit)) (t : nat) : @prog W ev unit :=
  match hs with
  | [] => pret tt
  | h :: hs => _ <-- pcall (fun _ => EHook i t) (h t) ;;; run_hooks (S i) hs t
  end.

(** The local variables obs, episode_len, episode_idx, eval_stats_history (scores only); episode_r is only logged. *)
Record locals := mkLoc { l_obs : Ob; l_len : nat; l_idx : nat; l_hist : list Q }.

Definition opt_eqb (x : nat) (o : option nat) : bool := match o with Some m => x =? m | None => false end.
(** [checkpoint_freq and t % checkpoint_freq == 0]. *)
Definition checkpoint_due (freq : option nat) (t : nat) : bool :=
  match freq with None => false | Some f => negb (f =? 0) && (t mod f =? 0) end.

(** train_agent.py:76-86: evaluation; returns the extended history and whether to break. *)
Definition eval_block (t idx : nat) (episode_end : bool) (hist : list Q) : @prog W ev (list Q * bool) :=
  match evaluator U with
  | Some ev =>
      if episode_end || a_eval_during_episode P then
        score <-- pcall (fun o => EEval t idx (match o with Ok s => s | Err _ => None end)) (ev t idx) ;;;
        w <-- pget_w ;;;
        pret (match score with Some s => hist ++ [s] | None => hist end,
              match a_successful P with Some s => Qle_bool s (max_score U w) | None => false end)
      else pret (hist, false)
  | None => pret (hist, false)
  end.

(** train_agent.py:88-96: after the evaluation, [true] means break. *)
Definition next_block (t len idx : nat) (obs : Ob) (episode_end : bool) (hist : list Q) : @prog W ev (bool * locals) :=
  if episode_end && (t =? a_steps P) then pret (true, mkLoc obs len idx hist)
  else
    l' <-- (if episode_end then obs <-- pcall (fun _ => EReset) (env_reset U) ;;; pret (mkLoc obs 0 idx hist)
            else pret (mkLoc obs len idx hist)) ;;;
    _ <-- (if checkpoint_due (a_checkpoint_freq P) t then pemit (ESave t Checkpoint) else pret tt) ;;;
    pret (false, l').

(** train_agent.py:49-96: one pass through the loop body; [true] means break. *)
Definition train_body (l : locals) : @prog W ev (bool * locals) :=
  action <-- pcall (fun _ => EAct) (agent_act U (l_obs l)) ;;;
  '(obs, r, done, needs_reset) <-- pcall (fun o => EStep (match o with Ok (_, r, d, n) => Some (r, d, n) | Err _ => None end)) (env_step U action) ;;;
  t <-- pget_t ;;;
  _ <-- pset_t (S t) ;;;
  let t := S t in
  let len := S (l_len l) in
  let reset := opt_eqb len (a_max_episode_len P) || needs_reset in
  _ <-- pcall (fun _ => EObserve r done reset) (agent_observe U obs r done reset) ;;;
  _ <-- run_hooks 0 (step_hooks U) t ;;;
  let episode_end := done || reset || (t =? a_steps P) in
  let idx := if episode_end then S (l_idx l) else l_idx l in
  '(hist, brk) <-- eval_block t idx episode_end (l_hist l) ;;;
  if brk then pret (true, mkLoc obs len idx hist)
  else next_block t len idx obs episode_end hist.

(** train_agent.py:48: while t < steps.  Each pass increases t by one, so [steps - offset] passes of fuel suffice. *)
Fixpoint train_loop (fuel : nat) (l : locals) : @prog W ev locals :=
  t <-- pget_t ;;;
  if t <? a_steps P then
    match fuel with
    | O => fun s => (s, [], Err OutOfFuel)
    | S n => '(brk, l) <-- train_body l ;;; if brk then pret l else train_loop n l
    end
  else pret l.

(** train_agent.py:25-111. Saving is assumed not to raise. *)
Definition train_agent : @prog W ev (list Q) :=
  obs <-- pcall (fun _ => EReset) (env_reset U) ;;;
  _ <-- pset_t (a_offset P) ;;;
  _ <-- (if agent_has_t U then pemit (ESetT (a_offset P)) else pret tt) ;;;
  fun s =>
    match train_loop (a_steps P - a_offset P) (mkLoc obs 0 0 []) s with
    | (s1, l1, Ok l) => (s1, l1 ++ [ESave (snd s1) Finish], Ok (l_hist l))
    | (s1, l1, Err e) => (s1, l1 ++ [ESave (snd s1) Except], Err e)
    end.
End TrainAgent.
Arguments userland : clear implicits.
Arguments locals : clear implicits.

(** ** train_agent_batch *)
Inductive bev :=
| BReset (mask : option (list bool)) | BSetT (t : nat) | BAct | BStep (out : option (list (Q * bool * bool)))
| BObserve (rs : list Q) (dones resets : list bool) | BHook (i t : nat) | BEval (t episodes : nat) (score : option Q)
| BSave (t : nat) (s : suffix) | BClose.

Section TrainBatch.
Context {W Ob A : Type}.
(** [benv_step] returns, for each environment, observation, reward, done and info.get("needs_reset", False); the number of
    results is assumed to be num_envs (numpy would otherwise raise a broadcasting error). *)
Record buserland := mkBUser {
  num_envs : nat;
  benv_reset : option (list bool) -> W -> W * result (list Ob);
  batch_act : list Ob -> W -> W * result (list A);
  benv_step : list A -> W -> W * result (list (Ob * Q * bool * bool));
  batch_observe : list Ob -> list Q -> list bool -> list bool -> W -> W * result unit;
  bstep_hooks : list (nat -> W -> W * result unit);
  bevaluator : option (nat -> nat -> W -> W * result (option Q));
  bmax_score : W -> Q;
  bagent_has_t : bool }.
Context (U : buserland) (P : train_args).

Record blocals := mkBLoc { bl_obss : list Ob; bl_len : list nat; bl_idx : nat; bl_hist : list Q }.

Fixpoint brun_hooks (i : nat) (hs : list (nat -> W -> W * result unit)) (t : nat) : @prog W bev unit :=
  match hs with
  | [] => pret tt
  | h :: hs => _ <-- pcall (fun _ => BHook i t) (h t) ;;; brun_hooks (S i) hs t
  end.

(** train_agent_batch.py:99-105: for _ in range(num_envs). *)
Fixpoint tick_block (n : nat) : @prog W bev unit :=
  match n with
  | O => pret tt
  | S n =>
      t <-- pget_t ;;; _ <-- pset_t (S t) ;;;
      _ <-- (if checkpoint_due (a_checkpoint_freq P) (S t) then pemit (BSave (S t) Checkpoint) else pret tt) ;;;
      _ <-- brun_hooks 0 (bstep_hooks U) (S t) ;;;
      tick_block n
  end.

(** 121-133: evaluation; [true] means break. *)
Definition beval_block (t idx : nat) (hist : list Q) : @prog W bev (list Q * bool) :=
  match bevaluator U with
  | None => pret (hist, false)
  | Some f =>
      score <-- pcall (fun o => BEval t idx (match o with Ok s => s | Err _ => None end)) (f t idx) ;;;
      match score with
      | None => pret (hist, false)
      | Some sc =>
          w <-- pget_w ;;;
          pret (hist ++ [sc], match a_successful P with Some s => Qle_bool s (bmax_score U w) | None => false end)
      end
  end.

Definition count_true (l : list bool) : nat := length (filter (fun b => b) l).

(** 64-141: one pass; logging and the return statistics are not modelled; episode_idx is kept as its sum. *)
Definition batch_body (l : blocals) : @prog W bev (bool * blocals) :=
  actions <-- pcall (fun _ => BAct) (batch_act U (bl_obss l)) ;;;
  outs <-- pcall (fun o => BStep (match o with Ok r => Some (map (fun '(_, r, d, n) => (r, d, n)) r) | Err _ => None end)) (benv_step U actions) ;;;
  let obss := map (fun '(o, _, _, _) => o) outs in
  let rs := map (fun '(_, r, _, _) => r) outs in
  let dones := map (fun '(_, _, d, _) => d) outs in
  let needs := map (fun '(_, _, _, n) => n) outs in
  let lens := map S (bl_len l) in
  let resets := match a_max_episode_len P with
                | None => repeat false (num_envs U)
                | Some m => map (fun k => k =? m) lens
                end in
  let resets := map (fun '(a, b) => a || b) (combine resets needs) in
  _ <-- pcall (fun _ => BObserve rs dones resets) (batch_observe U obss rs dones resets) ;;;
  let ends := map (fun '(a, b) => a || b) (combine resets dones) in
  let not_end := map negb ends in
  let idx := bl_idx l + count_true ends in
  _ <-- tick_block (num_envs U) ;;;
  t <-- pget_t ;;;
  '(hist, brk) <-- beval_block t idx (bl_hist l) ;;;
  if brk then pret (true, mkBLoc obss lens idx hist)
  else if a_steps P <=? t then pret (true, mkBLoc obss lens idx hist)
  else
    let lens := map (fun '(k, e) => if e : bool then 0 else k) (combine lens ends) in
    obss <-- pcall (fun _ => BReset (Some not_end)) (benv_reset U (Some not_end)) ;;;
    pret (false, mkBLoc obss lens idx hist).

(** 63: while True. *)
Fixpoint batch_loop (fuel : nat) (l : blocals) : @prog W bev blocals :=
  match fuel with
  | O => fun s => (s, [], Err OutOfFuel)
  | S n => '(brk, l) <-- batch_body l ;;; if brk then pret l else batch_loop n l
  end.

Definition train_agent_batch : @prog W bev (list Q) :=
  obss <-- pcall (fun _ => BReset None) (benv_reset U None) ;;;
  _ <-- pset_t (a_offset P) ;;;
  _ <-- (if bagent_has_t U then pemit (BSetT (a_offset P)) else pret tt) ;;;
  fun s =>
    match batch_loop (S (a_steps P - a_offset P)) (mkBLoc obss (repeat 0 (num_envs U)) 0 []) s with
    | (s1, l1, Ok l) => (s1, l1 ++ [BSave (snd s1) Finish], Ok (bl_hist l))
    | (s1, l1, Err e) => (s1, l1 ++ [BSave (snd s1) Except; BClose], Err e)
    end.
End TrainBatch.
Arguments buserland : clear implicits.
Arguments blocals : clear implicits.
