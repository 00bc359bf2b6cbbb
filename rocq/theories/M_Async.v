(** Model of pfrl/experiments/train_agent_async.py: train_loop run by several processes under an arbitrary schedule. *)
From Verif Require Import Base M_Train.
Open Scope nat_scope.

(** Program counter of train_loop.  Between two program counters a process performs at most one access to shared memory
    (counter, episodes_counter, stop_event, exception_event), so interleaving at program counters covers all interleavings. *)
Inductive pc :=
| PcReset (first : bool)  (* 61 and 122: obs = env.reset() *)
| PcAct                   (* 67 *)
| PcStep                  (* 69-73 *)
| PcObserve               (* 74 *)
| PcCount                 (* 77-79: with counter.get_lock() *)
| PcHook (i : nat)        (* 81-82 *)
| PcCheck                 (* 84: if done or reset or global_t >= steps or stop_event.is_set() *)
| PcEval                  (* 96-110 *)
| PcEpisodes              (* 112-114: with episodes_counter.get_lock() *)
| PcRecheck               (* 116-117 *)
| PcException             (* 124-127 *)
| PcFinish                (* 133-137 *)
| PcSuccess               (* 139-143 *)
| PcDone                  (* train_loop returned *)
| PcRaised.               (* 129-131: save_model(); raise *)

(** Local variables of one process. *)
Record worker := mkWk {
  wk_pc : pc; wk_gt : nat; wk_len : nat; wk_r : Q; wk_done : bool; wk_needs : bool; wk_reset : bool; wk_success : bool; wk_ge : nat }.
(** Shared memory; [sh_killed]: kill_all() was called (SIGTERM to the process group). *)
Record shared := mkSh { sh_counter : nat; sh_episodes : nat; sh_stop : bool; sh_exn : bool; sh_killed : bool }.

(** What the user code (environment, agent, hook, evaluator) does in this step; the evaluator's answer is arbitrary. *)
Record choice := mkCh { c_raise : bool; c_r : Q; c_done : bool; c_needs : bool; c_score : option Q }.

(** Calls recorded: user calls and saves as in M_Train, the global step number obtained, the "successful" snapshot. *)
Inductive aev := AUser (e : ev) | AGot (t : nat) | ASuccessful.

Record async_args := mkAsync {
  as_steps : nat; as_max_episode_len : option nat; as_successful : option Q; as_nhooks : nat; as_has_eval : bool }.

Section Async.
Context (P : async_args).

Definition set_pc (k : worker) (p : pc) : worker :=
  mkWk p (wk_gt k) (wk_len k) (wk_r k) (wk_done k) (wk_needs k) (wk_reset k) (wk_success k) (wk_ge k).

(** 49-54 and 129-131: save_model(); raise. *)
Definition raised (idx : nat) (k : worker) : worker * list aev :=
  (set_pc k PcRaised, if idx =? 0 then [AUser (ESave (wk_gt k) Except)] else []).

(** A call to user code that may raise. *)
Definition user (idx : nat) (c : choice) (g : shared) (k : worker) (e : ev) (next : shared * worker) : shared * worker * list aev :=
  if c_raise c then let (k', es) := raised idx k in (g, k', AUser e :: es)
  else (fst next, snd next, [AUser e]).

(** One step of process [idx]. *)
Definition wstep (idx : nat) (c : choice) (g : shared) (k : worker) : shared * worker * list aev :=
  if sh_killed g then (g, k, []) else
  match wk_pc k with
  | PcReset first =>
      user idx c g k EReset
        (g, mkWk (if first then PcAct else PcException) (wk_gt k) 0 (wk_r k) (wk_done k) (wk_needs k) (wk_reset k) (wk_success k) (wk_ge k))
  | PcAct => user idx c g k EAct (g, set_pc k PcStep)
  | PcStep =>
      user idx c g k (EStep (if c_raise c then None else Some (c_r c, c_done c, c_needs c)))
        (g, let len := S (wk_len k) in
            let reset := (match as_max_episode_len P with Some m => len =? m | None => false end) || c_needs c in
            mkWk PcObserve (wk_gt k) len (c_r c) (c_done c) (c_needs c) reset (wk_success k) (wk_ge k))
  | PcObserve => user idx c g k (EObserve (wk_r k) (wk_done k) (wk_reset k)) (g, set_pc k PcCount)
  | PcCount =>
      let v := S (sh_counter g) in
      (mkSh v (sh_episodes g) (sh_stop g) (sh_exn g) (sh_killed g),
       mkWk (PcHook 0) v (wk_len k) (wk_r k) (wk_done k) (wk_needs k) (wk_reset k) (wk_success k) (wk_ge k), [AGot v])
  | PcHook i =>
      if i <? as_nhooks P then user idx c g k (EHook i (wk_gt k)) (g, set_pc k (PcHook (S i))) else (g, set_pc k PcCheck, [])
  | PcCheck =>
      if wk_done k || wk_reset k || (as_steps P <=? wk_gt k) || sh_stop g
      then (g, set_pc k (if as_has_eval P then PcEval else PcEpisodes), []) else (g, set_pc k PcException, [])
  | PcEval =>
      user idx c g k (EEval (wk_gt k) (wk_ge k) (if c_raise c then None else c_score c))
        (if match c_score c, as_successful P with Some s, Some q => Qle_bool q s | _, _ => false end
         then (mkSh (sh_counter g) (sh_episodes g) true (sh_exn g) (sh_killed g),
               mkWk PcFinish (wk_gt k) (wk_len k) (wk_r k) (wk_done k) (wk_needs k) (wk_reset k) true (wk_ge k))
         else (g, set_pc k PcEpisodes))
  | PcEpisodes =>
      let v := S (sh_episodes g) in
      (mkSh (sh_counter g) v (sh_stop g) (sh_exn g) (sh_killed g),
       mkWk PcRecheck (wk_gt k) (wk_len k) (wk_r k) (wk_done k) (wk_needs k) (wk_reset k) (wk_success k) v, [])
  | PcRecheck =>
      if (as_steps P <=? wk_gt k) || sh_stop g then (g, set_pc k PcFinish, []) else (g, set_pc k (PcReset false), [])
  | PcException =>
      if (idx =? 0) && sh_exn g
      then (mkSh (sh_counter g) (sh_episodes g) (sh_stop g) (sh_exn g) true, k, [AUser (ESave (wk_gt k) Except)])
      else (g, set_pc k PcAct, [])
  | PcFinish => (g, set_pc k PcSuccess, if wk_gt k =? as_steps P then [AUser (ESave (as_steps P) Finish)] else [])
  | PcSuccess => (g, set_pc k PcDone, if wk_success k then [ASuccessful] else [])
  | PcDone | PcRaised => (g, k, [])
  end.

(** A schedule: which process moves next (and what its user code does), or the user setting one of the two events. *)
Inductive sched := SRun (idx : nat) (c : choice) | SStop | SExn.

Definition state : Type := shared * list worker.

Definition astep (s : state) (x : sched) : state * list (nat * aev) :=
  let (g, ws) := s in
  match x with
  | SRun idx c =>
      match nth_error ws idx with
      | Some k => let '(g', k', es) := wstep idx c g k in ((g', list_set ws idx k'), map (pair idx) es)
      | None => (s, [])
      end
  | SStop => ((mkSh (sh_counter g) (sh_episodes g) true (sh_exn g) (sh_killed g), ws), [])
  | SExn => ((mkSh (sh_counter g) (sh_episodes g) (sh_stop g) true (sh_killed g), ws), [])
  end.

Fixpoint arun (s : state) (xs : list sched) : state * list (nat * aev) :=
  match xs with
  | [] => (s, [])
  | x :: xs => let (s1, t1) := astep s x in let (s2, t2) := arun s1 xs in (s2, t1 ++ t2)
  end.
End Async.

(** 57-63: the local variables at the start of train_loop. *)
Definition worker0 : worker := mkWk (PcReset true) 0 0 0%Q false false false false 0.

(** 146-339: train_agent_async: the counters are created with value 0 whatever [step_offset] is (225-226); [step_offset]
    reaches only the evaluator (261), whose answers are arbitrary here. *)
Definition train_agent_async (processes step_offset : nat) (P : async_args) (xs : list sched) : state * list (nat * aev) :=
  arun P (mkSh 0 0 false false false, repeat worker0 processes) xs.
