(** Model of a whole training run in a vector environment: pfrl/experiments/train_agent_batch.py:10-141 (M_Train) around a vector environment (M_VectorEnv: SerialVectorEnv, to which
    MultiprocessVectorEnv is equivalent by C24) and any agent with batch_act and batch_observe.

    Simplifications.  The environments do not raise; the agent, the hooks and the evaluator may.  Hooks and the evaluator do not touch the training environments. *)
From Coq Require Import QArith.
From Verif Require Import Base M_Train M_VectorEnv.
Close Scope Q_scope. Open Scope nat_scope.

Section Vec.
Context {E Ob Ac Sd V S X : Type}.

(** The record of the calls an environment gets: reset with what it returned; step with the action, the observation, and (reward, done, info's needs_reset). *)
Inductive lcall := LReset (o : Ob) | LStep (a : Ac) (o : Ob) (x : Q * bool * bool).
Definition recorded (G : genv E Ob Ac (Q * bool * bool) Sd V) : genv (E * list lcall) Ob Ac (Q * bool * bool) Sd V := {|
  g_reset := fun w => let (v, o) := g_reset G (fst w) in ((v, snd w ++ [LReset o]), o);
  g_step := fun a w => let (v, r) := g_step G a (fst w) in ((v, snd w ++ [LStep a (fst r) (snd r)]), r);
  g_seed := fun s w => let (v, r) := g_seed G s (fst w) in ((v, snd w), r);
  g_close := fun w => (g_close G (fst w), snd w) |}.
(** The record of the calls the agent gets. *)
Inductive acall := CAct (obss : list Ob) (actions : list Ac) | CObserve (obss : list Ob) (rs : list Q) (dones resets : list bool).

Context (G : genv E Ob Ac (Q * bool * bool) Sd V).
Context (act : list Ob -> S -> S * result (list Ac)) (observe : list Ob -> list Q -> list bool -> list bool -> S -> S * result unit) (set_t : nat -> S -> S).
Context (hooks : list (nat -> S -> S * result unit)) (evaluate : option (nat -> nat -> S * X -> (S * X) * result (option Q))) (best : X -> Q).

(** The vector environment with its environments' records, the agent, its record, the evaluator. *)
Record vworld := mkVW { vw_envs : @sstate (E * list lcall) Ob; vw_agent : S; vw_calls : list acall; vw_eval : X }.
Definition with_envs (w : vworld) v := mkVW v (vw_agent w) (vw_calls w) (vw_eval w).

(** The observations given to the agent; None (last_obs of an environment that has never been reset) does not occur after the first reset. *)
Fixpoint all_some (l : list (option Ob)) : result (list Ob) :=
  match l with [] => Ok [] | Some o :: l => os <- all_some l ;; Ok (o :: os) | None :: _ => Err TypeError end.
Definition vuser (n : nat) : buserland vworld Ob Ac := {|
  num_envs := n;
  benv_reset := fun mask w => let (v, r) := serial_do (recorded G) (vw_envs w) (KReset mask) in (with_envs w v, x <- r ;; match x with AObs l => all_some l | _ => Err TypeError end);
  batch_act := fun obss w => let (s, r) := act obss (vw_agent w) in
    (mkVW (vw_envs w) s (vw_calls w ++ match r with Ok actions => [CAct obss actions] | Err _ => [] end) (vw_eval w), r);
  benv_step := fun actions w => let (v, r) := serial_do (recorded G) (vw_envs w) (KStep actions) in
    (with_envs w v, x <- r ;; match x with AOuts l => Ok (map (fun u => (fst u, fst (fst (snd u)), snd (fst (snd u)), snd (snd u))) l) | _ => Err TypeError end);
  batch_observe := fun obss rs dones resets w => let (s, r) := observe obss rs dones resets (vw_agent w) in
    (mkVW (vw_envs w) s (vw_calls w ++ [CObserve obss rs dones resets]) (vw_eval w), r);
  bstep_hooks := map (fun (h : nat -> S -> S * result unit) t w => let (s, r) := h t (vw_agent w) in (mkVW (vw_envs w) s (vw_calls w) (vw_eval w), r)) hooks;
  bevaluator := match evaluate with
                | Some f => Some (fun t episodes w => let '((s, x), r) := f t episodes (vw_agent w, vw_eval w) in (mkVW (vw_envs w) s (vw_calls w) x, r))
                | None => None
                end;
  bmax_score := fun w => best (vw_eval w);
  bagent_has_t := true |}.

(** One call of train_agent_batch with a vector environment of these environments ([last]: its last_obs) and this agent; train_agent_batch.py:59-60: agent.t = step_offset (M_Train only
    records it; nothing before it looks at agent.t).  Recording begins with the call. *)
Definition vtrain (P : train_args) (envs : list E) (last : list (option Ob)) (s : S) (x : X) : vworld * result (list Q) :=
  let '(w, _, r) := train_agent_batch (vuser (length envs)) P (mkVW (map (fun v => (v, [])) envs, last) (set_t (a_offset P) s) [] x, 0) in (fst w, r).
End Vec.
Arguments lcall : clear implicits. Arguments acall : clear implicits. Arguments vworld : clear implicits.
