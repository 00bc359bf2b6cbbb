(** What an evaluation should be: the same loop with an agent that has nothing but the parameters, and remembers nothing of an environment when it is reset. *)
From Coq Require Import QArith.
From Verif Require Import Base M_Train M_Evaluator M_RecDQN M_EvalRec.
Close Scope Q_scope. Open Scope nat_scope.

Section Ideal.
Context {V Ob Ac Y H Pm R : Type} (cell : Pm -> Ob -> H -> Y * H) (zero : H) (pick : R -> nat -> Y -> Ac).
(** One environment: the state of the world and what the agent remembers. *)
Definition ideal1 (p : Pm) (E : world1 V Ob Ac R) : userland (V * H) Ob Ac := {|
  env_reset := fun w => let (v, o) := w_reset E (fst w) in ((v, zero), o);
  agent_act := fun obs w => let (y, h) := cell p obs (snd w) in ((fst w, h), Ok (pick (w_chance E (fst w)) 0 y));
  env_step := fun a w => let (v, y) := w_step E a (fst w) in ((v, snd w), y);
  agent_observe := fun _ _ _ _ w => (w, Ok tt);
  step_hooks := []; evaluator := None; max_score := fun _ => 0%Q; agent_has_t := false |}.
(** Several: what is remembered of each of them. *)
Definition idealn (p : Pm) (E : worldn V Ob Ac R) : buserland (V * list H) Ob Ac := {|
  num_envs := wn_num E;
  benv_reset := fun mask w =>
    let (v, o) := wn_reset E mask (fst w) in
    ((v, match mask with None => repeat zero (wn_num E) | Some m => map (fun '(goes_on, h) => if goes_on : bool then h else zero) (combine m (snd w)) end), o);
  M_Train.batch_act := fun obss w =>
    let out := map (fun '(o, h) => cell p o h) (combine obss (snd w)) in
    ((fst w, map snd out), Ok (map (fun '(i, y) => pick (wn_chance E (fst w)) i (fst y)) (combine (seq 0 (length out)) out)));
  benv_step := fun a w => let (v, y) := wn_step E a (fst w) in ((v, snd w), y);
  M_Train.batch_observe := fun _ _ _ _ w => (w, Ok tt);
  bstep_hooks := []; bevaluator := None; bmax_score := fun _ => 0%Q; bagent_has_t := false |}.
(** How the evaluation of the parameters p ends. *)
Definition ideal (p : Pm) (e : evaluation V Ob Ac R) : V * result (list (Q * nat)) :=
  match e with
  | Single E M l fuel v => let '(w, _, r) := run_episodes (ideal1 p E) M l fuel ((v, zero), 0) in (fst (fst w), r)
  | Vector E M l fuel v => let '(w, _, r) := batch_run_episodes (idealn p E) M l fuel ((v, []), 0) in (fst (fst w), r)
  end.
End Ideal.
(** n environments, and every step and reset has n results. *)
Definition vector_of {V Ob Ac R} (n : nat) (E : worldn V Ob Ac R) : Prop :=
  wn_num E = n /\ (forall m v v' l, wn_reset E m v = (v', Ok l) -> length l = n) /\ (forall a v v' l, wn_step E a v = (v', Ok l) -> length l = n).
(** Evaluations that end with the end of an episode, or that tell the agent; all with the same number of environments. *)
Definition ends_properly {V Ob Ac R} (n : nat) (e : evaluation V Ob Ac R) : Prop :=
  match e with
  | Single _ (NEpisodes k) _ _ _ => n = 1 /\ 1 <= k
  | Single _ (NSteps _) _ _ _ => False
  | Vector E _ _ _ _ => vector_of n E
  end.
