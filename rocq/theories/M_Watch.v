(** Model of the wrappers and modifiers that only look at an environment or filter what passes through it: pfrl/wrappers/render.py, pfrl/wrappers/cast_observation.py and
    pfrl/utils/env_modifiers.py:4-18 and 41-62.
    Environments are those of M_Wrappers.  Simplification: render() reads the state of the environment and does not change it; what it shows is appended to a display.  Only the
    calls of render made by the wrapper are on the display. *)
From Verif Require Import Base M_Wrappers.
Close Scope Q_scope. Open Scope nat_scope.

Section Watch.
Context {W Ob A J P : Type}.
(** render: the picture of the present state, or an exception. *)
Variable pic : W -> result P.

(** One call of render: an exception replaces what was to be returned. *)
Definition rendering {T} (w : W) (d : list P) (ret : T) : (W * list P) * result T :=
  match pic w with
  | Ok p => ((w, d ++ [p]), Ok ret)
  | Err x => ((w, d), Err x)
  end.
(** render.py:16-24. *)
Definition render (e : env W Ob A J) : env (W * list P) Ob A J := {|
  e_reset := fun '(w, d) => match e_reset e w with (w, Err x) => ((w, d), Err x) | (w, Ok o) => rendering w d o end;
  e_step := fun a '(w, d) => match e_step e a w with (w, Err x) => ((w, d), Err x) | (w, Ok o) => rendering w d o end |}.
(** env_modifiers.py:8-11 and 17: only step is replaced. *)
Definition make_rendered (e : env W Ob A J) : env (W * list P) Ob A J := {|
  e_reset := fun '(w, d) => let (w, r) := e_reset e w in ((w, d), r);
  e_step := fun a '(w, d) => match e_step e a w with (w, Err x) => ((w, d), Err x) | (w, Ok o) => rendering w d o end |}.
(** env_modifiers.py:13-15: [closing] is render(close=True), [base] the close of the environment. *)
Definition close_rendered (closing : W -> result unit) (base : W -> W * result unit) (w : W) : W * result unit :=
  match closing w with
  | Err x => (w, Err x)
  | Ok _ => base w
  end.
End Watch.

(** cast_observation.py:16-22 with gym.ObservationWrapper's reset and step: [cast] is astype, the extra state is the attribute original_observation. *)
Definition cast_observation {W Ob Ob' A J} (cast : Ob -> Ob') (e : env W Ob A J) : env (W * option Ob) Ob' A J := {|
  e_reset := fun '(w, orig) => match e_reset e w with (w, Err x) => ((w, orig), Err x) | (w, Ok o) => ((w, Some o), Ok (cast o)) end;
  e_step := fun a '(w, orig) =>
    match e_step e a w with
    | (w, Err x) => ((w, orig), Err x)
    | (w, Ok o) => ((w, Some (o_obs o)), Ok (mkOut (cast (o_obs o)) (o_rew o) (o_done o) (o_needs o) (o_info o)))
    end |}.

(** env_modifiers.py:41-47. *)
Definition make_action_filtered {W Ob A A' J} (filter : A' -> A) (e : env W Ob A J) : env W Ob A' J := {|
  e_reset := e_reset e;
  e_step := fun a w => e_step e (filter a) w |}.
(** env_modifiers.py:50-58. *)
Definition make_reward_filtered {W Ob A J} (filter : Q -> Q) (e : env W Ob A J) : env W Ob A J := {|
  e_reset := e_reset e;
  e_step := fun a w =>
    match e_step e a w with
    | (w, Err x) => (w, Err x)
    | (w, Ok o) => (w, Ok (mkOut (o_obs o) (filter (o_rew o)) (o_done o) (o_needs o) (o_info o)))
    end |}.
(** np.clip: the maximum with low, then the minimum with high. *)
Definition np_clip (low high x : Q) : Q := let y := if Qle_bool x low then low else x in if Qle_bool high y then high else y.
(** env_modifiers.py:61-62. *)
Definition make_reward_clipped {W Ob A J} (low high : Q) (e : env W Ob A J) : env W Ob A J := make_reward_filtered (np_clip low high) e.
