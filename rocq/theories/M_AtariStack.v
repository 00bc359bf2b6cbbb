(** The Atari environment put together by make_atari and wrap_deepmind (pfrl/wrappers/atari_wrappers.py:288-325), from the models of the wrappers in M_Wrappers. *)
From Verif Require Import Base M_Wrappers.

(** A wrapper that is left out; its state is carried along unused, so that all variants have the same type. *)
Definition without {W Ob A J} (X : Type) (e : env W Ob A J) : env (W * X) Ob A J := {|
  e_reset := fun '(w, x) => let (w, r) := e_reset e w in ((w, x), r);
  e_step := fun a '(w, x) => let (w, r) := e_step e a w in ((w, x), r) |}.
(** gym.ObservationWrapper; [f] may draw random numbers from the environment. *)
Definition observation_wrapper {W Ob Ob' A J} (f : W -> Ob -> W * Ob') (e : env W Ob A J) : env W Ob' A J := {|
  e_reset := fun w => match e_reset e w with (w, Err x) => (w, Err x) | (w, Ok o) => let (w, o) := f w o in (w, Ok o) end;
  e_step := fun a w =>
    match e_step e a w with
    | (w, Err x) => (w, Err x)
    | (w, Ok o) => let (w, ob) := f w (o_obs o) in (w, Ok (mkOut ob (o_rew o) (o_done o) (o_needs o) (o_info o)))
    end |}.
(** NoopResetEnv.reset, atari_wrappers.py:35-51: the number of no-ops is drawn from the generator of the environment: [draw] yields any number, of which integers(1, noop_max + 1)
    makes one between 1 and noop_max. *)
Definition noop_reset_drawn {W Ob A J} (draw : W -> nat * W) (noop_max : nat) (noop : A) (e : env W Ob A J) : env W Ob A J := {|
  e_step := e_step e;
  e_reset := fun w =>
    match e_reset e w with
    | (w, Err x) => (w, Err x)
    | (w, Ok _) => let (k, w) := draw w in noop_loop e noop (1 + k mod noop_max) w None
    end |}.

(** make_atari (288-298); [raw] is the game without gym's own time limit, [max_frames] = 0 stands for no limit. *)
Definition make_atari {W J} (draw : W -> nat * W) (max_frames : nat) (raw : env W (list Z) nat J) : env ((W * option nat) * (list Z * list Z)) (list Z) nat J :=
  let e := if max_frames =? 0 then without (option nat) raw else continuing_time_limit max_frames raw in
  let e := noop_reset_drawn (fun '(w, n) => let (k, w) := draw w in (k, (w, n))) 30 0 e in
  max_and_skip 4 e.

Record options := mkOptions { o_episode_life : bool; o_clip_rewards : bool; o_frame_stack : bool; o_scale : bool; o_fire_reset : bool; o_flicker : bool }.
(** ScaledFloatFrame.observation 245-248 *)
Definition scaled (f : list Q) : list Q := map (fun x => Qdiv x (inject_Z 255)) f.
(** FlickerFrame.observation 281-285 *)
Definition flickered {W} (flip : W -> bool * W) (w : W) (f : list Q) : W * list Q := let (b, w) := flip w in (w, if b : bool then map (fun _ => 0%Q) f else f).
(** wrap_deepmind (301-325).  [has_fire]: "FIRE" is among the meanings of actions; [warp] is the grey scale and resizing of WarpFrame (180-185); an observation is the list of
    its frames, a single one without frame_stack. *)
Definition wrap_deepmind {S J} (o : options) (has_fire : bool) (lives : S -> Z) (flip : S -> bool * S) (warp : list Z -> list Q) (e : env S (list Z) nat J)
  : env ((S * (Z * bool)) * list (list Q)) (list (list Q)) nat J :=
  let e := if o_episode_life o then episodic_life lives 0 e else without (Z * bool) e in
  let e := if o_fire_reset o && has_fire then fire_reset 1 2 e else e in
  let e := observation_wrapper (fun w f => (w, warp f)) e in
  let e := if o_scale o then observation_wrapper (fun w f => (w, scaled f)) e else e in
  let e := if o_clip_rewards o then clip_reward e else e in
  let e := if o_flicker o then observation_wrapper (flickered (fun '(w, x) => let (b, w) := flip w in (b, (w, x)))) e else e in
  if o_frame_stack o then frame_stack 4 e else observation_wrapper (fun w f => (w, [f])) (without (list (list Q)) e).

(** The state of new wrappers around a game in state [w]; [zero] is the black frame of MaxAndSkipEnv. *)
Definition fresh {W} (zero : list Z) (w : W) : (((W * option nat) * (list Z * list Z)) * (Z * bool)) * list (list Q) := ((((w, None), (zero, zero)), (0%Z, true)), []).
(** Both, around a game whose random numbers and lives are given. *)
Definition atari {W J} (o : options) (max_frames : nat) (has_fire : bool) (lives : W -> Z) (draw : W -> nat * W) (flip : W -> bool * W) (warp : list Z -> list Q) (raw : env W (list Z) nat J) :=
  wrap_deepmind o has_fire (fun s : (W * option nat) * (list Z * list Z) => lives (fst (fst s))) (fun '((w, n), b) => let (x, w) := flip w in (x, ((w, n), b))) warp (make_atari draw max_frames raw).

(** How an agent is trained (pfrl/experiments/train_agent.py:40-74): reset, then steps, and a reset after every step that says done or needs_reset; an exception ends it. *)
Fixpoint play {S Ob A J} (e : env S Ob A J) (acts : list A) (s : S) : S :=
  match acts with
  | [] => s
  | a :: acts =>
      match e_step e a s with
      | (s, Err _) => s
      | (s, Ok o) => if o_done o || o_needs o then match e_reset e s with (s, Err _) => s | (s, Ok _) => play e acts s end else play e acts s
      end
  end.
Definition trained {S Ob A J} (e : env S Ob A J) (acts : list A) (s : S) : S := match e_reset e s with (s, Err _) => s | (s, Ok _) => play e acts s end.
