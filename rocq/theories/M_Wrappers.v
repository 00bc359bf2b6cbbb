(** Model of pfrl/wrappers (continuing_time_limit.py, normalize_action_space.py, scale_reward.py, randomize_action.py,
    atari_wrappers.py, vector_frame_stack.py) and pfrl/utils/env_modifiers.py. *)
From Coq Require Export QArith.
From Verif Require Import Base.
Close Scope Q_scope.
Open Scope nat_scope.

(** What env.step returns: observation, reward, done and info; [o_needs] is info.get("needs_reset", False), [o_info] the rest. *)
Record out (Ob J : Type) := mkOut { o_obs : Ob; o_rew : Q; o_done : bool; o_needs : bool; o_info : J }.
Arguments mkOut {Ob J}. Arguments o_obs {Ob J}. Arguments o_rew {Ob J}. Arguments o_done {Ob J}. Arguments o_needs {Ob J}. Arguments o_info {Ob J}.

(** A gym environment: [W] is its state; both methods may raise. *)
Record env (W Ob A J : Type) := mkEnv { e_reset : W -> W * result Ob; e_step : A -> W -> W * result (out Ob J) }.
Arguments mkEnv {W Ob A J}. Arguments e_reset {W Ob A J}. Arguments e_step {W Ob A J}.

Inductive cmd (A : Type) := CReset | CStep (a : A).
Arguments CReset {A}. Arguments CStep {A}.
Inductive reply (Ob J : Type) := RReset (o : result Ob) | RStep (o : result (out Ob J)).
Arguments RReset {Ob J}. Arguments RStep {Ob J}.
Definition env_do {W Ob A J} (e : env W Ob A J) (w : W) (c : cmd A) : W * reply Ob J :=
  match c with
  | CReset => let (w, r) := e_reset e w in (w, RReset r)
  | CStep a => let (w, r) := e_step e a w in (w, RStep r)
  end.

(** The same environment, recording the calls it receives and its answers (used to state what a wrapper does to it). *)
Definition logged {W Ob A J} (e : env W Ob A J) : env (W * list (cmd A * reply Ob J)) Ob A J := {|
  e_reset := fun '(w, l) => let (w, r) := e_reset e w in ((w, l ++ [(CReset, RReset r)]), r);
  e_step := fun a '(w, l) => let (w, r) := e_step e a w in ((w, l ++ [(CStep a, RStep r)]), r) |}.

Section Wrappers.
Context {W Ob A J : Type}.

(** continuing_time_limit.py:21-41: the extra state is _elapsed_steps. *)
Definition continuing_time_limit (max_steps : nat) (e : env W Ob A J) : env (W * option nat) Ob A J := {|
  e_step := fun a '(w, el) =>
    match el with
    | None => ((w, el), Err AssertionError)
    | Some n =>
        match e_step e a w with
        | (w, Err x) => ((w, Some n), Err x)
        | (w, Ok o) =>
            let n := S n in
            ((w, Some n), Ok (mkOut (o_obs o) (o_rew o) (o_done o) (if max_steps <=? n then true else o_needs o) (o_info o)))
        end
    end;
  e_reset := fun '(w, _) => let (w, r) := e_reset e w in ((w, Some 0), r) |}.

(** scale_reward.py:85-92 with gym.RewardWrapper.step; the attribute original_reward is the extra state. *)
Definition scale_reward (scale : Q) (e : env W Ob A J) : env (W * option Q) Ob A J := {|
  e_step := fun a '(w, orig) =>
    match e_step e a w with
    | (w, Err x) => ((w, orig), Err x)
    | (w, Ok o) => ((w, Some (o_rew o)), Ok (mkOut (o_obs o) (Qmult scale (o_rew o)) (o_done o) (o_needs o) (o_info o)))
    end;
  e_reset := fun '(w, orig) => let (w, r) := e_reset e w in ((w, orig), r) |}.

(** A gym.RewardWrapper without state. *)
Definition reward_wrapper (f : Q -> Q) (e : env W Ob A J) : env W Ob A J := {|
  e_step := fun a w =>
    match e_step e a w with
    | (w, Err x) => (w, Err x)
    | (w, Ok o) => (w, Ok (mkOut (o_obs o) (f (o_rew o)) (o_done o) (o_needs o) (o_info o)))
    end;
  e_reset := e_reset e |}.
(** np.sign; atari_wrappers.py:149-155. *)
Definition sign (x : Q) : Q := if Qle_bool x 0 then (if Qle_bool 0 x then 0 else -1)%Q else 1%Q.
Definition clip_reward : env W Ob A J -> env W Ob A J := reward_wrapper sign.

(** A gym.ActionWrapper. *)
Definition action_wrapper {A'} (f : A' -> A) (e : env W Ob A J) : env W Ob A' J := {|
  e_step := fun a w => e_step e (f a) w; e_reset := e_reset e |}.

(** randomize_action.py:32-36: [u] is the outcome of rand(), [i] of randint(n). *)
Definition randomize_action (fraction u : Q) (i a : nat) : nat := if negb (Qle_bool fraction u) then i else a.

(** atari_wrappers.py:188-222: FrameStack; the extra state is the deque with maxlen k; a LazyFrames object is the list of its
    frames (their concatenation along an axis is not modelled). *)
Definition push_all (k : nat) (fr : list Ob) (o : Ob) : list Ob := Nat.iter k (fun fr => deque_append (Some k) fr o) fr.
Definition get_ob (k : nat) (fr : list Ob) : result (list Ob) := _ <- passert (length fr =? k) ;; Ok fr.
Definition frame_stack (k : nat) (e : env W Ob A J) : env (W * list Ob) (list Ob) A J := {|
  e_reset := fun '(w, fr) =>
    match e_reset e w with
    | (w, Err x) => ((w, fr), Err x)
    | (w, Ok o) => let fr := push_all k fr o in ((w, fr), get_ob k fr)
    end;
  e_step := fun a '(w, fr) =>
    match e_step e a w with
    | (w, Err x) => ((w, fr), Err x)
    | (w, Ok o) =>
        let fr := deque_append (Some k) fr (o_obs o) in
        ((w, fr), s <- get_ob k fr ;; Ok (mkOut s (o_rew o) (o_done o) (o_needs o) (o_info o)))
    end |}.

(** atari_wrappers.py:78-115: EpisodicLifeEnv; [lives] is unwrapped.ale.lives(); the extra state is lives and
    needs_real_reset; [noop] is action 0. *)
Definition episodic_life (lives : W -> Z) (noop : A) (e : env W Ob A J) : env (W * (Z * bool)) Ob A J := {|
  e_step := fun a '(w, (lv, nrr)) =>
    match e_step e a w with
    | (w, Err x) => ((w, (lv, nrr)), Err x)
    | (w, Ok o) =>
        let lv' := lives w in
        let done := if (lv' <? lv)%Z && (0 <? lv')%Z then true else o_done o in
        ((w, (lv', o_done o || o_needs o)), Ok (mkOut (o_obs o) (o_rew o) done (o_needs o) (o_info o)))
    end;
  e_reset := fun '(w, (lv, nrr)) =>
    if nrr : bool then
      match e_reset e w with
      | (w, Err x) => ((w, (lv, nrr)), Err x)
      | (w, Ok o) => ((w, (lives w, nrr)), Ok o)
      end
    else
      match e_step e noop w with
      | (w, Err x) => ((w, (lv, nrr)), Err x)
      | (w, Ok o) => ((w, (lives w, nrr)), Ok (o_obs o))
      end |}.

(** atari_wrappers.py:35-51: NoopResetEnv.reset; [noops] is the number drawn (or override_num_noops). *)
Fixpoint noop_loop (e : env W Ob A J) (noop : A) (n : nat) (w : W) (obs : option Ob) : W * result Ob :=
  match n with
  | O => (w, match obs with Some o => Ok o | None => Err TypeError end) (* unreachable with None: noops > 0 *)
  | S n =>
      match e_step e noop w with
      | (w, Err x) => (w, Err x)
      | (w, Ok o) =>
          if o_done o || o_needs o then
            match e_reset e w with (w, Err x) => (w, Err x) | (w, Ok o) => noop_loop e noop n w (Some o) end
          else noop_loop e noop n w (Some (o_obs o))
      end
  end.
Definition noop_reset (noops : nat) (noop : A) (e : env W Ob A J) : env W Ob A J := {|
  e_step := e_step e;
  e_reset := fun w =>
    match e_reset e w with
    | (w, Err x) => (w, Err x)
    | (w, Ok _) => if noops =? 0 then (w, Err AssertionError) else noop_loop e noop noops w None
    end |}.

(** atari_wrappers.py:64-75: FireResetEnv. *)
Definition fire_step (e : env W Ob A J) (a : A) (w : W) : W * result Ob :=
  match e_step e a w with
  | (w, Err x) => (w, Err x)
  | (w, Ok o) =>
      if o_done o || o_needs o then match e_reset e w with (w, Err x) => (w, Err x) | (w, Ok _) => (w, Ok (o_obs o)) end
      else (w, Ok (o_obs o))
  end.
Definition fire_reset (one two : A) (e : env W Ob A J) : env W Ob A J := {|
  e_step := e_step e;
  e_reset := fun w =>
    match e_reset e w with
    | (w, Err x) => (w, Err x)
    | (w, Ok _) => match fire_step e one w with (w, Err x) => (w, Err x) | (w, Ok _) => fire_step e two w end
    end |}.

(** env_modifiers.py:21-38: make_timestep_limited; the extra state is the cell t. *)
Definition timestep_limited (limit : nat) (e : env W Ob A J) : env (W * nat) Ob A J := {|
  e_step := fun a '(w, t) =>
    match e_step e a w with
    | (w, Err x) => ((w, t), Err x)
    | (w, Ok o) => ((w, S t), Ok (mkOut (o_obs o) (o_rew o) (if limit <=? t then true else o_done o) (o_needs o) (o_info o)))
    end;
  e_reset := fun '(w, _) => let (w, r) := e_reset e w in ((w, 1), r) |}.

(** env_modifiers.py:65-82: make_action_repeated; with n_times = 0 the name obs is unbound (UnboundLocalError). *)
Fixpoint repeat_loop (e : env W Ob A J) (a : A) (n : nat) (total : Q) (w : W) (last : option (out Ob J)) : W * result (out Ob J) :=
  match n with
  | O => (w, match last with Some o => Ok (mkOut (o_obs o) total (o_done o) (o_needs o) (o_info o)) | None => Err RuntimeError end)
  | S n =>
      match e_step e a w with
      | (w, Err x) => (w, Err x)
      | (w, Ok o) =>
          let total := Qplus total (o_rew o) in
          if o_done o then (w, Ok (mkOut (o_obs o) total (o_done o) (o_needs o) (o_info o)))
          else repeat_loop e a n total w (Some o)
      end
  end.
Definition action_repeated (n : nat) (e : env W Ob A J) : env W Ob A J := {|
  e_step := fun a w => repeat_loop e a n 0%Q w None; e_reset := e_reset e |}.
End Wrappers.

(** atari_wrappers.py:118-146: MaxAndSkipEnv; a frame is the list of its pixels; the extra state is _obs_buffer. *)
Section MaxAndSkip.
Context {W A J : Type}.
Definition pixmax (a b : list Z) : list Z := map (fun '(x, y) => Z.max x y) (combine a b).
(** 130-138: for i in range(skip), with break; [i] counts up, [n] iterations are left. *)
Fixpoint skip_loop (skip : nat) (e : env W (list Z) A J) (a : A) (n i : nat) (total : Q) (buf : list Z * list Z) (w : W) (last : option (out (list Z) J))
  : W * (list Z * list Z) * result (Q * out (list Z) J) :=
  match n with
  | O => (w, buf, match last with Some o => Ok (total, o) | None => Err RuntimeError end) (* skip = 0: info is unbound *)
  | S n =>
      match e_step e a w with
      | (w, Err x) => (w, buf, Err x)
      | (w, Ok o) =>
          let buf := if S (S i) =? skip then (o_obs o, snd buf) else buf in
          let buf := if S i =? skip then (fst buf, o_obs o) else buf in
          let total := Qplus total (o_rew o) in
          if o_done o || o_needs o then (w, buf, Ok (total, o)) else skip_loop skip e a n (S i) total buf w (Some o)
      end
  end.
Definition max_and_skip (skip : nat) (e : env W (list Z) A J) : env (W * (list Z * list Z)) (list Z) A J := {|
  e_step := fun a '(w, buf) =>
    match skip_loop skip e a skip 0 0%Q buf w None with
    | (w, buf, Err x) => ((w, buf), Err x)
    | (w, buf, Ok (total, o)) => ((w, buf), Ok (mkOut (pixmax (fst buf) (snd buf)) total (o_done o) (o_needs o) (o_info o)))
    end;
  e_reset := fun '(w, buf) => let (w, r) := e_reset e w in ((w, buf), r) |}.
End MaxAndSkip.

(** normalize_action_space.py:58-69, elementwise. *)
Definition normalize_action (low high : list Q) (a : list Q) : list Q :=
  map (fun '(l, h, x) => ((x + 1) * ((h - l) / 2) + l)%Q) (combine (combine low high) a).

(** ** vector_frame_stack.py *)
Record venv (W Ob A J : Type) := mkVEnv { v_reset : option (list bool) -> W -> W * result (list Ob); v_step : list A -> W -> W * result (list (out Ob J)) }.
Arguments mkVEnv {W Ob A J}. Arguments v_reset {W Ob A J}. Arguments v_step {W Ob A J}.
Inductive vcmd (A : Type) := VCReset (mask : option (list bool)) | VCStep (a : list A).
Arguments VCReset {A}. Arguments VCStep {A}.
Inductive vreply (Ob J : Type) := VRReset (o : result (list Ob)) | VRStep (o : result (list (out Ob J))).
Arguments VRReset {Ob J}. Arguments VRStep {Ob J}.
Definition venv_do {W Ob A J} (e : venv W Ob A J) (w : W) (c : vcmd A) : W * vreply Ob J :=
  match c with
  | VCReset m => let (w, r) := v_reset e m w in (w, VRReset r)
  | VCStep a => let (w, r) := v_step e a w in (w, VRStep r)
  end.
Section VectorFrameStack.
Context {W Ob A J : Type} (n k : nat) (e : venv W Ob A J). (* n = env.num_envs *)
(** 101-107: _get_ob. *)
Definition vget_ob (frames : list (list Ob)) : result (list (list Ob)) :=
  _ <- passert (length frames =? n) ;;
  match frames with
  | [] => Err IndexError
  | f :: _ => _ <- passert (length f =? k) ;; Ok frames
  end.
(** 84-92: zip(mask, self.frames, batch_ob). *)
Fixpoint vpush (mask : list bool) (frames : list (list Ob)) (obs : list Ob) : list (list Ob) :=
  match mask, frames, obs with
  | m :: mask, f :: frames, o :: obs => (if m : bool then f else push_all k f o) :: vpush mask frames obs
  | _, _, _ => frames
  end.
(** 94-98: zip(self.frames, batch_ob). *)
Fixpoint vappend (frames : list (list Ob)) (obs : list Ob) : list (list Ob) :=
  match frames, obs with
  | f :: frames, o :: obs => deque_append (Some k) f o :: vappend frames obs
  | _, _ => frames
  end.
Definition vector_frame_stack : venv (W * list (list Ob)) (list Ob) A J := {|
  v_reset := fun mask '(w, fr) =>
    match v_reset e mask w with
    | (w, Err x) => ((w, fr), Err x)
    | (w, Ok obs) => let fr := vpush (match mask with None => repeat false n | Some m => m end) fr obs in ((w, fr), vget_ob fr)
    end;
  v_step := fun a '(w, fr) =>
    match v_step e a w with
    | (w, Err x) => ((w, fr), Err x)
    | (w, Ok outs) =>
        let fr := vappend fr (map o_obs outs) in
        ((w, fr), s <- vget_ob fr ;; Ok (map (fun '(s, o) => mkOut s (o_rew o) (o_done o) (o_needs o) (o_info o)) (combine s outs)))
    end |}.
End VectorFrameStack.
