(** Model of the statistics of pfrl/wrappers/monitor.py:69-113 (_StatsRecorder) on top of gym's StatsRecorder, whose source is not in the repository and is modelled from its release 0.21
    (before_step, after_step, after_reset, save_complete, close, with autoreset=False, which Monitor._start enforces, 43-47 and 58-63).  Monitor calls before_step and after_step around
    each step and before_reset and after_reset around each reset.  Videos, time stamps and episode types are left out. *)
From Coq Require Import QArith.
From Verif Require Import Base.
Close Scope Q_scope. Open Scope nat_scope.

Record recorder := mkRec {
  steps : option nat; rewards : Q; done : option bool; closed : bool;
  save_completed : bool;                 (* _save_completed *)
  episode_lengths : list nat; episode_rewards : list Q }.
(** 76-87 *)
Definition initial : recorder := mkRec None 0%Q None false true [] [].

(** gym: if self.steps is not None, append steps and rewards; 105-108: only if not done since the last step *)
Definition gym_save_complete (s : recorder) : recorder :=
  match steps s with
  | None => s
  | Some n => mkRec (steps s) (rewards s) (done s) (closed s) (save_completed s) (episode_lengths s ++ [n]) (episode_rewards s ++ [rewards s])
  end.
Definition with_completed (b : bool) (s : recorder) : recorder := mkRec (steps s) (rewards s) (done s) (closed s) b (episode_lengths s) (episode_rewards s).
Definition save_complete (s : recorder) : recorder := if save_completed s then s else with_completed true (gym_save_complete s).
(** 89-101; then gym's after_reset *)
Definition before_reset (s : recorder) : result recorder :=
  _ <- passert (negb (closed s)) ;;
  s <- (match done s with
        | Some false => match steps s with None => Err TypeError (* None > 0 *) | Some n => Ok (if 0 <? n then save_complete s else s) end
        | _ => Ok s end) ;;
  Ok (mkRec (steps s) (rewards s) (Some false) (closed s) (save_completed s) (episode_lengths s) (episode_rewards s)).
Definition after_reset (s : recorder) : recorder := mkRec (Some 0) 0%Q (done s) (closed s) (save_completed s) (episode_lengths s) (episode_rewards s).
(** gym's before_step: ResetNeeded (here RuntimeError) if the episode is over or none has begun *)
Definition before_step (s : recorder) : result recorder :=
  _ <- passert (negb (closed s)) ;;
  match done s with Some true => Err RuntimeError | _ => match steps s with None => Err RuntimeError | Some _ => Ok s end end.
(** 103-105; gym's after_step *)
Definition after_step (r : Q) (d : bool) (s : recorder) : result recorder :=
  let s := with_completed false s in
  match steps s with
  | None => Err TypeError
  | Some n => let s := mkRec (Some (S n)) (rewards s + r)%Q (Some d) (closed s) (save_completed s) (episode_lengths s) (episode_rewards s) in Ok (if d then save_complete s else s)
  end.
(** 112-114 *)
Definition close (s : recorder) : recorder := let s := save_complete s in mkRec (steps s) (rewards s) (done s) true (save_completed s) (episode_lengths s) (episode_rewards s).

(** What is done with the environment: a reset, or a step that pays a reward and says whether the episode is over. *)
Inductive call := Reset | Step (r : Q) (d : bool).
Definition on_call (s : recorder) (c : call) : result recorder :=
  match c with
  | Reset => s <- before_reset s ;; Ok (after_reset s)
  | Step r d => s <- before_step s ;; after_step r d s
  end.
Fixpoint on_calls (s : recorder) (l : list call) : result recorder := match l with [] => Ok s | c :: l => s <- on_call s c ;; on_calls s l end.
