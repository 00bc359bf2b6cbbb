(** Model of tensorboard logging of evaluations: pfrl/experiments/evaluator.py:336-366 (record_tb_stats, record_tb_stats_loop), 626-627 (the put of AsyncEvaluator), 664-674 (start and join of
    the writer), and of how pfrl/experiments/train_agent_async.py:106, 266-267, 321-328 and pfrl/utils/async_.py:12-43 use them.
    A multiprocessing.Queue is modelled as it is documented: put appends to a buffer of the process, a feeder thread moves the buffer to a pipe in order, a process ends only when its buffer is
    empty, empty() looks at the pipe.  The pipe has no limit.  Processes that end abnormally are not modelled.  create_tb_writer (the layout of the charts) and times are left out. *)
From Coq Require Import String QArith Reals Qreals.
From Verif Require Import Base M_Scores.
Close Scope Q_scope. Open Scope nat_scope.

(** One call of add_scalar: tag, value, step. *)
Definition scalar := (text * R * nat)%type.
(** What is put into the queue: agent_stats, eval_stats, env_stats, t (627). *)
Record item := mkItem { i_agent : list (text * R); i_eval : stats; i_env : list (text * R); i_t : nat }.
(** 336-354 *)
Definition record_tb_stats (i : item) : list scalar :=
  map (fun nv => (text_of "agent/" ++ fst nv, snd nv, i_t i)) (i_agent i) ++
  map (fun nv => (text_of "env/" ++ fst nv, snd nv, i_t i)) (i_env i) ++
  map (fun nv => (text_of "eval/" ++ fst nv, snd nv, i_t i))
    [(text_of "mean", Q2R (st_mean (i_eval i))); (text_of "median", Q2R (st_median (i_eval i))); (text_of "max", Q2R (st_max (i_eval i))); (text_of "min", Q2R (st_min (i_eval i))); (text_of "stdev", st_stdev (i_eval i))] ++
  [(text_of "extras/meanplusstdev", Q2R (st_mean (i_eval i)) + st_stdev (i_eval i), i_t i)%R] ++
  [(text_of "extras/meanminusstdev", Q2R (st_mean (i_eval i)) - st_stdev (i_eval i), i_t i)%R].

(** Where the writer thread (360-366) is: about to read the event (363), about to ask whether the queue is empty after the event was seen set (363), about to ask at 364, about to get (365), ended. *)
Inductive place := AtEvent | AtEmpty | AtQueue | AtGet | Ended.
Inductive main_place := Waiting | Joining | Returned.
Record state := mkState {
  workers : list (list item * bool);   (* buffer not yet in the pipe; has the process ended? *)
  pipe : list (nat * item);            (* with the process that put it *)
  thread : place;
  written : list (nat * item);         (* recorded by the thread, in order *)
  stop : bool;                         (* stop_event *)
  main : main_place }.
Definition start (n : nat) : state := mkState (repeat ([], false) n) [] AtEvent [] false Waiting.

(** One atomic action of some process or thread. *)
Inductive action :=
| Put (w : nat) (i : item)    (* 627, by process w *)
| Feed (w : nat)              (* the feeder thread of process w moves one item *)
| End (w : nat)               (* run_func has returned and the buffer is flushed *)
| SetStop                     (* train_agent_async.py:106, or the caller's stop_event *)
| Thread                      (* one step of the writer thread *)
| Main.                       (* run_async returns and the event is set (321-323); join (326) *)

Fixpoint update {X} (l : list X) (n : nat) (x : X) : list X :=
  match l, n with [], _ => [] | _ :: t, 0 => x :: t | y :: t, S n => y :: update t n x end.
(** What the action does; None if it is not possible in the state. *)
Definition step (s : state) (a : action) : option state :=
  match a with
  | Put w i => match nth_error (workers s) w with
      | Some (b, false) => Some (mkState (update (workers s) w (b ++ [i], false)) (pipe s) (thread s) (written s) (stop s) (main s))
      | _ => None end
  | Feed w => match nth_error (workers s) w with
      | Some (i :: b, e) => Some (mkState (update (workers s) w (b, e)) (pipe s ++ [(w, i)]) (thread s) (written s) (stop s) (main s))
      | _ => None end
  | End w => match nth_error (workers s) w with
      | Some ([], false) => Some (mkState (update (workers s) w ([], true)) (pipe s) (thread s) (written s) (stop s) (main s))
      | _ => None end
  | SetStop => Some (mkState (workers s) (pipe s) (thread s) (written s) true (main s))
  | Thread => match thread s with
      | AtEvent => Some (mkState (workers s) (pipe s) (if stop s then AtEmpty else AtQueue) (written s) (stop s) (main s))
      | AtEmpty => Some (mkState (workers s) (pipe s) (match pipe s with [] => Ended | _ => AtQueue end) (written s) (stop s) (main s))
      | AtQueue => Some (mkState (workers s) (pipe s) (match pipe s with [] => AtEvent | _ => AtGet end) (written s) (stop s) (main s))
      | AtGet => match pipe s with
          | i :: p => Some (mkState (workers s) p AtEvent (written s ++ [i]) (stop s) (main s))
          | [] => None end
      | Ended => None end
  | Main => match main s with
      | Waiting => if forallb snd (workers s) then Some (mkState (workers s) (pipe s) (thread s) (written s) true Joining) else None
      | Joining => match thread s with Ended => Some (mkState (workers s) (pipe s) (thread s) (written s) (stop s) Returned) | _ => None end
      | Returned => None end
  end.
Fixpoint run (s : state) (l : list action) : option state := match l with [] => Some s | a :: l => match step s a with Some s' => run s' l | None => None end end.
(** What tensorboard shows. *)
Definition scalars (s : state) : list scalar := concat (map (fun wi => record_tb_stats (snd wi)) (written s)).
