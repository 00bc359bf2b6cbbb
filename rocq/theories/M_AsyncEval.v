(** Model of pfrl/experiments/evaluator.py: AsyncEvaluator (524-662), called by several processes under any schedule. *)
From Verif Require Import Base M_Train M_Evaluator.
Open Scope nat_scope.

(** Where a process stands inside evaluate_if_necessary. *)
Inductive epc :=
| EIdle                                  (* not inside a call *)
| ECheck (t ep : nat)                    (* 652-655: with self.prev_eval_t.get_lock() *)
| EHeader (t ep : nat)                   (* 657-660: with self.wrote_header.get_lock() *)
| EScore (t ep : nat)                    (* 591-603: eval_performance, outside any lock *)
| ERecord (t ep : nat) (m : Q)           (* 623: record_stats *)
| EHooks (t ep : nat) (m : Q)            (* 628-638: evaluation hooks *)
| EMax (t ep : nat) (m : Q).             (* 640-647: with self._max_score.get_lock() *)

Inductive line := Header | Row (t ep : nat) (m : Q).

(** Shared between the processes: prev_eval_t, _max_score (a C float), wrote_header, and the file scores.txt. *)
Record ashared := mkASh { ash_prev : nat; ash_max : Q; ash_header : bool; ash_file : list line }.

(** Recorded: a call that evaluates (with the start of its interval slot), a call that returns None, writing the header,
    appending a row, updating the maximum ([best]: the agent was saved), a call left by an exception. *)
Inductive eev :=
| GGrant (t slot : nat) | GSkip (t : nat) | GHeader | GRow (t ep : nat) (m : Q) | GMax (m : Q) (best : bool) | GRaise.

Inductive esched := XCall (idx t ep : nat) | XMove (idx : nat) (out : result Q).

Section AsyncEval.
(** [round] is the conversion of a Python float to the C float stored in mp.Value("f"). *)
Context (round : Q -> Q) (P : evargs).

(** 571-575. *)
Definition async_init (file : list line) : result ashared :=
  if ev_interval P =? 0 then Err ZeroDivisionError
  else Ok (mkASh (ev_offset P - ev_offset P mod ev_interval P) float32_min false file).

(** One step of one process; [out] is what user code does here: raise, or (EScore) the mean of the scores.  write_header
    truncates the file before it can raise (386). *)
Definition emove (out : result Q) (g : ashared) (p : epc) : ashared * epc * list eev :=
  match p with
  | EIdle => (g, EIdle, [])
  | ECheck t ep =>
      if ash_prev g + ev_interval P <=? t
      then (mkASh (ash_prev g + ev_interval P) (ash_max g) (ash_header g) (ash_file g), EHeader t ep, [GGrant t (ash_prev g)])
      else (g, EIdle, [GSkip t])
  | EHeader t ep =>
      if ash_header g then (g, EScore t ep, [])
      else match out with
           | Ok _ => (mkASh (ash_prev g) (ash_max g) true [Header], EScore t ep, [GHeader])
           | Err _ => (mkASh (ash_prev g) (ash_max g) false [], EIdle, [GRaise])
           end
  | EScore t ep => match out with Ok m => (g, ERecord t ep m, []) | Err _ => (g, EIdle, [GRaise]) end
  | ERecord t ep m => (mkASh (ash_prev g) (ash_max g) (ash_header g) (ash_file g ++ [Row t ep m]), EHooks t ep m, [GRow t ep m])
  | EHooks t ep m => match out with Ok _ => (g, EMax t ep m, []) | Err _ => (g, EIdle, [GRaise]) end
  | EMax t ep m =>
      if negb (Qle_bool m (ash_max g))
      then (mkASh (ash_prev g) (round m) (ash_header g) (ash_file g), EIdle, [GMax m true])
      else (g, EIdle, [GMax m false])
  end.

Definition estate : Type := ashared * list epc.
Definition estep (s : estate) (x : esched) : estate * list (nat * eev) :=
  let (g, ps) := s in
  match x with
  | XCall idx t ep =>
      match nth_error ps idx with Some EIdle => ((g, list_set ps idx (ECheck t ep)), []) | _ => (s, []) end
  | XMove idx out =>
      match nth_error ps idx with
      | Some p => let '(g, p, es) := emove out g p in ((g, list_set ps idx p), map (pair idx) es)
      | None => (s, [])
      end
  end.
Fixpoint erun (s : estate) (xs : list esched) : estate * list (nat * eev) :=
  match xs with
  | [] => (s, [])
  | x :: xs => let (s1, t1) := estep s x in let (s2, t2) := erun s1 xs in (s2, t1 ++ t2)
  end.
End AsyncEval.
