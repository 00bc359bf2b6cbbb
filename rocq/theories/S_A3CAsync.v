(** Specification for C125 and C126, in terms of the record of an asynchronous A3C run: what the environments returned and the calls to the agents. *)
From Coq Require Import QArith.
From Verif Require Import Base M_Async M_A3C M_A3CAsync.
Open Scope nat_scope.

Section Spec.
Context {Ob Act Pm RS : Type}.
Notation trace := (list (nat * cev Ob Act Pm RS)).
Notation updates := (list (nat * upd Ob Act Pm RS)).

(** What the agent of process [i] was called with, and what it let out. *)
Definition calls_of (i : nat) (tr : trace) : list (ev Ob Act Pm) :=
  flat_map (fun x => match snd x with AgentCall e _ => if fst x =? i then [e] else [] | EnvGave _ _ => [] end) tr.
Definition outs_of (i : nat) (tr : trace) : list (out Ob Act Pm RS) :=
  flat_map (fun x => match snd x with AgentCall _ o => if fst x =? i then [o] else [] | EnvGave _ _ => [] end) tr.

(** What the environment of process [i] returned, in order. *)
Definition gave (i : nat) (tr : trace) : list (Ob * option (Q * bool * bool)) :=
  flat_map (fun x => match snd x with EnvGave o r => if fst x =? i then [(o, r)] else [] | AgentCall _ _ => [] end) tr.
(** ... the last time, if there was one. *)
Definition last_gave (i : nat) (tr : trace) : option (Ob * option (Q * bool * bool)) := nth_error (rev (gave i tr)) 0.
(** The number of steps since the last reset. *)
Definition episode_len (i : nat) (tr : trace) : nat := fold_left (fun n x => match snd x with Some _ => S n | None => 0 end) (gave i tr) 0.
(** Whether the agent of process [i] is in training mode. *)
Definition in_training (i : nat) (tr : trace) : bool := fold_left (fun b e => match e with SetTraining b' => b' | _ => b end) (calls_of i tr) true.

(** The updates made by all processes, in the order in which they were made, with the process. *)
Definition updates_of (tr : trace) : updates :=
  flat_map (fun x => match snd x with AgentCall _ (Updated u) => [(fst x, u)] | _ => [] end) tr.

(** The parameters after some updates: each optimizer step starts from what the one before left. *)
Definition params_after (opt : Pm -> upd Ob Act Pm RS -> Pm) (p0 : Pm) (us : updates) : Pm := fold_left (fun p u => opt p (snd u)) us p0.

Definition has_updated (i : nat) (us : updates) : bool := existsb (fun v => fst v =? i) us.
(** The updates up to the last one of process [i]. *)
Fixpoint through_last (i : nat) (us : updates) : updates :=
  match us with
  | [] => []
  | u :: us => if has_updated i (u :: us) then u :: through_last i us else []
  end.

(** The parameters that process [i] should act with: the shared parameters right after its last update, and before its first update those its
    network was created with, [own]. *)
Definition acting_params (opt : Pm -> upd Ob Act Pm RS -> Pm) (p0 own : Pm) (i : nat) (us : updates) : Pm :=
  if has_updated i us then params_after opt p0 (through_last i us) else own.

(** The number of steps learned from by process [i], and by all. *)
Definition learned_by (i : nat) (us : updates) : nat := list_sum (map (fun v => if fst v =? i then length (u_actions (snd v)) else 0) us).
Definition learned (us : updates) : nat := list_sum (map (fun v => length (u_actions (snd v))) us).

(** The schedule as M_Async.v sees it. *)
Definition sched_of (x : csched Ob Act) : sched := match x with CRun idx ch _ _ _ => SRun idx ch | CStop => SStop | CExn => SExn end.

(** The episode is cut off after max_episode_len steps. *)
Definition cut (P : async_args) (n : nat) : bool := match as_max_episode_len P with Some m => n =? m | None => false end.

(** How an event must relate to those before it, in [tr].
    In training the agent acts on what the environment returned last, a new episode having been begun if the last one was over; it observes what
    the environment returned, as a reset also if the episode is cut off.
    Optimizer steps start from the shared parameters left by all updates before.  Actions are chosen, and losses computed, with the parameters
    that the process should act with. *)
Definition linked (P : async_args) (opt : Pm -> upd Ob Act Pm RS -> Pm) (p0 : Pm) (own : nat -> Pm) (tr : trace) (x : nat * cev Ob Act Pm RS) : Prop :=
  match x with
  | (_, EnvGave _ _) => True
  | (i, AgentCall e o) =>
      match e with
      | CallAct ob _ => in_training i tr = true ->
          exists r, last_gave i tr = Some (ob, r) /\ match r with Some (_, done, needs) => done || (cut P (episode_len i tr) || needs) = false | None => True end
      | CallObserve ob r done reset => in_training i tr = true ->
          exists needs, last_gave i tr = Some (ob, Some (r, done, needs)) /\ reset = cut P (episode_len i tr) || needs
      | Others q => q = params_after opt p0 (updates_of tr)
      | SetTraining _ => True
      end /\
      match o with
      | Chose p _ _ => p = acting_params opt p0 (own i) i (updates_of tr)
      | Updated u => u_params u = acting_params opt p0 (own i) i (updates_of tr)
      | Nothing => True
      end
  end.
Definition all_linked P opt p0 own (tr : trace) : Prop := forall tr1 x tr2, tr = tr1 ++ x :: tr2 -> linked P opt p0 own tr1 x.
End Spec.
