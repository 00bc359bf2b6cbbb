(** Specification for C20-C23. *)
From Verif Require Import Base M_Train M_Evaluator.
Open Scope nat_scope.

(** ** C20 *)
Definition call_time {X} (c : nat * nat * X) : nat := fst (fst c).
(** Mean scores of the evaluations made so far. *)
Definition means (outs : list (result (option Q) * list evev)) : list Q :=
  flat_map (fun o => match fst o with Ok (Some m) => [m] | _ => [] end) outs.
Definition rows (es : list evev) : list (nat * nat * Q) := flat_map (fun e => match e with VRow t ep m => [(t, ep, m)] | _ => [] end) es.
Definition ev_hook_calls (es : list evev) : list (nat * nat * Q) := flat_map (fun e => match e with VHook i t m => [(i, t, m)] | _ => [] end) es.
Definition best_saves (es : list evev) : nat := length (filter (fun e => match e with VBest => true | _ => false end) es).

(** ** C22: the ledger of episodes, in the order in which they started. *)
Record episode := mkEp { ep_env : nat; ep_done : bool; ep_ret : Q; ep_len : nat }.
Definition fresh (i : nat) : episode := mkEp i false 0%Q 0.
Definition score_of (e : episode) : Q * nat := (ep_ret e, ep_len e).

Section Ledger.
Context (max_episode_len : option nat) (num_envs : nat).
(** One time step: [outs] gives reward, done, needs_reset of each environment.  The reward goes to the running episode of the
    environment; the episode is over if done, if the environment asks for a reset or if the length limit is reached. *)
Definition credit (outs : list (Q * bool * bool)) (e : episode) : episode :=
  if ep_done e then e
  else match nth_error outs (ep_env e) with
       | Some (r, done, needs) =>
           mkEp (ep_env e) (done || needs || match max_episode_len with Some m => S (ep_len e) =? m | None => false end)
                (Qplus (ep_ret e) r) (S (ep_len e))
       | None => e
       end.
(** Environment [i] had a running episode that this step ended. *)
Definition just_ended (outs : list (Q * bool * bool)) (led : list episode) (i : nat) : bool :=
  existsb (fun e => (ep_env e =? i) && negb (ep_done e) && ep_done (credit outs e)) led.
(** Every environment whose episode ended starts a new one, in the order of the environments. *)
Definition ledger_step (led : list episode) (outs : list (Q * bool * bool)) : list episode :=
  map (credit outs) led ++ map fresh (filter (just_ended outs led) (seq 0 num_envs)).
Definition ledger (steps : list (list (Q * bool * bool))) : list episode := fold_left ledger_step steps (map fresh (seq 0 num_envs)).
End Ledger.

(** The time steps in the record of a run. *)
Definition bsteps_of (tr : list bev) : list (list (Q * bool * bool)) := flat_map (fun e => match e with BStep (Some o) => [o] | _ => [] end) tr.
Definition steps_of (tr : list ev) : list (list (Q * bool * bool)) := flat_map (fun e => match e with EStep (Some o) => [[o]] | _ => [] end) tr.
Definition all_done (l : list episode) : Prop := Forall (fun e => ep_done e = true) l.
Definition total_len (l : list episode) : nat := list_sum (map ep_len l).

(** The record of calls of batch evaluation stopped at the right moment: [done_with led] says that the leading complete
    episodes of the ledger (those before the first running one) suffice. *)
Definition suffices (M : mode) (led : list episode) : Prop :=
  exists pre e post, led = pre ++ e :: post /\ all_done pre /\ ep_done e = false /\
  match M with NEpisodes n => n <= length pre | NSteps n => n <= total_len pre + ep_len e end.
Definition stops_at_first (M : mode) (max_episode_len : option nat) (num_envs : nat) (steps : list (list (Q * bool * bool))) : Prop :=
  suffices M (ledger max_episode_len num_envs steps) /\
  forall a b, steps = a ++ b -> a <> [] -> b <> [] -> ~ suffices M (ledger max_episode_len num_envs a).

(** With [n] steps allowed: either the episode started first is still running after [n] steps and is the only one reported,
    or a non-empty series of the episodes started first is reported, all complete, of total length at most [n], and the next
    one is still running or would not have fitted. *)
Definition within_budget (n : nat) (led : list episode) (scores : list (Q * nat)) : Prop :=
  (exists e rest, led = e :: rest /\ ep_done e = false /\ ep_len e = n /\ scores = [score_of e]) \/
  (exists kept next rest, led = kept ++ next :: rest /\ kept <> [] /\ all_done kept /\ total_len kept <= n /\ scores = map score_of kept /\
     (ep_done next = true -> n < total_len kept + ep_len next)).

(** ** C23: is the recurrent state of the agent fresh?  Acting makes it depend on the episode; it is reset when the agent is
    told that the episode ended ([done] or [reset]).  [None]: an episode started with a state that is not fresh. *)
Fixpoint fresh_after (clean : bool) (tr : list ev) : option bool :=
  match tr with
  | [] => Some clean
  | EReset :: tr => if clean then fresh_after true tr else None
  | EAct :: tr => fresh_after false tr
  | EObserve _ d b :: tr => fresh_after (clean || d || b) tr
  | _ :: tr => fresh_after clean tr
  end.

(** Any number of evaluation runs one after another; the state of the world between two runs is arbitrary (training goes on). *)
Inductive runs {S E : Type} (run : S -> list E -> S -> Prop) : list E -> Prop :=
| runs_none : runs run []
| runs_more s tr s' tr' : run s tr s' -> runs run tr' -> runs run (tr ++ tr').
