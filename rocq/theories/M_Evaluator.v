(** Model of pfrl/experiments/evaluator.py. *)
From Verif Require Import Base M_Train.
Open Scope nat_scope.

(** How long to evaluate: exactly one of n_steps and n_episodes is given (evaluator.py:21 and :109 assert it). *)
Inductive mode := NSteps (n : nat) | NEpisodes (n : nat).

Section RunEpisodes.
Context {W Ob A : Type} (U : userland W Ob A) (M : mode) (max_episode_len : option nat).

Definition at_limit (len : nat) : bool := match max_episode_len with Some m => len =? m | None => false end.

(** evaluator.py:30-54: the while loop; [cur] is None when the flag [reset] is true, otherwise the variables obs, test_r and
    episode_len; a score is a return together with an episode length. *)
Fixpoint eval_loop (fuel : nat) (cur : option (Ob * Q * nat)) (timestep : nat) (scores : list (Q * nat)) : @prog W ev (list (Q * nat)) :=
  match fuel with
  | O => fun s => (s, [], Err OutOfFuel)
  | S fuel =>
      '(obs, test_r, len) <-- match cur with
                              | None => obs <-- pcall (fun _ => EReset) (env_reset U) ;;; pret (obs, 0%Q, 0)
                              | Some c => pret c
                              end ;;;
      a <-- pcall (fun _ => EAct) (agent_act U obs) ;;;
      '(obs, r, done, needs) <-- pcall (fun o => EStep (match o with Ok (_, r, d, n) => Some (r, d, n) | Err _ => None end)) (env_step U a) ;;;
      let test_r := Qplus test_r r in
      let len := S len in
      let timestep := S timestep in
      let reset := done || at_limit len || needs in
      _ <-- pcall (fun _ => EObserve r done reset) (agent_observe U obs r done reset) ;;;
      let scores := if reset then scores ++ [(test_r, len)] else scores in
      let terminate := match M with NEpisodes n => n <=? length scores | NSteps n => n <=? timestep end in
      if terminate
      then pret (match scores with [] => [(test_r, len)] | _ => scores end) (* 56-63 *)
      else eval_loop fuel (if reset then None else Some (obs, test_r, len)) timestep scores
  end.

(** evaluator.py:12-63.  Logging is not modelled; float arithmetic is exact.  [fuel] bounds the number of steps. *)
Definition run_episodes (fuel : nat) : @prog W ev (list (Q * nat)) := eval_loop fuel None 0 [].
End RunEpisodes.

Section BatchRunEpisodes.
Context {W Ob A : Type} (U : buserland W Ob A) (M : mode) (max_episode_len : option nat).

(** The dicts episode_returns and episode_lengths always have the same keys: one association list, latest entry first. *)
Definition dict := list (nat * (Q * nat)).
Fixpoint dict_get (d : dict) (k : nat) : option (Q * nat) :=
  match d with [] => None | (k', v) :: d => if k =? k' then Some v else dict_get d k end.
Definition dict_getitem (d : dict) (k : nat) : result (Q * nat) := match dict_get d k with Some v => Ok v | None => Err KeyError end.

(** 113-127: local variables (the observations are passed separately). *)
Record eloc := mkELoc { el_dict : dict; el_indices : list nat; el_next : nat; el_r : list Q; el_len : list nat }.

(** 149-155: for index in range(len(end)); the arrays are walked in parallel. *)
Fixpoint close_episodes (ends : list bool) (indices : list nat) (rs : list Q) (lens : list nat) (d : dict) (next : nat)
  : list nat * dict * nat :=
  match ends, indices, rs, lens with
  | e :: ends, k :: indices, r :: rs, l :: lens =>
      if e
      then let '(ks, d, next') := close_episodes ends indices rs lens ((k, (r, l)) :: d) (S next) in (next :: ks, d, next')
      else let '(ks, d, next') := close_episodes ends indices rs lens d next in (k :: ks, d, next')
  | _, _, _, _ => ([], d, next)
  end.

(** 157-158: a[end] = 0. *)
Definition zero_where {X} (zero : X) (ends : list bool) (a : list X) : list X := map (fun '(e, x) => if e : bool then zero else x) (combine ends a).

(** 161-163: a dict with [fuel] - 1 entries cannot contain all of the first [fuel] keys. *)
Fixpoint first_unfinished (fuel k : nat) (d : dict) : nat :=
  match fuel with O => k | S fuel => match dict_get d k with Some _ => first_unfinished fuel (S k) d | None => k end end.

Fixpoint getitems (d : dict) (ks : list nat) : result (list (Q * nat)) :=
  match ks with [] => Ok [] | k :: ks => v <- dict_getitem d k ;; vs <- getitems d ks ;; Ok (v :: vs) end.

(** 169-177: for index in range(first_unfinished_episode), with break; the result is total_time and the episodes kept. *)
Fixpoint within_steps (n total : nat) (d : dict) (ks : list nat) : result (nat * list (Q * nat)) :=
  match ks with
  | [] => Ok (total, [])
  | k :: ks =>
      v <- dict_getitem d k ;;
      let total := total + snd v in
      if n <? total then Ok (total, [])
      else '(total, vs) <- within_steps n total d ks ;; Ok (total, v :: vs)
  end.

(** 180-182: np.where(episode_indices == f)[0]. *)
Definition positions (f : nat) (indices : list nat) : list nat :=
  filter (fun i => nth i indices 0 =? f) (seq 0 (length indices)).

(** 160-195: the termination condition and the episodes to return. *)
Definition conclude (l : eloc) : result (bool * list (Q * nat)) :=
  let first := first_unfinished (S (length (el_dict l))) 0 (el_dict l) in
  match M with
  | NSteps n =>
      '(total, vs) <- within_steps n 0 (el_dict l) (seq 0 first) ;;
      if n <=? total then Ok (true, vs)
      else
        (* an array of one element is a truth value; any other size raises *)
        match positions first (el_indices l) with
        | [i] =>
            if n <=? total + nth i (el_len l) 0
            then Ok (true, if first =? 0 then vs ++ [(nth i (el_r l) 0%Q, nth i (el_len l) 0)] else vs)
            else Ok (false, vs)
        | _ => Err ValueError
        end
  | NEpisodes n =>
      if n <=? first then vs <- getitems (el_dict l) (seq 0 n) ;; Ok (true, vs) else Ok (false, [])
  end.

(** 134-158: account for the rewards of one step; also returns resets and end. *)
Definition account (l : eloc) (outs : list (Ob * Q * bool * bool)) : eloc * list bool * list bool :=
  let rs := map (fun '(a, (_, r, _, _)) => Qplus a r) (combine (el_r l) outs) in
  let lens := map S (el_len l) in
  let resets := match max_episode_len with
                | None => repeat false (num_envs U)
                | Some m => map (fun k => k =? m) lens
                end in
  let resets := map (fun '(a, (_, _, _, n)) => a || n) (combine resets outs) in
  let ends := map (fun '(a, (_, _, d, _)) => a || d) (combine resets outs) in
  let '(ks, d, next) := close_episodes ends (el_indices l) rs lens (el_dict l) (el_next l) in
  (mkELoc d ks next (zero_where 0%Q ends rs) (zero_where 0 ends lens), resets, ends).

(** A computation that may raise but makes no calls. *)
Definition plift {X} (r : result X) : @prog W bev X := fun s => (s, [], r).

(** 128-207. *)
Fixpoint batch_eval_loop (fuel : nat) (obss : list Ob) (l : eloc) : @prog W bev (list (Q * nat)) :=
  match fuel with
  | O => fun s => (s, [], Err OutOfFuel)
  | S fuel =>
      actions <-- pcall (fun _ => BAct) (batch_act U obss) ;;;
      outs <-- pcall (fun o => BStep (match o with Ok r => Some (map (fun '(_, r, d, n) => (r, d, n)) r) | Err _ => None end)) (benv_step U actions) ;;;
      let '(l, resets, ends) := account l outs in
      '(terminate, vs) <-- plift (conclude l) ;;;
      let obss := map (fun '(o, _, _, _) => o) outs in
      let rs := map (fun '(_, r, _, _) => r) outs in
      let dones := map (fun '(_, _, d, _) => d) outs in
      let resets := if terminate : bool then map (fun _ => true) resets else resets in
      _ <-- pcall (fun _ => BObserve rs dones resets) (batch_observe U obss rs dones resets) ;;;
      if terminate then pret vs
      else
        obss <-- pcall (fun _ => BReset (Some (map negb ends))) (benv_reset U (Some (map negb ends))) ;;;
        batch_eval_loop fuel obss l
  end.

(** 100-215.  Logging is not modelled; float arithmetic is exact.  [fuel] bounds the number of steps. *)
Definition batch_run_episodes (fuel : nat) : @prog W bev (list (Q * nat)) :=
  let n := num_envs U in
  obss <-- pcall (fun _ => BReset None) (benv_reset U None) ;;;
  batch_eval_loop fuel obss (mkELoc [] (seq 0 n) n (repeat 0%Q n) (repeat 0 n)).
End BatchRunEpisodes.

(** ** Evaluator, evaluator.py:400-521 *)
Section Evaluator.
Context {W : Type}.
(** User code: running the evaluation episodes (scores), and the evaluation hooks.  Of what a hook is given, step and eval_stats["mean"] are explicit; env, agent and evaluator are
    part of the world; agent_stats, env_stats and the other eval_stats are left out. *)
Record evuser := mkEv { ev_scores : W -> W * result (list Q); ev_hooks : list (nat -> Q -> W -> W * result unit) }.
(** Constructor arguments that matter here, and state. *)
Record evargs := mkEvArgs { ev_interval : nat; ev_offset : nat; ev_save_best : bool }.
Record evstate := mkEvSt { es_max : Q; es_prev : nat }.
(** Effects: a row of scores.txt, a hook call, saving the best agent. *)
Inductive evev := VRow (t episodes : nat) (mean : Q) | VHook (i t : nat) (mean : Q) | VBest.

Context (U : evuser) (P : evargs).

(** np.finfo(np.float32).min = - (2^24 - 1) * 2^104. *)
Definition float32_min : Q := inject_Z (- (2 ^ 24 - 1) * 2 ^ 104).

(** 439, 448: max_score and prev_eval_t in the constructor; eval_interval = 0 raises ZeroDivisionError. *)
Definition evaluator_init : result evstate :=
  if ev_interval P =? 0 then Err ZeroDivisionError
  else Ok (mkEvSt float32_min (ev_offset P - ev_offset P mod ev_interval P)).

Definition qsum (l : list Q) : Q := fold_left Qplus l 0%Q.
(** statistics.mean: raises StatisticsError (a subclass of ValueError) on no data. *)
Definition mean_of (l : list Q) : result Q :=
  match l with [] => Err ValueError | _ => Ok (Qdiv (qsum l) (inject_Z (Z.of_nat (length l)))) end.

(** 500-509: for hook in self.evaluation_hooks. *)
Fixpoint ev_run_hooks (i : nat) (hs : list (nat -> Q -> W -> W * result unit)) (t : nat) (m : Q) (w : W) : W * list evev * result unit :=
  match hs with
  | [] => (w, [], Ok tt)
  | h :: hs =>
      match h t m w with
      | (w, Ok _) => let '(w, es, r) := ev_run_hooks (S i) hs t m w in (w, VHook i t m :: es, r)
      | (w, Err e) => (w, [VHook i t m], Err e)
      end
  end.

(** 463-514: evaluate_and_update_max_score. *)
Definition evaluate_and_update (s : evstate) (w : W) (t episodes : nat) : evstate * W * list evev * result Q :=
  match ev_scores U w with
  | (w, Err e) => (s, w, [], Err e)
  | (w, Ok scores) =>
      match mean_of scores with
      | Err e => (s, w, [], Err e)
      | Ok m =>
          let '(w, es, r) := ev_run_hooks 0 (ev_hooks U) t m w in
          match r with
          | Err e => (s, w, VRow t episodes m :: es, Err e)
          | Ok _ =>
              if negb (Qle_bool m (es_max s))
              then (mkEvSt m (es_prev s), w, VRow t episodes m :: es ++ (if ev_save_best P then [VBest] else []), Ok m)
              else (s, w, VRow t episodes m :: es, Ok m)
          end
      end
  end.

(** 516-521: evaluate_if_necessary. *)
Definition evaluate_if_necessary (s : evstate) (w : W) (t episodes : nat) : evstate * W * list evev * result (option Q) :=
  if es_prev s + ev_interval P <=? t then
    let '(s, w, es, r) := evaluate_and_update s w t episodes in
    match r with
    | Ok m => (mkEvSt (es_max s) (t - t mod ev_interval P), w, es, Ok (Some m))
    | Err e => (s, w, es, Err e)
    end
  else (s, w, [], Ok None).

(** A sequence of calls; in between the user may do anything to the rest of the world ([between]). *)
Fixpoint ev_calls (s : evstate) (w : W) (ts : list (nat * nat * (W -> W))) : evstate * list (result (option Q) * list evev) :=
  match ts with
  | [] => (s, [])
  | (t, episodes, between) :: ts =>
      let '(s, w, es, r) := evaluate_if_necessary s (between w) t episodes in
      let (s, outs) := ev_calls s w ts in (s, (r, es) :: outs)
  end.
End Evaluator.
Arguments evuser : clear implicits.
