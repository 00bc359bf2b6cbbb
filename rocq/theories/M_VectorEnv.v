(** Model of pfrl/envs/multiprocess_vector_env.py and pfrl/envs/serial_vector_env.py.
    Simplifications: the methods of an environment do not raise (a worker process would then die); pipes have no capacity
    limit; KeyboardInterrupt and garbage collection (__del__) are not modelled. *)
From Verif Require Import Base.
Open Scope nat_scope.

(** An environment: [X] is (reward, done, info), [S] the type of seeds, [V] what seed() returns. *)
Record genv (W Ob A X S V : Type) := mkGenv { g_reset : W -> W * Ob; g_step : A -> W -> W * (Ob * X); g_seed : option S -> W -> W * V; g_close : W -> W }.
Arguments mkGenv {W Ob A X S V}. Arguments g_reset {W Ob A X S V}. Arguments g_step {W Ob A X S V}. Arguments g_seed {W Ob A X S V}. Arguments g_close {W Ob A X S V}.

(** Argument of seed(): None, an int, or a list. *)
Inductive seeds (S : Type) := SNone | SInt (s : S) | SList (l : list (option S)).
Arguments SNone {S}. Arguments SInt {S}. Arguments SList {S}.
Inductive call (A S : Type) := KStep (actions : list A) | KReset (mask : option (list bool)) | KSeed (s : seeds S) | KClose.
Arguments KStep {A S}. Arguments KReset {A S}. Arguments KSeed {A S}. Arguments KClose {A S}.
(** What a call returns. *)
Inductive answer (Ob X V : Type) := AOuts (l : list (Ob * X)) | AObs (l : list (option Ob)) | AVals (l : list V) | ANone.
Arguments AOuts {Ob X V}. Arguments AObs {Ob X V}. Arguments AVals {Ob X V}. Arguments ANone {Ob X V}.

Section VectorEnv.
Context {W Ob A X S V : Type} (G : genv W Ob A X S V).

(** ** serial_vector_env.py; the state is the environments and last_obs. *)
Definition sstate := (list W * list (option Ob))%type.
(** 24: [env.step(a) for env, a in zip(self.envs, actions)] *)
Fixpoint serial_step (ws : list W) (actions : list A) : list W * list (Ob * X) :=
  match ws, actions with
  | w :: ws, a :: actions => let (w, r) := g_step G a w in let (ws, rs) := serial_step ws actions in (w :: ws, r :: rs)
  | _, _ => (ws, [])
  end.
(** 31-34 *)
Fixpoint serial_reset (mask : list bool) (ws : list W) (last : list (option Ob)) : list W * list (option Ob) :=
  match mask, ws, last with
  | m :: mask, w :: ws, o :: last =>
      if m : bool then let (ws, os) := serial_reset mask ws last in (w :: ws, o :: os)
      else let (w, ob) := g_reset G w in let (ws, os) := serial_reset mask ws last in (w :: ws, Some ob :: os)
  | _, _, _ => (ws, [])
  end.
(** 39-40 *)
Fixpoint serial_seed (ws : list W) (l : list (option S)) : list W :=
  match ws, l with w :: ws, s :: l => fst (g_seed G s w) :: serial_seed ws l | _, _ => ws end.
(** 23-44; None and int are not iterable. *)
Definition serial_do (st : sstate) (c : call A S) : sstate * result (answer Ob X V) :=
  let (ws, last) := st in
  match c with
  | KStep actions =>
      let (ws, outs) := serial_step ws actions in
      match outs with
      | [] => ((ws, last), Err ValueError) (* zip of nothing does not unpack *)
      | _ => ((ws, map (fun r => Some (fst r)) outs), Ok (AOuts outs))
      end
  | KReset mask =>
      let mask := match mask with None => repeat false (length ws) | Some m => m end in
      let (ws, obs) := serial_reset mask ws last in ((ws, obs), Ok (AObs obs))
  | KSeed (SList l) => ((serial_seed ws l, last), Ok ANone)
  | KSeed _ => (st, Err TypeError)
  | KClose => ((map (g_close G) ws, last), Ok ANone)
  end.

(** ** multiprocess_vector_env.py *)
Inductive msg := MStep (a : A) | MReset | MSeed (s : option S) | MClose.
Inductive rep := PStep (r : Ob * X) | PObs (o : Ob) | PVal (v : V).
(** A worker process: its environment, the two directions of its pipe, whether it is still in its loop. *)
Record worker := mkWorker { wk_env : W; wk_in : list msg; wk_out : list rep; wk_open : bool }.
(** 11-35: one iteration of the loop. *)
Definition handle (m : msg) (w : W) : W * list rep * bool :=
  match m with
  | MStep a => let (w, r) := g_step G a w in (w, [PStep r], true)
  | MReset => let (w, o) := g_reset G w in (w, [PObs o], true)
  | MSeed s => let (w, v) := g_seed G s w in (w, [PVal v], true)
  | MClose => (g_close G w, [], false)
  end.
Definition worker_step (k : worker) : option worker :=
  if wk_open k then
    match wk_in k with
    | [] => None
    | m :: rest => let '(w, rs, o) := handle m (wk_env k) in Some (mkWorker w rest (wk_out k ++ rs) o)
    end
  else None.

(** What the main process does during a call, one communication at a time. *)
Inductive mop := Send (i : nat) (m : msg) | Recv (i : nat) | Join (i : nat).
(** The main process: last_obs, closed, the current call (what is left to do and what was received), the calls to come and
    the answers given so far. *)
Record main := mkMain { mn_last : list (option Ob); mn_closed : bool; mn_cur : option (call A S * list mop * list rep); mn_todo : list (call A S); mn_results : list (result (answer Ob X V)) }.
Definition system := (main * list worker)%type.

(** 103-123: the list of seeds; the length is checked for lists. *)
Definition expand_seeds (n : nat) (s : seeds S) : result (list (option S)) :=
  match s with
  | SNone => Ok (repeat None n)
  | SInt s => Ok (repeat (Some s) n)
  | SList l => if length l =? n then Ok l else Err ValueError
  end.
(** The mask of reset: 84-85. *)
Definition full_mask (n : nat) (mask : option (list bool)) : list bool := match mask with None => repeat false n | Some m => m end.
(** 75-78, 83-93, 98-104, 123-126: the communications of a call with [n] workers; [nlast] is the length of last_obs. *)
Definition compile (n nlast : nat) (c : call A S) : result (list mop) :=
  match c with
  | KStep actions => Ok (map (fun '(i, a) => Send i (MStep a)) (combine (seq 0 n) actions) ++ map Recv (seq 0 n))
  | KReset mask =>
      let mask := full_mask n mask in
      Ok (map (fun '(_, i) => Send i MReset) (filter (fun '(m, _) => negb m) (combine mask (seq 0 n))) ++
          map (fun '(_, i) => Recv i) (filter (fun '(m, _) => negb m) (combine mask (seq 0 (Nat.min n nlast)))))
  | KSeed s => l <- expand_seeds n s ;; Ok (map (fun '(i, s) => Send i (MSeed s)) (combine (seq 0 n) l) ++ map Recv (seq 0 n))
  | KClose => Ok (map (fun i => Send i MClose) (seq 0 n) ++ map Join (seq 0 n))
  end.
(** The answer from what was received; [None] if it has the wrong shape (impossible unless the pipes are out of step). *)
Fixpoint got_outs (got : list rep) : option (list (Ob * X)) :=
  match got with [] => Some [] | PStep r :: got => option_map (cons r) (got_outs got) | _ => None end.
Fixpoint got_vals (got : list rep) : option (list V) :=
  match got with [] => Some [] | PVal v :: got => option_map (cons v) (got_vals got) | _ => None end.
Fixpoint got_obs (mask : list bool) (n : nat) (last : list (option Ob)) (got : list rep) : option (list (option Ob)) :=
  match mask, n, last with
  | m :: mask, Datatypes.S n, o :: last =>
      if m : bool then option_map (cons o) (got_obs mask n last got)
      else match got with PObs ob :: got => option_map (cons (Some ob)) (got_obs mask n last got) | _ => None end
  | _, _, _ => Some []
  end.
(** 77-80, 88-95, 126-127. *)
Definition finish (n : nat) (last : list (option Ob)) (c : call A S) (got : list rep) : list (option Ob) * result (answer Ob X V) :=
  match c with
  | KStep _ =>
      match got_outs got with
      | Some (o :: outs) => (map (fun r => Some (fst r)) (o :: outs), Ok (AOuts (o :: outs)))
      | _ => (last, Err ValueError)
      end
  | KReset mask => match got_obs (full_mask n mask) n last got with Some obs => (obs, Ok (AObs obs)) | None => (last, Err ValueError) end
  | KSeed _ => match got_vals got with Some vs => (last, Ok (AVals vs)) | None => (last, Err ValueError) end
  | KClose => (last, Ok ANone)
  end.
(** Calling the next method: 83, 97, 106: _assert_not_closed; 98: closed is set before anything is sent. *)
Definition begin_call (n : nat) (m : main) (c : call A S) (todo : list (call A S)) : main :=
  if mn_closed m then mkMain (mn_last m) true None todo (mn_results m ++ [Err AssertionError])
  else
    match compile n (length (mn_last m)) c with
    | Err x => mkMain (mn_last m) false None todo (mn_results m ++ [Err x])
    | Ok ops => mkMain (mn_last m) (match c with KClose => true | _ => false end) (Some (c, ops, [])) todo (mn_results m)
    end.

(** One step of the main process, if it can move. *)
Definition main_step (s : system) : option system :=
  let (m, ks) := s in
  match mn_cur m with
  | None => match mn_todo m with [] => None | c :: todo => Some (begin_call (length ks) m c todo, ks) end
  | Some (c, [], got) =>
      let (last, r) := finish (length ks) (mn_last m) c got in
      Some (mkMain last (mn_closed m) None (mn_todo m) (mn_results m ++ [r]), ks)
  | Some (c, Send i x :: ops, got) =>
      match nth_error ks i with
      | Some k => Some (mkMain (mn_last m) (mn_closed m) (Some (c, ops, got)) (mn_todo m) (mn_results m),
                        list_set ks i (mkWorker (wk_env k) (wk_in k ++ [x]) (wk_out k) (wk_open k)))
      | None => None
      end
  | Some (c, Recv i :: ops, got) =>
      match nth_error ks i with
      | Some k =>
          match wk_out k with
          | r :: rest => Some (mkMain (mn_last m) (mn_closed m) (Some (c, ops, got ++ [r])) (mn_todo m) (mn_results m),
                               list_set ks i (mkWorker (wk_env k) (wk_in k) rest (wk_open k)))
          | [] => None
          end
      | None => None
      end
  | Some (c, Join i :: ops, got) =>
      match nth_error ks i with
      | Some k => if wk_open k then None else Some (mkMain (mn_last m) (mn_closed m) (Some (c, ops, got)) (mn_todo m) (mn_results m), ks)
      | None => None
      end
  end.
(** The scheduler picks the main process or a worker. *)
Inductive pick := Main | Work (i : nat).
Definition sys_step (s : system) (p : pick) : option system :=
  match p with
  | Main => main_step s
  | Work i => match nth_error (snd s) i with
              | Some k => match worker_step k with Some k' => Some (fst s, list_set (snd s) i k') | None => None end
              | None => None
              end
  end.
Fixpoint execute (s : system) (sched : list pick) : option system :=
  match sched with [] => Some s | p :: sched => match sys_step s p with Some s => execute s sched | None => None end end.

(** 41-65: right after the constructor. *)
Definition multi_init (ws : list W) (calls : list (call A S)) : system :=
  (mkMain (repeat None (length ws)) false None calls [], map (fun w => mkWorker w [] [] true) ws).
Definition serial_init (ws : list W) : sstate := (ws, repeat None (length ws)).
End VectorEnv.

(** The attributes action_space, observation_space and spec of an environment. *)
Record attrs (Y : Type) := mkAttrs { a_action_space : Y; a_observation_space : Y; a_spec : Y }.
Arguments mkAttrs {Y}. Arguments a_action_space {Y}. Arguments a_observation_space {Y}. Arguments a_spec {Y}.
(** serial_vector_env.py:19-21; [e0] are the attributes of the first environment. *)
Definition serial_attrs {Y} (e0 : attrs Y) : attrs Y := mkAttrs (a_action_space e0) (a_observation_space e0) (a_observation_space e0).
(** multiprocess_vector_env.py:63-64, 71-76 and 27-30: asked from the first worker. *)
Definition multi_attrs {Y} (e0 : attrs Y) : attrs Y := mkAttrs (a_action_space e0) (a_observation_space e0) (a_spec e0).
