(** Model of the optimizer step of A3C's workers as it runs without locks (pfrl/optimizers/rmsprop_eps_inside_sqrt.py:9-62
    and 67-83, pfrl/agents/a3c.py:207-216, pfrl/experiments/train_agent_async.py:240-252): the parameters and the
    tensors of the optimizer's state are in memory shared by the processes, [step] takes no lock, so that accesses of
    different workers interleave in any order.

    Every tensor operation of the step is elementwise, so one entry of one parameter is modelled.  An in-place operation
    (mul_, add_, addcmul_, addcdiv_) reads the entry and later writes it: two accesses, between which other workers may
    run.  A read or a write of one entry is atomic.  Numbers are reals, [None] stands for what is not a finite number (an
    infinity or nan): the root of a negative number, a division by zero, and all that is computed from them.  Memory is
    sequentially consistent.  The gradient is the worker's own (pfrl/utils/copy_param.py:27-34 assigns a clone to the
    attribute of the process' own object), so is state["step"], which is left out. *)
From Coq Require Import Reals.
From Verif Require Import Base M_RMSprop.
Open Scope R_scope.

Notation num := (option R).
Definition nadd (x y : num) : num := match x, y with Some x, Some y => Some (x + y) | _, _ => None end.
Definition nmul (x y : num) : num := match x, y with Some x, Some y => Some (x * y) | _, _ => None end.
(** grad / sqrt(v) *)
Definition nover_sqrt (g v : num) : num :=
  match g, v with Some g, Some v => if Rle_dec v 0 then None else Some (g / sqrt v) | _, _ => None end.

(** The shared entries: p.data, state["square_avg"], state["grad_avg"], state["momentum_buffer"]. *)
Inductive cell := CP | CSq | CGa | CBuf.
Record mem := { m_p : num; m_sq : num; m_ga : num; m_buf : num }.
Definition mget (m : mem) (c : cell) : num :=
  match c with CP => m_p m | CSq => m_sq m | CGa => m_ga m | CBuf => m_buf m end.
Definition mset (m : mem) (c : cell) (x : num) : mem :=
  match c with
  | CP => {| m_p := x; m_sq := m_sq m; m_ga := m_ga m; m_buf := m_buf m |}
  | CSq => {| m_p := m_p m; m_sq := x; m_ga := m_ga m; m_buf := m_buf m |}
  | CGa => {| m_p := m_p m; m_sq := m_sq m; m_ga := x; m_buf := m_buf m |}
  | CBuf => {| m_p := m_p m; m_sq := m_sq m; m_ga := m_ga m; m_buf := x |}
  end.

(** What remains to be done of a worker's step: reading an entry; multiplying an entry in place; adding to an entry in
    place. *)
Inductive code :=
| Done
| Load (c : cell) (k : num -> code)
| MulTo (c : cell) (a : num) (k : code)
| AddTo (c : cell) (d : num) (k : code).

(** rmsprop_eps_inside_sqrt.py:54-62; [v] is what is under the root *)
Definition move_code (c : group_cfg) (g v : num) : code :=
  let u := nover_sqrt g v in
  if Rlt_dec 0 (momentum c)
  then MulTo CBuf (Some (momentum c)) (AddTo CBuf u (Load CBuf (fun b => AddTo CP (nmul (Some (- lr c)) b) Done)))
  else AddTo CP (nmul (Some (- lr c)) u) Done.

(** rmsprop_eps_inside_sqrt.py:44-62 *)
Definition average_code (c : group_cfg) (g : num) : code :=
  MulTo CSq (Some (alpha c)) (AddTo CSq (nmul (Some (1 - alpha c)) (nmul g g))
    (if centered c
     then MulTo CGa (Some (alpha c)) (AddTo CGa (nmul (Some (1 - alpha c)) g)
            (Load CSq (fun v => Load CGa (fun a => move_code c g (nadd (nadd v (nmul (Some (-1)) (nmul a a))) (Some (eps c)))))))
     else Load CSq (fun v => move_code c g (nadd v (Some (eps c)))))).

(** rmsprop_eps_inside_sqrt.py:18-62 *)
Definition step_code (c : group_cfg) (g : R) : code :=
  if Req_EM_T (weight_decay c) 0 then average_code c (Some g)
  else Load CP (fun p => average_code c (nadd (Some g) (nmul (Some (weight_decay c)) p))).

(** A worker: what remains of its step, and the value read by an in-place operation that has not written yet. *)
Record worker := { w_code : code; w_read : option num }.
Definition idle : worker := {| w_code := Done; w_read := None |}.

(** One access of a worker, with the amount it added to the parameter, if this was the write of such an addition. *)
Definition access (m : mem) (w : worker) : mem * worker * list num :=
  match w_code w, w_read w with
  | Done, _ => (m, w, [])
  | Load c k, _ => (m, {| w_code := k (mget m c); w_read := None |}, [])
  | (MulTo c _ _ | AddTo c _ _), None => (m, {| w_code := w_code w; w_read := Some (mget m c) |}, [])
  | MulTo c a k, Some x => (mset m c (nmul x a), {| w_code := k; w_read := None |}, [])
  | AddTo c d k, Some x => (mset m c (nadd x d), {| w_code := k; w_read := None |}, match c with CP => [d] | _ => [] end)
  end.

(** The system: the memory, the workers, and (only recorded) the amounts added to the parameter in the order of the
    writes. *)
Record sys := { s_mem : mem; s_ws : list worker; s_moves : list num }.

(** What the scheduler does: worker [i] calls step with the gradient [g] (nothing happens if it is in one already, as a
    worker's steps follow each other); worker [i] makes its next access. *)
Inductive event := Begin (i : nat) (g : R) | Access (i : nat).

Definition sched (c : group_cfg) (s : sys) (e : event) : sys :=
  match e with
  | Begin i g =>
      match nth_error (s_ws s) i with
      | Some w => match w_code w with
                  | Done => {| s_mem := s_mem s; s_ws := list_set (s_ws s) i {| w_code := step_code c g; w_read := None |}; s_moves := s_moves s |}
                  | _ => s
                  end
      | None => s
      end
  | Access i =>
      match nth_error (s_ws s) i with
      | Some w => let '(m, w, l) := access (s_mem s) w in {| s_mem := m; s_ws := list_set (s_ws s) i w; s_moves := s_moves s ++ l |}
      | None => s
      end
  end.
Definition hogwild (c : group_cfg) (s : sys) (es : list event) : sys := fold_left (sched c) es s.

(** n workers before training: the state as initialised by SharedRMSpropEpsInsideSqrt (77-83); buffers the options do
    not call for do not exist and are never touched. *)
Definition start (n : nat) (x : R) : sys :=
  {| s_mem := {| m_p := Some x; m_sq := Some 0; m_ga := Some 0; m_buf := Some 0 |}; s_ws := repeat idle n; s_moves := [] |}.
