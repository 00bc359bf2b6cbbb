(** Model of one-environment DQN training with its snapshots: pfrl/agents/dqn.py:310-368 (update), 489-549 (act and observe) and
    794-812 (save_snapshot, load_snapshot), with the replay buffers of pfrl/replay_buffers/replay_buffer.py and prioritized.py.

    Simplifications.  One environment (env_id 0), no recurrent states, no statistics (q_record, loss_record).  [learn] stands for
    batch_experiences, the loss, backward and the optimizer: from the network, the target network and the optimizer state and the
    sampled windows it gives the new network, the new optimizer state and the priorities computed from the errors
    (priority_from_errors is C49).  The generator's outcomes for the k-th update are [draws k]. *)
From Coq Require Import Reals QArith Qreals.
From Verif Require Import Base M_RandomAccessQueue M_SampleNK M_Prioritized M_PriorityWeights M_ReplayBuffer M_Episodic M_Batch.
Open Scope nat_scope.

Section DQN.
Context {Ob Ac Pm Op M Smp Orc Sv : Type}.
Definition entry : Type := (Ob * Ac * Q * Ob)%type.

(** What the agent uses of its replay buffer: the memory's append, len(), sample, update_errors, save and load. *)
Record buffer := mkBuffer {
  b_append : M -> list (trans entry) -> result M;
  b_len : M -> nat;
  b_sample : M -> nat -> Orc -> result (M * list Smp);
  b_errors : M -> list Q -> result M;
  b_save : M -> Sv;
  b_load : M -> Sv -> M }.
Context (B : buffer) (U : updater) (target_update_interval : nat).
Context (learn : Pm -> Pm -> Op -> list Smp -> Pm * Op * list Q) (sync : Pm -> Pm -> Pm) (draws : nat -> Orc).

(** dqn.py:207-268: the attributes. *)
Record dqn := mkDqn {
  d_model : Pm; d_target : Pm; d_opt : Op; d_t : nat; d_optim_t : nat; d_steps : nat; d_buf : rbuf entry M; d_last : option (Ob * Ac) }.
Definition with_mem (s : dqn) (m : M) : dqn :=
  mkDqn (d_model s) (d_target s) (d_opt s) (d_t s) (d_optim_t s) (d_steps s) (mkRb (num_steps (d_buf s)) m (last_n (d_buf s))) (d_last s).

(** replay_buffer.sample(batchsize). *)
Definition sample1 (s : dqn) (n : nat) : result (dqn * list Smp) :=
  '(m, xs) <- b_sample B (memory (d_buf s)) n (draws (d_optim_t s)) ;; Ok (with_mem s m, xs).
(** dqn.py:310-368 [update]. *)
Definition update (s : dqn) (xs : list Smp) : result dqn :=
  let '(p, o, errors) := learn (d_model s) (d_target s) (d_opt s) xs in
  m <- b_errors B (memory (d_buf s)) errors ;;
  let s := with_mem s m in
  Ok (mkDqn p (d_target s) o (d_t s) (S (d_optim_t s)) (d_steps s) (d_buf s) (d_last s)).

(** dqn.py:489-507 [act]; [choose] is the explorer applied to the network's action values. *)
Definition act (s : dqn) (obs : Ob) (choose : Pm -> nat -> Ac) : dqn * Ac :=
  let a := choose (d_model s) (d_t s) in
  (mkDqn (d_model s) (d_target s) (d_opt s) (d_t s) (d_optim_t s) (d_steps s) (d_buf s) (Some (obs, a)), a).

(** dqn.py:516-549 [observe]; returns the minibatches learned from. *)
Definition observe (s : dqn) (obs : Ob) (r : Q) (done reset : bool) : result (dqn * list (list Smp)) :=
  let t := S (d_t s) in
  tgt <- (if target_update_interval =? 0 then Err ZeroDivisionError
          else Ok (if t mod target_update_interval =? 0 then sync (d_model s) (d_target s) else d_target s)) ;;
  '(buf, last) <-
    match d_last s with
    | Some (o, a) =>
        b1 <- rb_append (b_append B) (d_buf s) 0 (mkTrans (o, a, r, obs) done) ;;
        if reset || done then b2 <- rb_stop (b_append B) b1 0 ;; Ok (b2, None) else Ok (b1, Some (o, a))
    | None => Ok (d_buf s, None)
    end ;;
  let s1 := mkDqn (d_model s) tgt (d_opt s) t (d_optim_t s) (S (d_steps s)) buf last in
  '(_, s2, batches) <- update_if_necessary (fun s => b_len B (memory (d_buf s))) (fun _ => 0) sample1 (fun _ _ _ => Err TypeError) update U s1 t ;;
  Ok (s2, batches).

(** What happens to the agent, and what can be seen: the action chosen, the minibatches learned from. *)
Inductive event := Act (obs : Ob) (choose : Pm -> nat -> Ac) | Observe (obs : Ob) (r : Q) (done reset : bool).
Inductive seen := Acted (a : Ac) | Learned (batches : list (list Smp)).
Definition step (s : dqn) (e : event) : result (dqn * seen) :=
  match e with
  | Act obs choose => let (s', a) := act s obs choose in Ok (s', Acted a)
  | Observe obs r done reset => '(s', bs) <- observe s obs r done reset ;; Ok (s', Learned bs)
  end.
Fixpoint history (s : dqn) (es : list event) : result (dqn * list seen) :=
  match es with
  | [] => Ok (s, [])
  | e :: es => '(s1, o) <- step s e ;; '(s2, os) <- history s1 es ;; Ok (s2, o :: os)
  end.

(** dqn.py:794-802 [save_snapshot] (saved_attributes are model, target_model, optimizer: dqn.py:179) and 803-812 [load_snapshot]. *)
Record snapshot := mkSnap { n_model : Pm; n_target : Pm; n_opt : Op; n_t : nat; n_optim_t : nat; n_steps : nat; n_mem : Sv }.
Definition save_snapshot (s : dqn) : snapshot :=
  mkSnap (d_model s) (d_target s) (d_opt s) (d_t s) (d_optim_t s) (d_steps s) (b_save B (memory (d_buf s))).
Definition load_snapshot (s : dqn) (n : snapshot) : dqn :=
  mkDqn (n_model n) (n_target n) (n_opt n) (n_t n) (n_optim_t n) (n_steps n)
        (mkRb (num_steps (d_buf s)) (b_load B (memory (d_buf s)) (n_mem n)) (last_n (d_buf s))) (d_last s).

(** dqn.py:207-268 with a fresh buffer of [num_steps] steps and an empty memory [m]. *)
Definition dqn_init (p : Pm) (o : Op) (nsteps : nat) (m : M) : dqn := mkDqn p p o 0 0 0 (mkRb nsteps m (fun _ => [])) None.
End DQN.

(** ReplayBuffer: replay_buffer.py (pfrl/replay_buffers) 78-94. *)
Definition uniform_buffer {Ob Ac : Type} (fuel : nat) :
  @buffer Ob Ac (raq (list (trans (@entry Ob Ac)))) (list (trans (@entry Ob Ac))) oracle (raq (list (trans (@entry Ob Ac)))) :=
  mkBuffer raq_append raq_len (fun m n o => xs <- rb_sample fuel o m n ;; Ok (m, xs)) (fun m _ => Ok m) (fun m => m) (fun _ m => m).

(** PrioritizedReplayBuffer: prioritized.py:67-126.  The memory is the pair of the buffer's own attributes (beta among them) and the
    PrioritizedBuffer.  save and load are inherited: they pickle and restore self.memory only. *)
Definition prioritized_buffer {Ob Ac : Type} :
  @buffer Ob Ac (pwe * pbuf (list (trans (@entry Ob Ac)))) (list (trans (@entry Ob Ac)) * R) soracle (pbuf (list (trans (@entry Ob Ac)))) :=
  mkBuffer
    (fun m w => b <- pb_append_default (snd m) w ;; Ok (fst m, b))
    (fun m => length (data (snd m)))
    (fun m n o => '(w, b, xs) <- prb_sample (fst m) (snd m) n o ;; Ok ((w, b), xs))
    (fun m ps => b <- pb_set_last_priority (snd m) ps ;; Ok (fst m, b))
    (fun m => snd m) (fun m b => (fst m, b)).
