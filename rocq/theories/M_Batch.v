(** Model of pfrl/replay_buffer.py: batch_experiences and ReplayUpdater. *)
From Coq Require Export QArith.
From Verif Require Import Base M_RandomAccessQueue M_SampleNK M_ReplayBuffer.
Close Scope Q_scope.

(** The transition dict.  States and actions are opaque; rewards are exact rationals (float32 in torch). *)
Record exper (S A : Type) := mkEx { x_state : S; x_action : A; x_reward : Q; x_next_state : S; x_next_action : option A }.
Arguments mkEx {S A}. Arguments x_state {S A}. Arguments x_action {S A}. Arguments x_reward {S A}.
Arguments x_next_state {S A}. Arguments x_next_action {S A}.

(** Python's gamma ** i for a natural number i. *)
Fixpoint qpow (g : Q) (i : nat) : Q := match i with O => 1%Q | S n => (g * qpow g n)%Q end.

Section Batch.
Context {S A : Type}.
Notation tr := (trans (exper S A)).

(** The batch dict: batch_states is the identity here (stacking and phi happen element by element), tensors are lists;
    is_state_terminal is a float tensor of 0/1. *)
Record batch := mkBatch {
  b_state : list S; b_action : list A; b_reward : list Q; b_next_state : list S; b_terminal : list Q;
  b_discount : list Q; b_next_action : option (list A) }.

(** Python list comprehension with an index that may raise. *)
Fixpoint rmapM {X Y} (f : X -> result Y) (l : list X) : result (list Y) :=
  match l with [] => Ok [] | x :: t => y <- f x ;; r <- rmapM f t ;; Ok (y :: r) end.

(** replay_buffer.py:185: sum((gamma**i) * exp[i]["reward"] for i in range(len(exp))), left to right from 0. *)
Definition window_reward (gamma : Q) (w : list tr) : result Q :=
  l <- rmapM (fun i => t <- py_get w (Z.of_nat i) ;; Ok (qpow gamma i * x_reward (payload t))%Q) (seq 0 (length w)) ;;
  Ok (fold_left Qplus l 0%Q).

(** replay_buffer.py:157-212 [batch_experiences]. *)
Definition batch_experiences (gamma : Q) (exps : list (list tr)) : result batch :=
  st <- rmapM (fun w => t <- py_get w 0 ;; Ok (x_state (payload t))) exps ;;
  ac <- rmapM (fun w => t <- py_get w 0 ;; Ok (x_action (payload t))) exps ;;
  rw <- rmapM (window_reward gamma) exps ;;
  ns <- rmapM (fun w => t <- py_get w (-1) ;; Ok (x_next_state (payload t))) exps ;;
  let tm := map (fun w => if existsb terminal w then 1%Q else 0%Q) exps in
  let dc := map (fun w => qpow gamma (length w)) exps in
  na <- rmapM (fun w => t <- py_get w (-1) ;; Ok (x_next_action (payload t))) exps ;;
  let nas := flat_map (fun o => match o with Some a => [a] | None => [] end) na in
  Ok (mkBatch st ac rw ns tm dc
        (if forallb (fun o => match o with Some _ => true | None => false end) na then Some nas else None)).
End Batch.
Arguments batch : clear implicits.

(** replay_buffer.py:308-327 [ReplayUpdater.__init__]. *)
Record updater := mkUpd { u_batchsize : nat; u_episodic : bool; u_times : nat; u_start : nat; u_interval : nat;
                          u_len : option nat }.
Definition updater_init (batchsize : nat) (episodic : bool) (times start interval : nat) (len : option nat) : result updater :=
  _ <- passert (batchsize <=? start) ;; Ok (mkUpd batchsize episodic times start interval len).

(** replay_buffer.py:329-356 [update_if_necessary].  [St] is everything update_func and the buffer can touch.  The result
    lists the batches given to update_func. *)
Section Updater.
Context {St B : Type}.
Variables (buf_len n_episodes : St -> nat).
Variable sample : St -> nat -> result (St * B).
Variable sample_episodes : St -> nat -> option nat -> result (St * B).
Variable update_func : St -> B -> result St.

(** 347-355. *)
Fixpoint update_loop (u : updater) (times : nat) (s : St) : result (St * list B) :=
  match times with
  | O => Ok (s, [])
  | S n =>
      '(s1, b) <- (if u_episodic u then sample_episodes s (u_batchsize u) (u_len u) else sample s (u_batchsize u)) ;;
      s2 <- update_func s1 b ;;
      '(s3, bs) <- update_loop u n s2 ;; Ok (s3, b :: bs)
  end.
Definition update_if_necessary (u : updater) (s : St) (iteration : nat) : result (bool * St * list B) :=
  if buf_len s <? u_start u then Ok (false, s, [])
  else if u_episodic u && (n_episodes s <? u_batchsize u) then Ok (false, s, [])
  else if u_interval u =? 0 then Err ZeroDivisionError
  else if negb (iteration mod u_interval u =? 0) then Ok (false, s, [])
  else '(s', bs) <- update_loop u (u_times u) s ;; Ok (true, s', bs).
End Updater.

(** pfrl/replay_buffers/replay_buffer.py:78-80 [ReplayBuffer.sample]. *)
Definition rb_sample {A} (fuel : nat) (o : oracle) (q : raq A) (n : nat) : result (list A) :=
  _ <- passert (n <=? raq_len q) ;; raq_sample fuel o q (Z.of_nat n).
