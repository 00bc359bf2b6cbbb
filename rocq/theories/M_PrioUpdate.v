(** Model of learning from a prioritized replay buffer as a whole: pfrl/replay_buffers/prioritized.py:9-126 together with
    pfrl/agents/dqn.py:316-362 (update) and pfrl/replay_buffers/replay_buffer.py:33-76 (append, stop_current_episode).

    What the other models leave out is kept here: the sampling weight is written into the first transition dict of each sampled window
    (prioritized.py:121-122), the dicts are shared between the n-step windows that contain them, and the update reads the weights back
    from the dicts.  So a transition is an identity (a number), and the weight fields are a heap indexed by identities.

    Simplifications: numbers are rationals (as floats are) and Python's ** is an arbitrary function [pow]; the error of each experience is
    an argument of every update, as it comes from the networks (C37, C38, C65, C122 are about these errors); the loss is not computed, but
    the weights and errors it is computed from are returned (C37, C122); everything in a transition but is_state_terminal and
    weight is left out. *)
From Coq Require Import QArith Qminmax.
From Verif Require Import Base M_RandomAccessQueue M_Prioritized M_PriorityWeights M_ReplayBuffer.
Local Open Scope nat_scope.

(** prioritized.py:28-45: alpha, beta, beta_add, eps, normalize_by_max, error_min, error_max. *)
Record qpwe := mkQw { qalpha : Q; qbeta : Q; qbeta_add : Q; qeps : Q; qnorm : normalize; qerror_min : option Q; qerror_max : option Q }.

Notation nwindow := (list (trans nat)).

(** "weight" in e: None if the dict has no such key. *)
Definition weight_heap := nat -> option Q.

Section Prio.
Variable pow : Q -> Q -> Q.

(** prioritized.py:47-55 [priority_from_errors]. *)
Definition qclip (w : qpwe) (d : Q) : Q :=
  let d := match qerror_min w with None => d | Some m => Qmax m d end in
  match qerror_max w with None => d | Some m => Qmin m d end.
Definition qpriority (w : qpwe) (d : Q) : Q := pow (qclip w d + qeps w) (qalpha w).

(** numpy.min; ValueError if empty. *)
Fixpoint qnp_min (l : list Q) : result Q :=
  match l with [] => Err ValueError | [x] => Ok x | x :: t => m <- qnp_min t ;; Ok (Qmin x m) end.

(** prioritized.py:57-66 [weights_from_probabilities]; [n] is len(self.memory). *)
Definition qweights (w : qpwe) (n : nat) (probs : list Q) (min_prob : Q) : result (qpwe * list Q) :=
  mp <- (match qnorm w with NormBatch => qnp_min probs | _ => Ok min_prob end) ;;
  let ws := match qnorm w with
            | NoNorm => map (fun p => pow (inject_Z (Z.of_nat n) * p) (- qbeta w)) probs
            | _ => map (fun p => pow (p / mp) (- qbeta w)) probs
            end in
  Ok (mkQw (qalpha w) (Qmin 1 (qbeta w + qbeta_add w)) (qbeta_add w) (qeps w) (qnorm w) (qerror_min w) (qerror_max w), ws).

(** prioritized.py:121-122: for e, w in zip(sampled, weights): e[0]["weight"] = w. *)
Fixpoint write_weights (h : weight_heap) (xs : list nwindow) (ws : list Q) : result weight_heap :=
  match xs, ws with
  | [] :: _, _ :: _ => Err IndexError
  | (t :: _) :: xs, w :: ws => write_weights (upd h (payload t) (Some w)) xs ws
  | _, _ => Ok h
  end.

(** dqn.py:343: elem[0]["weight"]. *)
Definition read_weight (h : weight_heap) (e : nwindow) : result Q :=
  match e with
  | [] => Err IndexError
  | t :: _ => match h (payload t) with Some w => Ok w | None => Err KeyError end
  end.
Fixpoint read_weights (h : weight_heap) (es : list nwindow) : result (list Q) :=
  match es with [] => Ok [] | e :: t => w <- read_weight h e ;; r <- read_weights h t ;; Ok (w :: r) end.

(** The prioritized replay buffer, the weight fields of the transition dicts, the number of dicts created so far and the exponents. *)
Record plearn := mkPl { pl_rb : rbuf nat (pbuf nwindow); pl_heap : weight_heap; pl_next : nat; pl_w : qpwe }.

(** prioritized.py:86-115 [__init__]. *)
Definition pl_init (capacity : option nat) (n : nat) (w : qpwe) : result plearn :=
  b <- prioritized_replay_buffer capacity n ;; Ok (mkPl b (fun _ => None) 0 w).

Definition set_memory (b : rbuf nat (pbuf nwindow)) (m : pbuf nwindow) : rbuf nat (pbuf nwindow) := mkRb (num_steps b) m (last_n b).

(** prioritized.py:117-123 [sample]. *)
Definition pl_sample (s : plearn) (n : nat) (o : soracle) : result (plearn * list nwindow) :=
  let mem := memory (pl_rb s) in
  _ <- passert (n <=? length (data mem)) ;;
  '(mem', (xs, probs, m)) <- pb_sample mem o 0%Q ;;
  '(w', ws) <- qweights (pl_w s) (length (data mem)) probs m ;;
  h <- write_weights (pl_heap s) xs ws ;;
  Ok (mkPl (set_memory (pl_rb s) mem') h (pl_next s) w', xs).

(** prioritized.py:125-126 [update_errors]. *)
Definition pl_update_errors (s : plearn) (errors : list Q) : result plearn :=
  mem <- pb_set_last_priority (memory (pl_rb s)) (map (qpriority (pl_w s)) errors) ;;
  Ok (mkPl (set_memory (pl_rb s) mem) (pl_heap s) (pl_next s) (pl_w s)).

(** dqn.py:316-352 [update], up to the loss: each experience with the weight and the error that enter the loss.  dqn.py:335 is the test of
    has_weight; without weights no priorities are updated. *)
Definition pl_learn (s : plearn) (experiences : list nwindow) (err : nwindow -> Q) : result (plearn * list (nwindow * Q * Q)) :=
  match experiences with
  | (t :: _) :: _ =>
      match pl_heap s (payload t) with
      | Some _ =>
          ws <- read_weights (pl_heap s) experiences ;;
          let errors := map err experiences in
          s' <- pl_update_errors s errors ;;
          Ok (s', combine (combine experiences ws) errors)
      | None => Ok (s, map (fun e => (e, 1%Q, err e)) experiences)
      end
  | _ => Err IndexError
  end.

(** What happens to the buffer during training: a transition is observed (its dict is new: replay_buffer.py:44-52), an episode is cut,
    or the agent samples [n] experiences and updates (pfrl/replay_buffer.py:329-357 ReplayUpdater.update_if_necessary; dqn.py:316-362). *)
Inductive pop := PlAct (e : nat) (term : bool) | PlStop (e : nat) | PlUpdate (n : nat) (o : soracle) (err : nwindow -> Q).

Definition pl_step (s : plearn) (op : pop) : result (plearn * list (nwindow * Q * Q)) :=
  match op with
  | PlAct e term =>
      b <- rb_append pb_append_default (pl_rb s) e (mkTrans (pl_next s) term) ;;
      Ok (mkPl b (upd (pl_heap s) (pl_next s) None) (S (pl_next s)) (pl_w s), [])
  | PlStop e => b <- rb_stop pb_append_default (pl_rb s) e ;; Ok (mkPl b (pl_heap s) (pl_next s) (pl_w s), [])
  | PlUpdate n o err => '(s1, xs) <- pl_sample s n o ;; pl_learn s1 xs err
  end.

Fixpoint pl_run (s : plearn) (ops : list pop) : result (plearn * list (list (nwindow * Q * Q))) :=
  match ops with
  | [] => Ok (s, [])
  | op :: t => '(s1, r) <- pl_step s op ;; '(s2, rs) <- pl_run s1 t ;; Ok (s2, r :: rs)
  end.
End Prio.
