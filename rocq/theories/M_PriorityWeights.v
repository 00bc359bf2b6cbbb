(** Model of pfrl/replay_buffers/prioritized.py:9-66 [PriorityWeightError] and 117-126 (sample, update_errors).
    Real numbers, because of the real powers. *)
From Coq Require Import Reals QArith Qreals.
From Verif Require Import Base M_Prioritized.
Local Open Scope R_scope.

Inductive normalize := NoNorm | NormBatch | NormMemory.
Record pwe := mkPwe { alpha : R; beta : R; beta_add : R; eps : R; norm : normalize; error_min : option R; error_max : option R }.

(** prioritized.py:28-45 [__init__]; betasteps None or a number.  normalize_by_max True is NormBatch. *)
Definition pwe_init (al beta0 : R) (betasteps : option R) (ep : R) (nm : normalize) (emin emax : option R) : result pwe :=
  if Rle_dec 0 al then
    if Rle_dec 0 beta0 then
      if Rle_dec beta0 1 then
        match betasteps with
        | None => Ok (mkPwe al beta0 0 ep nm emin emax)
        | Some n => if Req_EM_T n 0 then Err ZeroDivisionError else Ok (mkPwe al beta0 ((1 - beta0) / n) ep nm emin emax)
        end
      else Err AssertionError
    else Err AssertionError
  else Err AssertionError.

(** Python's x ** y for a positive base.  Bases that are not positive are outside the model (ValueError here). *)
Definition pypow (x y : R) : result R := if Rlt_dec 0 x then Ok (Rpower x y) else Err ValueError.

Fixpoint mapR {X Y} (f : X -> result Y) (l : list X) : result (list Y) :=
  match l with [] => Ok [] | x :: t => y <- f x ;; r <- mapR f t ;; Ok (y :: r) end.

(** prioritized.py:47-55 [priority_from_errors]. *)
Definition clip_error (w : pwe) (d : R) : R :=
  let d := match error_min w with None => d | Some m => Rmax m d end in
  match error_max w with None => d | Some m => Rmin m d end.
Definition priority_from_errors (w : pwe) (errors : list R) : result (list R) :=
  mapR (fun d => pypow (clip_error w d + eps w) (alpha w)) errors.

(** numpy.min of a list; ValueError if empty. *)
Fixpoint np_min (l : list R) : result R :=
  match l with [] => Err ValueError | [x] => Ok x | x :: t => m <- np_min t ;; Ok (Rmin x m) end.

(** prioritized.py:57-66 [weights_from_probabilities]; [n] is len(self.memory). *)
Definition weights_from_probabilities (w : pwe) (n : nat) (probs : list R) (min_prob : R) : result (pwe * list R) :=
  mp <- (match norm w with NormBatch => np_min probs | _ => Ok min_prob end) ;;
  ws <- (match norm w with
         | NoNorm => mapR (fun p => pypow (INR n * p) (- beta w)) probs
         | _ => mapR (fun p => pypow (p / mp) (- beta w)) probs
         end) ;;
  Ok (mkPwe (alpha w) (Rmin 1 (beta w + beta_add w)) (beta_add w) (eps w) (norm w) (error_min w) (error_max w), ws).

(** prioritized.py:117-123 [PrioritizedReplayBuffer.sample]: memory.sample(n) has uniform_ratio 0.  The weight is stored in
    the first transition of each sampled window; here it is returned beside the window. *)
Definition prb_sample {A} (w : pwe) (b : pbuf A) (n : nat) (o : soracle) : result (pwe * pbuf A * list (A * R)) :=
  _ <- passert (n <=? length (data b))%nat ;;
  '(b', (xs, ps, m)) <- pb_sample b o 0%Q ;;
  '(w', ws) <- weights_from_probabilities w (length (data b)) (map Q2R ps) (Q2R m) ;;
  Ok (w', b', combine xs ws).
