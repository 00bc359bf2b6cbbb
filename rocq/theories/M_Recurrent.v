(** Model of pfrl/utils/recurrent.py, pfrl/nn/recurrent_sequential.py, pfrl/nn/recurrent_branched.py and
    replay_buffer.py:215-287 (batch_recurrent_experiences). *)
From Coq Require Export QArith.
From Verif Require Import Base M_ReplayBuffer M_Batch.
Close Scope Q_scope.

(** ** utils/recurrent.py:177-192 [flatten_sequences_time_first] *)
(** Python objects as elements; [None] is Python's None. *)
Section ZipLongest.
Context {X : Type}.
Definition heads (l : list (list (option X))) : list (option X) :=
  map (fun s => match s with [] => None | x :: _ => x end) l.
Definition all_empty (l : list (list (option X))) : bool := forallb (fun s => match s with [] => true | _ => false end) l.
(** itertools.zip_longest with the default fill value None; [fuel] at least the longest length. *)
Fixpoint zip_longest (fuel : nat) (l : list (list (option X))) : list (list (option X)) :=
  match fuel with
  | O => []
  | S n => if all_empty l then [] else heads l :: zip_longest n (map (@tl _) l)
  end.
Definition not_none (row : list (option X)) : list X := flat_map (fun o => match o with Some x => [x] | None => [] end) row.
Definition flatten_sequences_time_first (l : list (list (option X))) : list X :=
  flat_map not_none (zip_longest (list_max (map (@length _) l)) l).
End ZipLongest.

(** ** torch.nn.utils.rnn.pack_sequence(seqs), enforce_sorted=True (torch, by its documentation): empty batch or empty
    sequence, or lengths not sorted in decreasing order: RuntimeError.  Tensors are lists over the time axis. *)
Record packed (X : Type) := mkPacked { p_data : list X; p_sizes : list nat; p_sorted : option (list nat) }.
Arguments mkPacked {X}. Arguments p_data {X}. Arguments p_sizes {X}. Arguments p_sorted {X}.
Fixpoint sorted_desc {X} (l : list (list X)) : bool :=
  match l with
  | a :: (b :: _) as t => (length b <=? length a) && sorted_desc t
  | _ => true
  end.
Definition batch_size_at {X} (l : list (list X)) (t : nat) : nat := length (filter (fun s => t <? length s) l).
Definition torch_pack {X} (l : list (list X)) : result (packed X) :=
  match l with
  | [] => Err RuntimeError
  | first :: _ =>
      if existsb (fun s => length s =? 0) l then Err RuntimeError
      else if negb (sorted_desc l) then Err RuntimeError
      else
        let sizes := map (batch_size_at l) (seq 0 (length first)) in
        Ok (mkPacked
              (flat_map (fun t => flat_map (fun s => match nth_error s t with Some x => [x] | None => [] end)
                                    (firstn (batch_size_at l t) l)) (seq 0 (length first)))
              sizes None)
  end.

(** ** Nested tuples of tensors / packed sequences *)
Inductive tree (L : Type) := Leaf (x : L) | Tup (l : list (tree L)).
Arguments Leaf {L} x. Arguments Tup {L} l.

(** utils/recurrent.py:244-271 [pack_sequences_recursive]; sequences that are neither tensors nor tuples are not modelled.
    Mixed batches (a tensor where the first sequence has a tuple, or the other way round) are a TypeError here. *)
Definition as_leaf {L} (t : tree L) : result L := match t with Leaf x => Ok x | Tup _ => Err TypeError end.
Definition child {L} (i : nat) (t : tree L) : result (tree L) :=
  match t with
  | Leaf _ => Err TypeError
  | Tup l => match nth_error l i with Some c => Ok c | None => Err IndexError end
  end.
Fixpoint pack_rec {X} (first : tree (list X)) (seqs : list (tree (list X))) {struct first} : result (tree (packed X)) :=
  match first with
  | Leaf _ => ls <- rmapM as_leaf seqs ;; p <- torch_pack ls ;; Ok (Leaf p)
  | Tup fs =>
      ps <- (fix go (i : nat) (fs : list (tree (list X))) : result (list (tree (packed X))) :=
               match fs with
               | [] => Ok []
               | f :: t => cs <- rmapM (child i) seqs ;; p <- pack_rec f cs ;; r <- go (S i) t ;; Ok (p :: r)
               end) 0 fs ;;
      Ok (Tup ps)
  end.
Definition pack_sequences_recursive {X} (seqs : list (tree (list X))) : result (tree (packed X)) :=
  match seqs with [] => Err AssertionError | f :: _ => pack_rec f seqs end.

(** utils/recurrent.py:195-216 [wrap_packed_sequences_recursive], 219-241 [unwrap_packed_sequences_recursive]. *)
Fixpoint wrap {X} (sizes : list nat) (sorted : option (list nat)) (t : tree (list X)) : tree (packed X) :=
  match t with Leaf x => Leaf (mkPacked x sizes sorted) | Tup l => Tup (map (wrap sizes sorted) l) end.
Fixpoint unwrap {X} (t : tree (packed X)) : tree (list X) :=
  match t with Leaf p => Leaf (p_data p) | Tup l => Tup (map unwrap l) end.

(** utils/recurrent.py:274-292 [get_packed_sequence_info]: the first packed sequence found, None if there is none. *)
Fixpoint packed_info {X} (t : tree (packed X)) : option (list nat * option (list nat)) :=
  match t with
  | Leaf p => Some (p_sizes p, p_sorted p)
  | Tup l => (fix go l := match l with [] => None | x :: r => match packed_info x with Some i => Some i | None => go r end end) l
  end.

(** utils/recurrent.py:121-131 [pack_one_step_batch_as_sequences] and 134-140 [unpack_sequences_as_one_step_batch]; a batch
    of no elements is an IndexError (seqs[0]). *)
Fixpoint pack_one_step {X} (t : tree (list X)) : result (tree (packed X)) :=
  match t with
  | Leaf [] => Err IndexError
  | Leaf xs => p <- torch_pack (map (fun x => [x]) xs) ;; Ok (Leaf p)
  | Tup l => ps <- (fix go l := match l with [] => Ok [] | x :: r => p <- pack_one_step x ;; q <- go r ;; Ok (p :: q) end) l ;;
             Ok (Tup ps)
  end.

(** ** Recurrent states: None, a tensor, or a tuple of recurrent states *)
Inductive rstate (T : Type) := RNone | RTen (t : T) | RTup (l : list (rstate T)).
Arguments RNone {T}. Arguments RTen {T} t. Arguments RTup {T} l.
(** A tensor of one sequence's state: layers x features; a batched one: layers x batch x features. *)
Definition tens1 := list (list Q).
Definition tensB := list (list (list Q)).

Fixpoint traverse {T U} (f : T -> result U) (s : rstate T) : result (rstate U) :=
  match s with
  | RNone => Ok RNone
  | RTen t => u <- f t ;; Ok (RTen u)
  | RTup l => us <- (fix go l := match l with [] => Ok [] | x :: r => y <- traverse f x ;; q <- go r ;; Ok (y :: q) end) l ;;
              Ok (RTup us)
  end.

(** utils/recurrent.py:30-53 [mask_recurrent_state_at]: mask[:, indices] = 0, multiplied elementwise.  Indices are
    non-negative here. *)
Definition mask_tensor (indices : list nat) (t : tensB) : result tensB :=
  rmapM (fun layer : list (list Q) =>
    if forallb (fun i => i <? length layer) indices
    then Ok (map (fun ib : nat * list Q => map (fun q => (q * (if existsb (Nat.eqb (fst ib)) indices then 0 else 1))%Q) (snd ib))
               (combine (seq 0 (length layer)) layer))
    else Err IndexError) t.
Definition mask_recurrent_state_at (s : rstate tensB) (indices : list nat) : result (rstate tensB) :=
  traverse (mask_tensor indices) s.

(** utils/recurrent.py:56-79 [get_recurrent_state_at] with one index; detach has no effect on the values. *)
Definition get_tensor (i : nat) (t : tensB) : result tens1 :=
  rmapM (fun layer => match nth_error layer i with Some v => Ok v | None => Err IndexError end) t.
Definition get_recurrent_state_at (s : rstate tensB) (i : nat) : result (rstate tens1) := traverse (get_tensor i) s.

(** torch.stack / np.stack along axis 1 of tensors of equal shape (ValueError/RuntimeError otherwise). *)
Definition shape_eqb (a b : tens1) : bool :=
  (length a =? length b) && forallb (fun p => length (fst p) =? length (snd p)) (combine a b).
Definition zeros_like (t : tens1) : tens1 := map (map (fun _ => 0%Q)) t.
Definition stack (ts : list tens1) : result tensB :=
  match ts with
  | [] => Err ValueError
  | t0 :: _ =>
      if forallb (shape_eqb t0) ts
      then Ok (map (fun l => map (fun t => nth l t []) ts) (seq 0 (length t0)))
      else Err ValueError
  end.

(** utils/recurrent.py:82-118 [concatenate_recurrent_states]; [fuel] bounds the nesting depth. *)
Fixpoint first_non_none (l : list (rstate tens1)) : option (rstate tens1) :=
  match l with [] => None | RNone :: t => first_non_none t | s :: _ => Some s end.
Fixpoint concatenate_recurrent_states (fuel : nat) (l : list (rstate tens1)) : result (rstate tensB) :=
  match first_non_none l with
  | None => Ok RNone
  | Some RNone => Ok RNone
  | Some (RTen t0) =>
      ts <- rmapM (fun s => match s with RNone => Ok (zeros_like t0) | RTen t => Ok t | RTup _ => Err TypeError end) l ;;
      r <- stack ts ;; Ok (RTen r)
  | Some (RTup l0) =>
      match fuel with
      | O => Err OutOfFuel
      | S n =>
          cs <- rmapM (fun i =>
                  col <- rmapM (fun s => match s with
                                | RNone => Ok RNone
                                | RTup ss => match nth_error ss i with Some c => Ok c | None => Err IndexError end
                                | RTen _ => Err TypeError
                                end) l ;;
                  concatenate_recurrent_states n col) (seq 0 (length l0)) ;;
          Ok (RTup cs)
      end
  end.

(** ** nn/recurrent_sequential.py:26-53 [RecurrentSequential.forward] *)
(** Layers are arbitrary functions. *)
Section Sequential.
Context {X ST : Type}.
Inductive layer :=
| LRec (f : tree (packed X) -> option ST -> result (tree (packed X) * ST))
| LFf (f : tree (list X) -> result (tree (list X))).
Inductive hval := HW (h : tree (packed X)) | HU (h : tree (list X)).
Definition is_rec (l : layer) : bool := match l with LRec _ => true | LFf _ => false end.
Definition n_rec (ls : list layer) : nat := length (filter is_rec ls).

(** The loop 36-49.  [queue] is the reversed state list, popped at its end. *)
Fixpoint seq_loop (info : list nat * option (list nat)) (ls : list layer) (h : hval) (queue : list (option ST)) (new : list ST) :
  result (hval * list (option ST) * list ST) :=
  match ls with
  | [] => Ok (h, queue, new)
  | LRec f :: t =>
      let hw := match h with HW w => w | HU u => wrap (fst info) (snd info) u end in
      '(queue', rs) <- py_pop queue ;;
      '(h', rs') <- f hw rs ;;
      seq_loop info t (HW h') queue' (new ++ [rs'])
  | LFf f :: t =>
      let hu := match h with HW w => unwrap w | HU u => u end in
      h' <- f hu ;;
      seq_loop info t (HU h') queue new
  end.
Definition sequential_forward (ls : list layer) (h : tree (packed X)) (state : option (list (option ST))) :
  result (tree (packed X) * list ST) :=
  queue <- (match state with
            | None => Ok (repeat None (n_rec ls))
            | Some st => _ <- passert (length st =? n_rec ls) ;; Ok (rev st)
            end) ;;
  match packed_info h with
  | None => Err TypeError
  | Some info =>
      '(h', queue', new) <- seq_loop info ls (HW h) queue [] ;;
      let out := match h' with HW w => w | HU u => wrap (fst info) (snd info) u end in
      _ <- passert (length queue' =? 0) ;;
      _ <- passert (length new =? n_rec ls) ;;
      Ok (out, new)
  end.

(** nn/recurrent_branched.py:19-26 [RecurrentBranched.forward].  [ValueError] for no branches (unpacking an empty tuple). *)
Definition branched_forward {Y} (branches : list (tree (packed X) -> option ST -> result (Y * ST))) (h : tree (packed X))
  (state : option (list (option ST))) : result (list Y * list ST) :=
  let sts := match state with None => repeat None (length branches) | Some s => s end in
  outs <- rmapM (fun p : (tree (packed X) -> option ST -> result (Y * ST)) * option ST => (fst p) h (snd p)) (combine branches sts) ;;
  match outs with [] => Err ValueError | _ => Ok (map fst outs, map snd outs) end.
End Sequential.
Arguments layer : clear implicits. Arguments hval : clear implicits.

(** ** replay_buffer.py:215-287 *)
Section BatchRecurrent.
Context {S A : Type}.
(** Transition of an episodic buffer: also the recurrent states before and after the step. *)
Record rexper := mkRex { r_exp : exper S A; r_rs : rstate tens1; r_nrs : rstate tens1 }.
Notation rtr := (trans rexper).
Record rbatch := mkRBatch {
  rb_state : list (list S); rb_action : list A; rb_reward : list Q; rb_next_state : list (list S); rb_terminal : list Q;
  rb_discount : list Q; rb_rs : rstate tensB; rb_nrs : rstate tensB; rb_next_action : option (list A) }.

Definition batch_recurrent_experiences (fuel : nat) (gamma : Q) (eps : list (list rtr)) : result rbatch :=
  _ <- passert (sorted_desc eps) ;;
  let flat := flatten_sequences_time_first (map (map Some) eps) in
  rs0 <- rmapM (fun ep => t <- py_get ep 0 ;; Ok (r_rs (payload t))) eps ;;
  rs <- concatenate_recurrent_states fuel rs0 ;;
  nrs0 <- rmapM (fun ep => t <- py_get ep 0 ;; Ok (r_nrs (payload t))) eps ;;
  nrs <- concatenate_recurrent_states fuel nrs0 ;;
  let nas := map (fun t => x_next_action (r_exp (payload t))) flat in
  Ok (mkRBatch
        (map (map (fun t => x_state (r_exp (payload t)))) eps)
        (map (fun t => x_action (r_exp (payload t))) flat)
        (map (fun t => x_reward (r_exp (payload t))) flat)
        (map (map (fun t => x_next_state (r_exp (payload t)))) eps)
        (map (fun t => if terminal t then 1%Q else 0%Q) flat)
        (repeat gamma (length flat)) rs nrs
        (if forallb (fun o => match o with Some _ => true | None => false end) nas then Some (not_none nas) else None)).
End BatchRecurrent.
Arguments rexper : clear implicits. Arguments rbatch : clear implicits.
