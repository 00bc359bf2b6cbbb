(** Specification for C46, C53, C54, C55. *)
From Verif Require Import Base M_ReplayBuffer M_Batch M_Recurrent.
Close Scope Q_scope.

(** How many of the sequences are longer than [t]. *)
Definition n_longer {X} (l : list (list X)) (t : nat) : nat := length (filter (fun s => t <? length s) l).
(** Place of element [t] of sequence [j] when everything is ordered by time first, then by sequence: all elements of earlier
    times, and the elements of the same time in earlier sequences, come before. *)
Definition place {X} (l : list (list X)) (t j : nat) : nat :=
  list_sum (map (n_longer l) (seq 0 t)) + n_longer (firstn j l) t.

(** Leaf of a nested tuple at a path of indices. *)
Fixpoint leaf_at {L} (t : tree L) (p : list nat) {struct p} : option L :=
  match p, t with
  | [], Leaf x => Some x
  | i :: p, Tup l => match nth_error l i with Some c => leaf_at c p | None => None end
  | _, _ => None
  end.
(** Same nesting. *)
Inductive same_shape {L M} : tree L -> tree M -> Prop :=
| ss_leaf x y : same_shape (Leaf x) (Leaf y)
| ss_tup l l' : Forall2 same_shape l l' -> same_shape (Tup l) (Tup l').

(** Shapes of a single sequence's recurrent state: a tensor with the number of features of each layer, or a tuple. *)
Inductive shape := ShT (dims : list nat) | ShU (l : list shape).
Inductive has_shape : shape -> rstate tens1 -> Prop :=
| hs_t (t : tens1) : has_shape (ShT (map (@length _) t)) (RTen t)
| hs_u l ss : Forall2 has_shape l ss -> has_shape (ShU l) (RTup ss).
Fixpoint zero_state (sh : shape) : rstate tens1 :=
  match sh with ShT d => RTen (map (fun n => repeat 0%Q n) d) | ShU l => RTup (map zero_state l) end.
Fixpoint depth (sh : shape) : nat := match sh with ShT _ => 0 | ShU l => S (list_max (map depth l)) end.

(** Two states agree number by number up to [R]. *)
Inductive rs_rel (R : Q -> Q -> Prop) : rstate tens1 -> rstate tens1 -> Prop :=
| rr_none : rs_rel R RNone RNone
| rr_ten (t t' : tens1) : Forall2 (Forall2 R) t t' -> rs_rel R (RTen t) (RTen t')
| rr_tup l l' : Forall2 (rs_rel R) l l' -> rs_rel R (RTup l) (RTup l').

(** ** Sequential models: the plain composition.  Every layer maps packed sequences to packed sequences: a recurrent layer
    takes the next state, another layer is applied to the packed data. *)
Fixpoint compose {X ST} (info : list nat * option (list nat)) (ls : list (layer X ST)) (h : tree (packed X)) (states : list (option ST)) :
  result (tree (packed X) * list ST) :=
  match ls, states with
  | [], _ => Ok (h, [])
  | LRec f :: t, s :: states => '(h', s') <- f h s ;; '(out, r) <- compose info t h' states ;; Ok (out, s' :: r)
  | LRec f :: t, [] => Err IndexError
  | LFf f :: t, states => d <- f (unwrap h) ;; compose info t (wrap (fst info) (snd info) d) states
  end.

(** All tensors of a batched state hold [B] sequences. *)
Inductive batch_of (B : nat) : rstate tensB -> Prop :=
| bo_none : batch_of B RNone
| bo_ten t : Forall (fun layer => length layer = B) t -> batch_of B (RTen t)
| bo_tup l : Forall (batch_of B) l -> batch_of B (RTup l).

(** States to be concatenated: each is None or has the shape [sh]. *)
Definition states_ok (sh : shape) (l : list (rstate tens1)) : Prop :=
  Forall (fun s => s = RNone) l \/ (Forall (fun s => s = RNone \/ has_shape sh s) l /\ Exists (has_shape sh) l).
(** What sequence [s]'s state is inside the batch: its own state; zeros for None, unless all are None. *)
Definition in_batch (sh : shape) (l : list (rstate tens1)) (s : rstate tens1) : rstate tens1 :=
  match s with
  | RNone => if forallb (fun s => match s with RNone => true | _ => false end) l then RNone else zero_state sh
  | _ => s
  end.

(** A feature of the first transition of every episode. *)
Definition starts {T V} (g : T -> V) (eps : list (list T)) : list V :=
  flat_map (fun e => match e with x :: _ => [g x] | [] => [] end) eps.

(** Place of step [t] of episode [j] in the flat, time-first data of episodes sorted by decreasing length. *)
Definition flat_place {X} (l : list (list X)) (t j : nat) : nat := list_sum (map (n_longer l) (seq 0 t)) + j.

(** Masked entries are zero, others unchanged. *)
Definition mask_rel (masked : bool) (x y : Q) : Prop := if masked then (y == 0)%Q else (y == x)%Q.
