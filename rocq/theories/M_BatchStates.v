(** Model of pfrl/utils/batch_states.py:7-36 (batch_states, _to_recursive) and of torch.utils.data default_collate as it is used there.
    An array is its shape and its elements in order; a number is an array of shape []; dtypes and devices are left out.  Where default_collate is given observations of different kinds, torch
    raises some exception or other; the model says RuntimeError. *)
From Coq Require Import QArith.
From Verif Require Import Base M_Batch.
Close Scope Q_scope.

Record array := mkArray { shape : list nat; elements : list Q }.
Inductive observation :=
| Arr (a : array)
| Seq (is_tuple : bool) (l : list observation)   (* a tuple or a list *)
| Map (l : list (nat * observation))             (* a dict *)
| Other.                                         (* anything default_collate leaves or refuses *)
(** Tensor: a stacked tensor, its rows. *)
Inductive batched := Tensor (rows : list array) | Bseq (is_tuple : bool) (l : list batched) | Bmap (l : list (nat * batched)).

Definition same_shape (a b : array) : bool := if list_eq_dec Nat.eq_dec (shape a) (shape b) then true else false.
(** torch.stack: RuntimeError unless all have the shape of the first *)
Definition stack (l : list array) : result batched :=
  match l with [] => Err RuntimeError | a :: t => if forallb (same_shape a) t then Ok (Tensor l) else Err RuntimeError end.
Definition as_array (o : observation) : result array := match o with Arr a => Ok a | _ => Err RuntimeError end.
Definition as_seq (o : observation) : result (list observation) := match o with Seq _ l => Ok l | _ => Err RuntimeError end.
Definition as_map (k : nat) (o : observation) : result observation :=
  match o with Map l => match find (fun kv => fst kv =? k) l with Some kv => Ok (snd kv) | None => Err KeyError end | _ => Err RuntimeError end.

(** default_collate of the observations [batch] (the first of them included), by the kind of the first one.  Sequences must have the length of the first (RuntimeError); their elements are
    collated place by place; of a tuple of tuples the result is a list (for compatibility, says torch). *)
Fixpoint collate (first : observation) (batch : list observation) : result batched :=
  match first with
  | Arr _ => l <- rmapM as_array batch ;; stack l
  | Seq _ comps =>
      ls <- rmapM as_seq batch ;;
      _ <- (if forallb (fun l => length l =? length comps) ls then Ok tt else Err RuntimeError) ;;
      cs <- (fix go (comps : list observation) (ls : list (list observation)) : result (list batched) :=
               match comps with
               | [] => Ok []
               | c :: comps => heads <- rmapM (fun l => py_get l 0) ls ;; x <- collate c heads ;; xs <- go comps (map (@tl observation) ls) ;; Ok (x :: xs)
               end) comps ls ;;
      Ok (Bseq false cs)
  | Map comps =>
      cs <- (fix go (comps : list (nat * observation)) : result (list (nat * batched)) :=
               match comps with
               | [] => Ok []
               | (k, c) :: comps => vals <- rmapM (as_map k) batch ;; x <- collate c vals ;; xs <- go comps ;; Ok ((k, x) :: xs)
               end) comps ;;
      Ok (Bmap cs)
  | Other => Err TypeError
  end.

(** 7-15: x.to(device) is an AttributeError if x is not a tensor *)
Definition to_tensor (b : batched) : result batched := match b with Tensor _ => Ok b | _ => Err AttributeError end.
Definition to_recursive (b : batched) : result batched :=
  match b with
  | Tensor _ => Ok b
  | Bseq is_tuple l => l <- rmapM to_tensor l ;; Ok (Bseq is_tuple l)
  | Bmap _ => Err TypeError
  end.
(** 31-36: default_collate of no features is an IndexError.  [tuple(collated_features)] of a list; of a tensor (a first observation that is a tuple is never collated to one). *)
Definition batch_states {S} (states : list S) (phi : S -> observation) : result batched :=
  let features := map phi states in
  match features with
  | [] => Err IndexError
  | f :: _ =>
      c <- collate f features ;;
      to_recursive (match f, c with Seq true _, Bseq _ l => Bseq true l | _, _ => c end)
  end.
