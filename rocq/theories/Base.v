(** Shared vocabulary: Python exceptions as values, Python list indexing.
    No proofs about pfrl here; only the meaning given to Python constructs. *)
From Coq Require Export List Arith ZArith Lia Bool.
Export ListNotations.

(** Python exception classes that the modelled code can raise.  [OutOfFuel] is not a Python exception:
    it marks exhaustion of the fuel that bounds an unbounded Python loop in the model. *)
Inductive exn :=
| IndexError | ValueError | AssertionError | KeyError | TypeError | RuntimeError
| ZeroDivisionError | NotImplementedError | AttributeError | StopIteration | OutOfFuel.

Inductive result (A : Type) :=
| Ok (a : A)
| Err (e : exn).
Arguments Ok {A} a.
Arguments Err {A} e.

Definition rbind {A B} (x : result A) (f : A -> result B) : result B :=
  match x with Ok a => f a | Err e => Err e end.
Notation "x <- e ;; k" := (rbind e (fun x => k)) (at level 61, e at next level, right associativity).
Notation "' p <- e ;; k" := (rbind e (fun p => k)) (at level 61, p pattern, e at next level, right associativity).

Definition rmap {A B} (f : A -> B) (x : result A) : result B :=
  match x with Ok a => Ok (f a) | Err e => Err e end.

(** [assert b]: Python's assert statement. *)
Definition passert (b : bool) : result unit := if b then Ok tt else Err AssertionError.

(** Python [l[i]] on a list, with Python's negative indices. *)
Definition py_get {A} (l : list A) (i : Z) : result A :=
  let j := if (i <? 0)%Z then (i + Z.of_nat (length l))%Z else i in
  if (j <? 0)%Z then Err IndexError
  else match nth_error l (Z.to_nat j) with Some a => Ok a | None => Err IndexError end.

(** Replace element [n]; leaves the list unchanged when [n] is out of range (callers check first). *)
Fixpoint list_set {A} (l : list A) (n : nat) (x : A) : list A :=
  match l, n with
  | [], _ => []
  | _ :: t, O => x :: t
  | h :: t, S m => h :: list_set t m x
  end.

(** Python [l[i] = x] on a list. *)
Definition py_set {A} (l : list A) (i : Z) (x : A) : result (list A) :=
  let j := if (i <? 0)%Z then (i + Z.of_nat (length l))%Z else i in
  if (j <? 0)%Z then Err IndexError
  else if (j <? Z.of_nat (length l))%Z then Ok (list_set l (Z.to_nat j) x) else Err IndexError.

(** Python [l.pop()]: the last element and the rest. *)
Fixpoint unsnoc {A} (l : list A) : option (list A * A) :=
  match l with
  | [] => None
  | [a] => Some ([], a)
  | a :: t => match unsnoc t with Some (i, z) => Some (a :: i, z) | None => None end
  end.
Definition py_pop {A} (l : list A) : result (list A * A) :=
  match unsnoc l with Some p => Ok p | None => Err IndexError end.

(** Keep the last [n] elements of a list (all if shorter). *)
Definition lastn {A} (n : nat) (l : list A) : list A := skipn (length l - n) l.
Arguments lastn : simpl never.

(** Truncation applied by a bounded deque / queue: [None] is unbounded. *)
Definition trunc {A} (maxlen : option nat) (l : list A) : list A :=
  match maxlen with None => l | Some m => lastn m l end.

(** [collections.deque(maxlen=m).append(x)]. *)
Definition deque_append {A} (maxlen : option nat) (l : list A) (x : A) : list A :=
  trunc maxlen (l ++ [x]).

Definition is_ok {A} (r : result A) : bool := match r with Ok _ => true | Err _ => false end.

(** Run a list of operations of a state machine, collecting the outputs. *)
Fixpoint run {S O R : Type} (step : S -> O -> S * R) (s : S) (ops : list O) : S * list R :=
  match ops with
  | [] => (s, [])
  | o :: t => let (s1, r) := step s o in let (s2, rs) := run step s1 t in (s2, r :: rs)
  end.
