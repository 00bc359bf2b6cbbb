(** Model of pfrl/collections/random_access_queue.py (whole file). *)
From Verif Require Import Base.

Section RAQ.
Context {A : Type}.

(** random_access_queue.py:13-18.  [front] is [_queue_front] (stored reversed: its last element is the oldest),
    [back] is [_queue_back]. *)
Record raq := mkRaq { maxlen : option nat; front : list A; back : list A }.

(** random_access_queue.py:31-32 [__len__]. *)
Definition raq_len (q : raq) : nat := length (front q) + length (back q).

(** random_access_queue.py:89-98 [popleft]. *)
Definition raq_popleft (q : raq) : result (raq * A) :=
  match front q with
  | [] =>
      match back q with
      | [] => Err IndexError
      | _ =>
          (* lines 94-96: front becomes the reversed back, back becomes empty *)
          '(f, x) <- py_pop (rev (back q)) ;; Ok (mkRaq (maxlen q) f [], x)
      end
  | _ => '(f, x) <- py_pop (front q) ;; Ok (mkRaq (maxlen q) f (back q), x)
  end.

(** random_access_queue.py:20-23 [_apply_maxlen].  The [while] loop runs at most [len(self)] times (popleft
    removes one element), so [fuel = len(self)] at the call; exhaustion is an error. *)
Fixpoint apply_maxlen_loop (fuel : nat) (m : nat) (q : raq) : result raq :=
  if m <? raq_len q then
    match fuel with
    | O => Err OutOfFuel
    | S f => '(q', _) <- raq_popleft q ;; apply_maxlen_loop f m q'
    end
  else Ok q.
Definition raq_apply_maxlen (q : raq) : result raq :=
  match maxlen q with
  | None => Ok q
  | Some m => apply_maxlen_loop (raq_len q) m q
  end.

(** random_access_queue.py:13-18 [__init__]; [maxlen >= 0] is enforced by the type. *)
Definition raq_init (ml : option nat) (xs : list A) : result raq :=
  raq_apply_maxlen (mkRaq ml [] xs).

(** random_access_queue.py:25-26 [__iter__]. *)
Definition raq_iter (q : raq) : list A := rev (front q) ++ back q.

(** random_access_queue.py:34-55 [__getitem__]. [Z.lnot] is Python's [~]. *)
Definition raq_getitem (q : raq) (i : Z) : result A :=
  if (0 <=? i)%Z then
    let nf := Z.of_nat (length (front q)) in
    if (i <? nf)%Z then py_get (front q) (Z.lnot i)
    else
      let i := (i - nf)%Z in
      if (i <? Z.of_nat (length (back q)))%Z then py_get (back q) i
      else Err IndexError
  else
    let nb := Z.of_nat (length (back q)) in
    if (- nb <=? i)%Z then py_get (back q) i
    else
      let i := (i + nb)%Z in
      if (- Z.of_nat (length (front q)) <=? i)%Z then py_get (front q) (Z.lnot i)
      else Err IndexError.

(** random_access_queue.py:57-78 [__setitem__]. *)
Definition raq_setitem (q : raq) (i : Z) (x : A) : result raq :=
  if (0 <=? i)%Z then
    let nf := Z.of_nat (length (front q)) in
    if (i <? nf)%Z then f <- py_set (front q) (Z.lnot i) x ;; Ok (mkRaq (maxlen q) f (back q))
    else
      let i := (i - nf)%Z in
      if (i <? Z.of_nat (length (back q)))%Z
      then b <- py_set (back q) i x ;; Ok (mkRaq (maxlen q) (front q) b)
      else Err IndexError
  else
    let nb := Z.of_nat (length (back q)) in
    if (- nb <=? i)%Z then b <- py_set (back q) i x ;; Ok (mkRaq (maxlen q) (front q) b)
    else
      let i := (i + nb)%Z in
      if (- Z.of_nat (length (front q)) <=? i)%Z
      then f <- py_set (front q) (Z.lnot i) x ;; Ok (mkRaq (maxlen q) f (back q))
      else Err IndexError.

(** random_access_queue.py:80-83 [append]. *)
Definition raq_append (q : raq) (x : A) : result raq :=
  let q := mkRaq (maxlen q) (front q) (back q ++ [x]) in
  match maxlen q with
  | None => Ok q
  | Some m => if m <? raq_len q then '(q', _) <- raq_popleft q ;; Ok q' else Ok q
  end.

(** random_access_queue.py:85-87 [extend]. *)
Definition raq_extend (q : raq) (xs : list A) : result raq :=
  raq_apply_maxlen (mkRaq (maxlen q) (front q) (back q ++ xs)).

(** random_access_queue.py:100-101 [sample]; the indices come from [sample_n_k] (modelled in M_SampleNK). *)
Fixpoint raq_getmany (q : raq) (ixs : list nat) : result (list A) :=
  match ixs with
  | [] => Ok []
  | i :: t => a <- raq_getitem q (Z.of_nat i) ;; r <- raq_getmany q t ;; Ok (a :: r)
  end.

(** The public operations as one step function.  A raised exception leaves the queue as it was: every branch above
    raises before the first mutation. *)
Inductive raq_op :=
| OLen | OIter | OGet (i : Z) | OSet (i : Z) (x : A) | OAppend (x : A) | OExtend (xs : list A) | OPopleft.
Inductive raq_out :=
| RUnit | RLen (n : nat) | RList (l : list A) | RVal (x : A) | RExn (e : exn).

Definition raq_step (q : raq) (o : raq_op) : raq * raq_out :=
  match o with
  | OLen => (q, RLen (raq_len q))
  | OIter => (q, RList (raq_iter q))
  | OGet i => (q, match raq_getitem q i with Ok x => RVal x | Err e => RExn e end)
  | OSet i x => match raq_setitem q i x with Ok q' => (q', RUnit) | Err e => (q, RExn e) end
  | OAppend x => match raq_append q x with Ok q' => (q', RUnit) | Err e => (q, RExn e) end
  | OExtend xs => match raq_extend q xs with Ok q' => (q', RUnit) | Err e => (q, RExn e) end
  | OPopleft => match raq_popleft q with Ok (q', x) => (q', RVal x) | Err e => (q, RExn e) end
  end.
End RAQ.
Arguments raq : clear implicits.
Arguments raq_op : clear implicits.
Arguments raq_out : clear implicits.
