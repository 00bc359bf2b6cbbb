(** Model of pfrl/utils/random.py:4-28 [sample_n_k] and of RandomAccessQueue.sample. *)
From Verif Require Import Base M_RandomAccessQueue.

(** The generator as an oracle: [choice_norepl] is the outcome of [np.random.choice(n, k, replace=False)] (line 12),
    [draw 0] the outcome of [np.random.choice(n, 2*k)] (line 14) and [draw r], r >= 1, the outcome of the r-th refill
    [np.random.choice(n, k)] (line 25). *)
Record oracle := { choice_norepl : list nat; draw : nat -> list nat }.

(** Local variables of the rejection branch: [result], [selected], [j], and the number of generator calls so far. *)
Record snk := mkSnk { res : list nat; sel : list nat; jj : nat; calls : nat }.

Definition memb (x : nat) (l : list nat) : bool := existsb (Nat.eqb x) l.

(** random.py:20-26, the [while x in selected] loop.  It is unbounded in Python; [fuel] bounds it here. *)
Fixpoint reject (fuel : nat) (o : oracle) (k i : nat) (s : snk) (x : nat) : result (snk * nat) :=
  if memb x (sel s) then
    match fuel with
    | O => Err OutOfFuel
    | S f =>
        match nth_error (res s) (jj s) with
        | None => Err IndexError
        | Some y =>
            let r := list_set (res s) i y in
            let j := S (jj s) in
            if j =? 2 * k
            then reject f o k i (mkSnk (firstn k r ++ draw o (calls s)) (sel s) k (S (calls s))) y
            else reject f o k i (mkSnk r (sel s) j (calls s)) y
        end
    end
  else Ok (s, x).

(** random.py:18-27, the [for i in range(k)] loop ([is] are the remaining values of [i]). *)
Fixpoint pick (fuel : nat) (o : oracle) (k : nat) (is : list nat) (s : snk) : result snk :=
  match is with
  | [] => Ok s
  | i :: t =>
      match nth_error (res s) i with
      | None => Err IndexError
      | Some x =>
          '(s', x') <- reject fuel o k i s x ;;
          pick fuel o k t (mkSnk (res s') (x' :: sel s') (jj s') (calls s'))
      end
  end.

(** random.py:4-28 [sample_n_k].  Arguments are Python ints. *)
Definition sample_n_k (fuel : nat) (o : oracle) (n k : Z) : result (list nat) :=
  if negb ((0 <=? k) && (k <=? n))%Z then Err ValueError
  else if (k =? 0)%Z then Ok []
  else if (n <=? 3 * k)%Z then Ok (choice_norepl o)
  else
    let k := Z.to_nat k in
    s <- pick fuel o k (seq 0 k) (mkSnk (draw o 0) [] k 1) ;;
    Ok (firstn k (res s)).

(** random_access_queue.py:100-101 [RandomAccessQueue.sample]. *)
Definition raq_sample {A} (fuel : nat) (o : oracle) (q : raq A) (k : Z) : result (list A) :=
  ixs <- sample_n_k fuel o (Z.of_nat (raq_len q)) k ;; raq_getmany q ixs.
