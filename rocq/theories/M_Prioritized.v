(** Model of pfrl/collections/prioritized.py (whole file).  Priorities are exact rationals. *)
From Verif Require Import Base.
From Coq Require Export QArith.
Open Scope Q_scope.
Open Scope nat_scope.

(** prioritized.py:129-131.  A node is the Python list [], [None, None, value] or [left, right, value]. *)
Inductive node (V : Type) :=
| Emp
| Leaf (v : V)
| Br (l r : node V) (v : V).
Arguments Emp {V}.
Arguments Leaf {V} v.
Arguments Br {V} l r v.

(** [node[2]] of a non-empty node; None for the empty list. *)
Definition nval {V} (n : node V) : option V :=
  match n with Emp => None | Leaf v => Some v | Br _ _ v => Some v end.

Section Tree.
Context {V : Type}.
Variable op : list V -> V.

Definition opt_list (o : option V) : list V := match o with Some v => [v] | None => [] end.

(** prioritized.py:140-151 [_reduce]: the node with these children after reduction (emptied if both are empty). *)
Definition reduce (l r : node V) : node V :=
  match opt_list (nval l) ++ opt_list (nval r) with
  | [] => Emp
  | vs => Br l r (op vs)
  end.

(** prioritized.py:154-180 [_write]; returns the new node and the previous value.  Recursion halves the interval; [fuel]
    bounds the depth.  A leaf where an inner node is needed would make Python index into None: TypeError. *)
Fixpoint write (fuel : nat) (il ir : Z) (n : node V) (key : Z) (value : option V) : result (node V * option V) :=
  if (ir - il =? 1)%Z then
    Ok (match value with None => Emp | Some v => Leaf v end, nval n)
  else
    match fuel with
    | O => Err OutOfFuel
    | S f =>
        match n with
        | Leaf _ => Err TypeError
        | _ =>
            let '(l, r) := match n with Br l r _ => (l, r) | _ => (Emp, Emp) end in   (* lines 172-173 *)
            let ic := ((il + ir) / 2)%Z in
            if (key <? ic)%Z then
              '(l', ret) <- write f il ic l key value ;; Ok (reduce l' r, ret)
            else
              '(r', ret) <- write f ic ir r key value ;; Ok (reduce l r', ret)
        end
    end.

(** prioritized.py:183-196 [TreeQueue].  [tree = None] stands for the missing attributes root/bounds (length 0). *)
Record tqueue := mkTq { tlen : Z; tree : option (node V * Z * Z) }.
Definition tq_init : tqueue := mkTq 0 None.

Definition fuel_of (il ir : Z) : nat := Z.to_nat (Z.log2_up (ir - il)).

(** prioritized.py:203-205 [TreeQueue._write]. *)
Definition tq_write (q : tqueue) (ix : Z) (v : option V) : result (tqueue * option V) :=
  match tree q with
  | None => Err AttributeError
  | Some (root, il, ir) =>
      '(root', ret) <- write (fuel_of il ir) il ir root ix v ;; Ok (mkTq (tlen q) (Some (root', il, ir)), ret)
  end.

(** prioritized.py:198-201 [__setitem__]. *)
Definition tq_set (q : tqueue) (ix : Z) (v : V) : result (tqueue * option V) :=
  _ <- passert ((0 <=? ix) && (ix <? tlen q))%Z ;; tq_write q ix (Some v).

(** prioritized.py:207-223 [append]. *)
Definition tq_append (q : tqueue) (v : V) : result tqueue :=
  if (tlen q =? 0)%Z then Ok (mkTq 1 (Some (Leaf v, 0%Z, 1%Z)))
  else
    match tree q with
    | None => Err AttributeError
    | Some (root, il, ir) =>
        grown <- (if (ir =? tlen q)%Z
                  then match nval root with
                       | None => Err ValueError                       (* unpacking an empty list *)
                       | Some rv => Ok (Br root Emp rv, il, (ir + (ir - il))%Z)
                       end
                  else Ok (root, il, ir)) ;;
        '(q', ret) <- tq_write (mkTq (tlen q) (Some grown)) (tlen q) (Some v) ;;
        match ret with
        | Some _ => Err AssertionError
        | None => Ok (mkTq (tlen q + 1) (tree q'))
        end
    end.

(** prioritized.py:225-242 [popleft]. *)
Definition tq_popleft (q : tqueue) : result (tqueue * option V) :=
  _ <- passert (0 <? tlen q)%Z ;;
  '(q1, ret) <- tq_write q 0 None ;;
  match tree q1 with
  | None => Err AttributeError
  | Some (root, il, ir) =>
      let il := (il - 1)%Z in
      let ir := (ir - 1)%Z in
      let len := (tlen q - 1)%Z in
      if (len =? 0)%Z then Ok (mkTq 0 None, ret)
      else
        let ic := ((il + ir) / 2)%Z in
        if (ic =? 0)%Z then
          match root with
          | Br _ r _ => Ok (mkTq len (Some (r, ic, ir)), ret)
          | Emp => Err ValueError
          | Leaf _ => Err TypeError                                    (* the new root would be None *)
          end
        else Ok (mkTq len (Some (root, il, ir)), ret)
  end.
End Tree.
Arguments tqueue : clear implicits.

(** prioritized.py:270 op=sum: Python's [sum] of a list of one or two floats. *)
Definition op_sum (l : list Q) : Q := fold_left Qplus l 0%Q.
(** Python's strict comparison on floats. *)
Definition Qltb (x y : Q) : bool := negb (Qle_bool y x).
(** prioritized.py:317 op=min: Python's [min] keeps the first of equal elements. *)
Definition op_min (l : list Q) : Q :=
  match l with [] => 0%Q | a :: t => fold_left (fun m x => if Qltb x m then x else m) t a end.

(** prioritized.py:272-276 [SumTreeQueue.sum]. *)
Definition tq_sum (q : tqueue Q) : result Q :=
  if (tlen q =? 0)%Z then Ok 0%Q
  else match tree q with
       | Some (root, _, _) => match nval root with Some v => Ok v | None => Err IndexError end
       | None => Err AttributeError
       end.
(** prioritized.py:319-323 [MinTreeQueue.min]; None is numpy's inf. *)
Definition tq_min (q : tqueue Q) : result (option Q) :=
  if (tlen q =? 0)%Z then Ok None
  else match tree q with
       | Some (root, _, _) => match nval root with Some v => Ok (Some v) | None => Err IndexError end
       | None => Err AttributeError
       end.

(** prioritized.py:245-258 [_find].  Unpacking an empty node is a ValueError. *)
Fixpoint find (fuel : nat) (il ir : Z) (n : node Q) (pos : Q) : result Z :=
  if (ir - il =? 1)%Z then Ok il
  else
    match fuel with
    | O => Err OutOfFuel
    | S f =>
        match n with
        | Emp => Err ValueError
        | Leaf _ => Err TypeError
        | Br l r _ =>
            let ic := ((il + ir) / 2)%Z in
            let lv := match nval l with Some v => v | None => 0%Q end in
            if Qltb pos lv then find f il ic l pos else find f ic ir r (pos - lv)%Q
        end
    end.

(** Restoring written priorities: prioritized.py:288-290 and 308-310. *)
Fixpoint restore (q : tqueue Q) (ixs : list Z) (vals : list Q) : result (tqueue Q) :=
  match ixs, vals with
  | i :: is, v :: vs => '(q', _) <- tq_write op_sum q i (Some v) ;; restore q' is vs
  | _, _ => Ok q
  end.

(** prioritized.py:283-286: zero the given indices, returning the old values. *)
Fixpoint zero_out (q : tqueue Q) (ixs : list Z) : result (tqueue Q * list Q) :=
  match ixs with
  | [] => Ok (q, [])
  | i :: t =>
      '(q', ret) <- tq_write op_sum q i (Some 0%Q) ;;
      match ret with
      | None => Err AssertionError
      | Some v => '(q'', vs) <- zero_out q' t ;; Ok (q'', v :: vs)
      end
  end.

(** prioritized.py:278-292 [uniform_sample]; [ixs] is the outcome of [sample_n_k(self.length, n)]. *)
Definition uniform_sample (q : tqueue Q) (ixs : list Z) (remove : bool) : result (tqueue Q * list Z * list Q) :=
  '(q1, vals) <- zero_out q ixs ;;
  q2 <- (if remove then Ok q1 else restore q1 ixs vals) ;;
  Ok (q2, ixs, vals).

(** prioritized.py:301-306, the drawing loop.  [fs] are the outcomes of numpy's uniform generator in [0, 1);
    [np.random.uniform(0.0, s)] is [s * f]. *)
Fixpoint draw_loop (q : tqueue Q) (fs : list Q) : result (tqueue Q * list Z * list Q) :=
  match fs with
  | [] => Ok (q, [], [])
  | f :: t =>
      match tree q with
      | None => Err AttributeError
      | Some (root, il, ir) =>
          match nval root with
          | None => Err IndexError
          | Some total =>
              ix <- find (fuel_of il ir) il ir root (total * f)%Q ;;
              '(q', ret) <- tq_write op_sum q ix (Some 0%Q) ;;
              match ret with
              | None => Err AssertionError
              | Some v => '(q'', is, vs) <- draw_loop q' t ;; Ok (q'', ix :: is, v :: vs)
              end
          end
      end
  end.

(** prioritized.py:294-312 [prioritized_sample] with n = length fs. *)
Definition prioritized_sample (q : tqueue Q) (fs : list Q) (remove : bool) : result (tqueue Q * list Z * list Q) :=
  '(q1, ixs, vals) <- draw_loop q fs ;;
  q2 <- (if remove then Ok q1 else restore q1 ixs vals) ;;
  Ok (q2, ixs, vals).

(** ** PrioritizedBuffer, prioritized.py:21-116 *)
Record pbuf (A : Type) := mkPb {
  capacity : option nat;
  data : list A;
  sums : tqueue Q;
  mins : tqueue Q;
  max_priority : Q;
  wait_after : bool;                   (* wait_priority_after_sampling *)
  flag_wait : bool;                    (* flag_wait_priority *)
  sampled_indices : option (list Z)    (* None: attribute not yet created *)
}.
Arguments mkPb {A}. Arguments capacity {A}. Arguments data {A}. Arguments sums {A}. Arguments mins {A}.
Arguments max_priority {A}. Arguments wait_after {A}. Arguments flag_wait {A}. Arguments sampled_indices {A}.

Section Buffer.
Context {A : Type}.

(** prioritized.py:22-34 [__init__]. *)
Definition pb_init (cap : option nat) (wait : bool) (initial_max_priority : Q) : pbuf A :=
  mkPb cap [] tq_init tq_init initial_max_priority wait false None.

(** prioritized.py:50-54 [popleft]. *)
Definition pb_popleft (b : pbuf A) : result (pbuf A * A) :=
  match data b with
  | [] => Err AssertionError
  | x :: t =>
      '(s, _) <- tq_popleft op_sum (sums b) ;;
      '(m, _) <- tq_popleft op_min (mins b) ;;
      Ok (mkPb (capacity b) t s m (max_priority b) (wait_after b) (flag_wait b) (sampled_indices b), x)
  end.

(** prioritized.py:39-48 [append]. *)
Definition pb_append (b : pbuf A) (x : A) (priority : option Q) : result (pbuf A) :=
  b <- (match capacity b with
        | Some c => if length (data b) =? c then '(b', _) <- pb_popleft b ;; Ok b' else Ok b
        | None => Ok b
        end) ;;
  let p := match priority with None => max_priority b | Some p => p end in
  s <- tq_append op_sum (sums b) p ;;
  m <- tq_append op_min (mins b) p ;;
  Ok (mkPb (capacity b) (data b ++ [x]) s m (max_priority b) (wait_after b) (flag_wait b) (sampled_indices b)).

(** Outcomes of the generator during one [sample] call: the uniformly sampled indices (their number is the binomial
    draw n_uniform of line 65) and one number in [0, 1) per prioritized draw. *)
Record soracle := mkSo { so_uniform : list Z; so_fracs : list Q }.

Fixpoint data_at (l : list A) (ixs : list Z) : result (list A) :=
  match ixs with
  | [] => Ok []
  | i :: t => a <- py_get l i ;; r <- data_at l t ;; Ok (a :: r)
  end.

(** prioritized.py:56-105 [_sample_indices_and_probabilities] and [sample].  Division by a zero total is Python's
    ZeroDivisionError.  Returns sampled data, probabilities and the minimum probability. *)
Definition pb_sample (b : pbuf A) (o : soracle) (uniform_ratio : Q)
  : result (pbuf A * (list A * list Q * Q)) :=
  _ <- passert (negb (wait_after b) || negb (flag_wait b)) ;;
  total <- tq_sum (sums b) ;;
  mn <- tq_min (mins b) ;;
  match mn with
  | None => Err ZeroDivisionError                                     (* empty buffer: inf / 0.0 *)
  | Some mn =>
    if Qeq_bool total 0 then Err ZeroDivisionError
    else
      let min_prob := (mn / total)%Q in
      let len := inject_Z (Z.of_nat (length (data b))) in
      '(s1, un_ixs, un_pris, min_prob) <-
        (if Qltb 0 uniform_ratio
         then '(s1, ixs, vals) <- uniform_sample (sums b) (so_uniform o) (wait_after b) ;;
              Ok (s1, ixs, vals, (uniform_ratio / len + (1 - uniform_ratio) * min_prob)%Q)
         else Ok (sums b, [], [], min_prob)) ;;
      '(s2, pr_ixs, pr_pris) <- prioritized_sample s1 (so_fracs o) (wait_after b) ;;
      let ixs := un_ixs ++ pr_ixs in
      let pris := un_pris ++ pr_pris in
      let probs := map (fun pri => (uniform_ratio / len + (1 - uniform_ratio) * pri / total)%Q) pris in
      sampled <- data_at (data b) ixs ;;
      Ok (mkPb (capacity b) (data b) s2 (mins b) (max_priority b) (wait_after b) true (Some ixs),
          (sampled, probs, min_prob))
  end.

(** prioritized.py:111-114, the loop of [set_last_priority]. *)
Fixpoint set_priorities (s m : tqueue Q) (mp : Q) (ixs : list Z) (ps : list Q)
  : result (tqueue Q * tqueue Q * Q) :=
  match ixs, ps with
  | i :: is, p :: ps' =>
      '(s', _) <- tq_set op_sum s i p ;;
      '(m', _) <- tq_set op_min m i p ;;
      set_priorities s' m' (if Qltb mp p then p else mp) is ps'
  | _, _ => Ok (s, m, mp)
  end.

(** prioritized.py:107-116 [set_last_priority]. *)
Definition pb_set_last_priority (b : pbuf A) (ps : list Q) : result (pbuf A) :=
  _ <- passert (negb (wait_after b) || flag_wait b) ;;
  _ <- passert (forallb (fun p => Qltb 0 p) ps) ;;
  match sampled_indices b with
  | None => Err AttributeError
  | Some ixs =>
      _ <- passert (length ixs =? length ps) ;;
      '(s, m, mp) <- set_priorities (sums b) (mins b) (max_priority b) ixs ps ;;
      Ok (mkPb (capacity b) (data b) s m mp (wait_after b) false (Some []))
  end.
End Buffer.
