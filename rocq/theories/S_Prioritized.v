(** Specification used by C03-C06: the buffer as a plain list of entries. *)
From Verif Require Import Base M_Prioritized.
From Coq Require Import Qminmax.
Open Scope nat_scope.

(** Sum of a list of rationals. *)
Fixpoint Qsum (l : list Q) : Q := match l with [] => 0%Q | x :: t => (x + Qsum t)%Q end.

(** [m] is the minimum of the non-empty list [l] (up to rational equality). *)
Definition is_min (m : Q) (l : list Q) : Prop :=
  (exists x, In x l /\ x == m)%Q /\ (forall x, In x l -> m <= x)%Q.

(** A TreeQueue as a list: operations and outputs. *)
Inductive tq_op (V : Type) := TAppend (v : V) | TPopleft | TSet (i : Z) (v : V).
Arguments TAppend {V} v. Arguments TPopleft {V}. Arguments TSet {V} i v.
Inductive tq_out (V : Type) := TNone | TVal (v : option V) | TExn (e : exn).
Arguments TNone {V}. Arguments TVal {V} v. Arguments TExn {V} e.

Definition tq_step {V} (op : list V -> V) (q : tqueue V) (o : tq_op V) : tqueue V * tq_out V :=
  match o with
  | TAppend v => match tq_append op q v with Ok q' => (q', TNone) | Err e => (q, TExn e) end
  | TPopleft => match tq_popleft op q with Ok (q', r) => (q', TVal r) | Err e => (q, TExn e) end
  | TSet i v => match tq_set op q i v with Ok (q', r) => (q', TVal r) | Err e => (q, TExn e) end
  end.

(** The list specification: append at the end, pop from the front, overwrite returning the old value. *)
Definition tq_spec {V} (l : list V) (o : tq_op V) : list V * tq_out V :=
  match o with
  | TAppend v => (l ++ [v], TNone)
  | TPopleft => match l with [] => (l, TExn AssertionError) | x :: t => (t, TVal (Some x)) end
  | TSet i v =>
      if ((0 <=? i) && (i <? Z.of_nat (length l)))%Z
      then (list_set l (Z.to_nat i) v, TVal (nth_error l (Z.to_nat i)))
      else (l, TExn AssertionError)
  end.

(** Drawing by cumulative priority: the first index i with pos < p_0 + ... + p_i. *)
Fixpoint cdf_find (ps : list Q) (pos : Q) : option nat :=
  match ps with
  | [] => None
  | p :: t => if Qltb pos p then Some 0 else option_map S (cdf_find t (pos - p)%Q)
  end.

(** ** The buffer as parallel lists *)
(** [s_ps]: the priorities of the stored elements.  [s_ws]: their weights in prioritized drawing: the priority, or zero
    while the element waits for its new priority. *)
Record sbuf (A : Type) := mkSb {
  s_cap : option nat; s_vals : list A; s_ws : list Q; s_ps : list Q; s_max : Q;
  s_wait : bool; s_flag : bool; s_sampled : option (list nat) }.
Arguments mkSb {A}. Arguments s_cap {A}. Arguments s_vals {A}. Arguments s_ws {A}. Arguments s_ps {A}.
Arguments s_max {A}. Arguments s_wait {A}. Arguments s_flag {A}. Arguments s_sampled {A}.

Inductive pb_op (A : Type) :=
| PAppend (x : A) (p : option Q) | PPopleft | PSample (o : soracle) (uniform_ratio : Q) | PSetLast (ps : list Q) | PLen.
Arguments PAppend {A} x p. Arguments PPopleft {A}. Arguments PSample {A} o uniform_ratio.
Arguments PSetLast {A} ps. Arguments PLen {A}.
Inductive pb_out (A : Type) :=
| PNone | PVal (x : A) | PSampled (xs : list A) (probs : list Q) (min_prob : Q) | PNat (n : nat) | PExn (e : exn).
Arguments PNone {A}. Arguments PVal {A} x. Arguments PSampled {A} xs probs min_prob. Arguments PNat {A} n.
Arguments PExn {A} e.

(** Equality of outputs up to equality of rationals. *)
Definition out_eq {A} (a b : pb_out A) : Prop :=
  match a, b with
  | PSampled x p m, PSampled x' p' m' => x = x' /\ Forall2 Qeq p p' /\ (m == m')%Q
  | _, _ => a = b
  end.

Definition pb_step {A} (b : pbuf A) (o : pb_op A) : pbuf A * pb_out A :=
  match o with
  | PAppend x p => match pb_append b x p with Ok b' => (b', PNone) | Err e => (b, PExn e) end
  | PPopleft => match pb_popleft b with Ok (b', x) => (b', PVal x) | Err e => (b, PExn e) end
  | PSample o u => match pb_sample b o u with Ok (b', (xs, ps, m)) => (b', PSampled xs ps m) | Err e => (b, PExn e) end
  | PSetLast ps => match pb_set_last_priority b ps with Ok b' => (b', PNone) | Err e => (b, PExn e) end
  | PLen => (b, PNat (length (data b)))
  end.

Fixpoint Qminl (d : Q) (l : list Q) : Q :=
  match l with [] => d | [x] => x | x :: t => Qmin x (Qminl d t) end.

Definition zero_at (ws : list Q) (ixs : list nat) : list Q := fold_left (fun w i => list_set w i 0%Q) ixs ws.
Definition at_ixs {A} (l : list A) (ixs : list nat) : list A :=
  flat_map (fun i => match nth_error l i with Some a => [a] | None => [] end) ixs.
Definition assign (l : list Q) (ixs : list nat) (ps : list Q) : list Q :=
  fold_left (fun w ip => list_set w (fst ip) (snd ip)) (combine ixs ps) l.
Definition Qmaxl (m : Q) (ps : list Q) : Q := fold_left (fun m p => if Qltb m p then p else m) ps m.

(** Successive draws without replacement: pick by cumulative weight, then the picked weight is zero. *)
Fixpoint draws (ws : list Q) (fs : list Q) : option (list nat) :=
  match fs with
  | [] => Some []
  | f :: t =>
      match cdf_find ws (Qsum ws * f)%Q with
      | None => None
      | Some i => option_map (cons i) (draws (list_set ws i 0%Q) t)
      end
  end.

Definition frac_ok (f : Q) : bool := Qle_bool 0 f && Qltb f 1.

Fixpoint nodupb (l : list nat) : bool :=
  match l with [] => true | x :: t => negb (existsb (Nat.eqb x) t) && nodupb t end.

(** Specification of one operation.  The outer option is None when the caller or the generator is outside the contract:
    a non-positive explicit priority, generator outcomes that are not valid, a draw when no weight is left, or a priority
    update when elements sampled before have been removed meanwhile. *)
Definition sb_step {A} (s : sbuf A) (o : pb_op A) : option (sbuf A * pb_out A) :=
  let len := length (s_vals s) in
  match o with
  | PLen => Some (s, PNat len)
  | PPopleft =>
      match s_vals s with
      | [] => Some (s, PExn AssertionError)
      | x :: t => Some (mkSb (s_cap s) t (tl (s_ws s)) (tl (s_ps s)) (s_max s) (s_wait s) (s_flag s) (s_sampled s), PVal x)
      end
  | PAppend x p =>
      let p := match p with None => s_max s | Some p => p end in
      if negb (Qltb 0 p) then None
      else match s_cap s with
           | Some 0 => Some (s, PExn AssertionError)
           | _ => Some (mkSb (s_cap s) (trunc (s_cap s) (s_vals s ++ [x])) (trunc (s_cap s) (s_ws s ++ [p]))
                         (trunc (s_cap s) (s_ps s ++ [p])) (s_max s) (s_wait s) (s_flag s) (s_sampled s), PNone)
           end
  | PSample o u =>
      let total := Qsum (s_ws s) in
      let us := if Qltb 0 u then map Z.to_nat (so_uniform o) else [] in
      if s_wait s && s_flag s then Some (s, PExn AssertionError)
      else if (len =? 0) || Qeq_bool total 0 then Some (s, PExn ZeroDivisionError)
      else if negb (forallb (fun i => (0 <=? i) && (i <? Z.of_nat len))%Z (so_uniform o) && nodupb us
                    && forallb frac_ok (so_fracs o)) then None
      else
        let ws1 := if s_wait s then zero_at (s_ws s) us else s_ws s in
        match draws ws1 (so_fracs o) with
        | None => None
        | Some ds =>
            let ws2 := if s_wait s then zero_at ws1 ds else ws1 in
            let m := (Qminl 0 (s_ps s) / total)%Q in
            let n := inject_Z (Z.of_nat len) in
            Some (mkSb (s_cap s) (s_vals s) ws2 (s_ps s) (s_max s) (s_wait s) true (Some (us ++ ds)),
                  PSampled (at_ixs (s_vals s) (us ++ ds))
                    (map (fun w => (u / n + (1 - u) * w / total)%Q) (at_ixs (s_ws s) us ++ at_ixs ws1 ds))
                    (if Qltb 0 u then (u / n + (1 - u) * m)%Q else m))
        end
  | PSetLast ps =>
      if s_wait s && negb (s_flag s) then Some (s, PExn AssertionError)
      else if negb (forallb (Qltb 0) ps) then Some (s, PExn AssertionError)
      else match s_sampled s with
           | None => Some (s, PExn AttributeError)
           | Some ixs =>
               if negb (length ixs =? length ps) then Some (s, PExn AssertionError)
               else if negb (forallb (fun i => i <? len) ixs) then None
               else Some (mkSb (s_cap s) (s_vals s) (assign (s_ws s) ixs ps) (assign (s_ps s) ixs ps) (Qmaxl (s_max s) ps)
                           (s_wait s) false (Some []), PNone)
           end
  end.

Definition sb_init {A} (cap : option nat) (wait : bool) (m : Q) : sbuf A := mkSb cap [] [] [] m wait false None.

Fixpoint sb_run {A} (s : sbuf A) (ops : list (pb_op A)) : option (sbuf A * list (pb_out A)) :=
  match ops with
  | [] => Some (s, [])
  | o :: t => match sb_step s o with
              | None => None
              | Some (s1, r) => match sb_run s1 t with None => None | Some (s2, rs) => Some (s2, r :: rs) end
              end
  end.

(** ** Observing the priorities of a buffer: what repeated [popleft] on its trees returns. *)
Fixpoint drain {V} (n : nat) (op : list V -> V) (q : tqueue V) : list V :=
  match n with
  | 0 => []
  | S n => match tq_popleft op q with Ok (q', Some v) => v :: drain n op q' | _ => [] end
  end.
Definition priorities {A} (b : pbuf A) : list Q := drain (length (data b)) op_min (mins b).
Definition weights {A} (b : pbuf A) : list Q := drain (length (data b)) op_sum (sums b).

(** Buffers reachable by operations within the contract, from any initial buffer. *)
Definition reachable {A} (b : pbuf A) : Prop :=
  exists cap wait m ops s rs, sb_run (sb_init cap wait m) ops = Some (s, rs) /\
    b = fst (run pb_step (pb_init cap wait m) ops).

(** Contract on the generator outcomes for one sample call on a buffer of [len] elements. *)
Definition oracle_ok (len : nat) (o : soracle) : Prop :=
  NoDup (so_uniform o) /\ Forall (fun i => (0 <= i < Z.of_nat len)%Z) (so_uniform o) /\
  Forall (fun f => (0 <= f < 1)%Q) (so_fracs o).

(** Appending a list of values without explicit priorities. *)
Fixpoint pb_appends {A} (b : pbuf A) (xs : list A) : result (pbuf A) :=
  match xs with
  | [] => Ok b
  | x :: t => b' <- pb_append b x None ;; pb_appends b' t
  end.

(** Number of elements with a positive weight. *)
Definition npos (ws : list Q) : nat := length (filter (Qltb 0) ws).

(** The number of elements asked for (n_uniform + n_prioritized) does not exceed the number of elements that can be drawn. *)
Definition enough {A} (b : pbuf A) (o : soracle) (u : Q) : Prop :=
  0 < npos (weights b) /\
  (if Qltb 0 u then length (so_uniform o) else 0) + length (so_fracs o) <= npos (weights b).

(** [after] differs from [before] exactly by giving the k-th of the positions [ixs] the k-th of the values [ps]. *)
Definition updated_at {B} (before after : list B) (ixs : list nat) (ps : list B) : Prop :=
  length after = length before /\
  (forall k i p, nth_error ixs k = Some i -> nth_error ps k = Some p -> nth_error after i = Some p) /\
  (forall i, ~ In i ixs -> nth_error after i = nth_error before i).

(** ** C06: the claim, as a proposition.
    Sample, then append any values, then set the priorities: the final priorities are as if the update had been made
    directly after sampling and the appends (with their evictions, the first [k] elements) afterwards. *)
Definition append_between_claim : Prop :=
  forall (A : Type) (b b1 b2 b3 : pbuf A) o u out xs ixs ps,
    reachable b -> pb_sample b o u = Ok (b1, out) -> sampled_indices b1 = Some (map Z.of_nat ixs) ->
    pb_appends b1 xs = Ok b2 -> pb_set_last_priority b2 ps = Ok b3 ->
    let k := length (data b) + length xs - length (data b2) in
    exists full, updated_at (priorities b ++ repeat (max_priority b) (length xs)) full ixs ps /\
      priorities b3 = skipn k full.
