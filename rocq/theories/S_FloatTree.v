(** Specification for C127 and C128: what rounding arithmetic has to satisfy, and how far sums and draws may be off. *)
From Coq Require Import Reals.
From Verif Require Import Base M_Prioritized S_Prioritized M_FloatTree.
Open Scope R_scope.

(** Exact sum of a list of real numbers. *)
Fixpoint rsum (l : list R) : R := match l with [] => 0 | x :: t => x + rsum t end.

(** Arithmetic on machine numbers standing for real numbers [val x].  [ok]: a finite number, not negative.  [unit01]: an
    outcome of the generator, in [0, 1).  [u]: the largest relative error of an addition or a subtraction.  [eta]: an
    absolute error of multiplication (underflow).  [M]: sums up to [M] do not overflow. *)
Record rounded {V} (A : arith V) (val : V -> R) (ok unit01 : V -> Prop) (u eta M : R) : Prop := mkRounded {
  r_u : 0 <= u;
  r_eta : 0 <= eta;
  r_ok : forall x, ok x -> 0 <= val x;
  r_unit : forall f, unit01 f -> 0 <= val f < 1;
  r_zero : ok (a_zero A) /\ val (a_zero A) = 0;
  r_add0 : forall x, ok x -> ok (a_add A (a_zero A) x) /\ val (a_add A (a_zero A) x) = val x;
  r_add : forall x y, ok x -> ok y -> (val x + val y) * (1 + u) <= M ->
    ok (a_add A x y) /\ Rabs (val (a_add A x y) - (val x + val y)) <= u * (val x + val y);
  r_sub : forall x y, ok x -> ok y -> val y <= val x ->
    ok (a_sub A x y) /\ Rabs (val (a_sub A x y) - (val x - val y)) <= u * (val x - val y) /\
    val (a_sub A x y) <= val x;
  r_mul : forall x f, ok x -> unit01 f ->
    ok (a_mul A x f) /\ val (a_mul A x f) <= val x /\
    Rabs (val (a_mul A x f) - val x * val f) <= u * (val x * val f) + eta;
  r_ltb : forall x y, ok x -> ok y -> (a_ltb A x y = true <-> val x < val y)
}.

(** The greatest number of elements held at any time of a history of queue operations. *)
Fixpoint longest {V} (l : list V) (ops : list (tq_op V)) : nat :=
  match ops with
  | [] => length l
  | o :: t => Nat.max (length l) (longest (fst (tq_spec l o)) t)
  end.

(** A bound on the depth of the tree that has held at most [N] elements. *)
Definition depth (N : nat) : nat := S (Nat.log2_up N).

(** The history of the queue, and its current priorities. *)
Notation queue_after A ops := (fst (run (tq_step (fsum A)) tq_init ops)).
Notation held ops := (fst (run tq_spec [] ops)).

(** Error bound of one draw with trees of depth at most [D], relative to the total [T]. *)
Definition draw_error (u eta : R) (D : nat) (T : R) : R :=
  ((INR D + 1) * u * (1 + u) ^ D + 2 * ((1 + u) ^ D - 1)) * T + eta.

Section Draws.
Context {V : Type}.
Variables (A : arith V) (val : V -> R).

Definition total (ws : list V) : R := rsum (map val ws).
(** The exact sum of the first [k] priorities. *)
Definition prefix (ws : list V) (k : nat) : R := rsum (map val (firstn k ws)).

(** Several draws of one call from priorities [ws], the generator having yielded [fs]: each drawn index [k] is one whose
    cumulative interval contains [f * total] up to the error [E total], its priority is recorded, and it counts as zero
    for the following draws; or the call fails, which only happens with [f * total] within [E total] of the total. *)
Inductive draws_near (E : R -> R) : list V -> list V -> result (list Z * list V) -> Prop :=
| dn_nil : forall ws, draws_near E ws [] (Ok ([], []))
| dn_cons : forall ws f fs k w r,
    nth_error ws k = Some w ->
    prefix ws k - E (total ws) <= val f * total ws <= prefix ws (S k) + E (total ws) ->
    draws_near E (list_set ws k (a_zero A)) fs r ->
    draws_near E ws (f :: fs) (rmap (fun '(ks, vs) => (Z.of_nat k :: ks, w :: vs)) r)
| dn_fail : forall ws f fs e,
    e = AssertionError \/ e = ValueError ->
    total ws - E (total ws) <= val f * total ws ->
    draws_near E ws (f :: fs) (Err e).

(** The priorities after the drawn elements have been zeroed. *)
Definition zeroed (ws : list V) (ixs : list Z) : list V :=
  fold_left (fun w i => list_set w (Z.to_nat i) (a_zero A)) ixs ws.
End Draws.
