(** Model of pfrl/utils/conjugate_gradient.py and of TRPO's step, pfrl/agents/trpo.py:555-598.
    Floats are rationals; a tensor that has a non-finite entry (NaN or inf) is [None]: a division by zero makes every tensor computed from it
    non-finite, and comparisons with a non-finite norm are false. *)
From Coq Require Import QArith.
From Verif Require Import Base Vec.
Open Scope Q_scope.

Definition fdiv (a b : Q) : option Q := if Qeq_bool b 0 then None else Some (a / b).

(* 25-33: one round after another; [p] becomes non-finite if the division at 30 is by zero *)
Fixpoint cg_loop (A : vec -> vec) (tol : Q) (k : nat) (x r0 : vec) (p : option vec) : option vec :=
  match k with
  | O => Some x
  | S k =>
    match p with
    | None => None
    | Some p =>
      match fdiv (vdot r0 r0) (vdot (A p) p) with
      | None => None
      | Some a =>
        let x := vadd x (vscale a p) in
        let r1 := vsub r0 (vscale a (A p)) in
        (* 28: norm(r1) < tol, squared *)
        if negb (Qle_bool tol 0) && negb (Qle_bool (tol * tol) (vdot r1 r1)) then Some x
        else cg_loop A tol k x r1 (match fdiv (vdot r1 r1) (vdot r0 r0) with None => None | Some b => Some (vadd r1 (vscale b p)) end)
      end
    end
  end.

(* 4-34 *)
Definition conjugate_gradient (A : vec -> vec) (b : vec) (tol : Q) (max_iter : nat) : option vec :=
  let x := vzero (length b) in
  let r0 := vsub b (A x) in
  cg_loop A tol max_iter x r0 (Some r0).

(** trpo.py 570-598: [H] is the Hessian-vector product of the KL divergence, [sqrt] the square root. *)
Definition fisher_vector_product (H : vec -> vec) (damping : Q) (v : vec) : vec := vadd (H v) (vscale damping v).
Definition kl_constrained_step (sqrt : Q -> Q) (H : vec -> vec) (damping tol max_kl : Q) (gain_grads : vec) (max_iter : nat) : option vec :=
  match conjugate_gradient (fisher_vector_product H damping) gain_grads tol max_iter with
  | None => None
  | Some d =>
    let dId := vdot d (fisher_vector_product H damping d) in
    match fdiv (2 * max_kl) (dId + (1 # 100000000)) with
    | None => None
    | Some q => Some (vscale (sqrt q) d)
    end
  end.
