(** Specification of conjugate gradients. *)
From Coq Require Import QArith.
From Verif Require Import Base Vec.
Open Scope Q_scope.

Definition zero (v : vec) : Prop := Forall (fun x => x == 0) v.

(** [A] acts on vectors of length [n] as a symmetric, positive definite matrix. *)
Record spd (n : nat) (A : vec -> vec) : Prop := {
  spd_len : forall v, length v = n -> length (A v) = n;
  spd_add : forall u v, length u = n -> length v = n -> veq (A (vadd u v)) (vadd (A u) (A v));
  spd_scale : forall c v, length v = n -> veq (A (vscale c v)) (vscale c (A v));
  spd_sym : forall u v, length u = n -> length v = n -> vdot (A u) v == vdot u (A v);
  spd_pos : forall v, length v = n -> ~ zero v -> 0 < vdot (A v) v }.
(** positive semidefinite *)
Record spsd (n : nat) (A : vec -> vec) : Prop := {
  psd_len : forall v, length v = n -> length (A v) = n;
  psd_add : forall u v, length u = n -> length v = n -> veq (A (vadd u v)) (vadd (A u) (A v));
  psd_scale : forall c v, length v = n -> veq (A (vscale c v)) (vscale c (A v));
  psd_sym : forall u v, length u = n -> length v = n -> vdot (A u) v == vdot u (A v);
  psd_pos : forall v, length v = n -> 0 <= vdot (A v) v }.

(** Squared norm of b - A x. *)
Definition residual (A : vec -> vec) (b x : vec) : Q := let r := vsub b (A x) in vdot r r.
(** The quadratic function that A x = b minimises. *)
Definition objective (A : vec -> vec) (b x : vec) : Q := (1#2) * vdot x (A x) - vdot b x.

(** The vectors that can be made from b with fewer than k products with A: combinations of b, A b, ..., A^(k-1) b. *)
Fixpoint krylov (A : vec -> vec) (b : vec) (k : nat) (y : vec) : Prop :=
  match k with
  | O => zero y /\ length y = length b
  | S k => exists c y', krylov A b k y' /\ veq y (vadd (vscale c b) (A y'))
  end.
