(** C74: conjugate gradients solve A x = b. *)
From Coq Require Import QArith Lqa Lia.
From Verif Require Import Base P_Base Vec M_CG S_CG P_CG.
Open Scope Q_scope.

Theorem C74_solves (n : nat) (A : vec -> vec) (b : vec) (tol : Q) (max_iter : nat) :
  spd n A -> length b = n -> ~ zero b -> 0 < tol ->
  exists x, conjugate_gradient A b tol max_iter = Some x /\ length x = n /\
    (* within n rounds the equation is solved to the tolerance *)
    ((n <= max_iter)%nat -> residual A b x < tol * tol) /\
    (* with fewer, the result is the best that so many products with A can give *)
    (residual A b x < tol * tol \/ forall y, krylov A b max_iter y -> objective A b x <= objective A b y) /\
    (* whatever the number of rounds, b . x = x . A x, positive after one round *)
    vdot b x == vdot x (A x) /\ ((1 <= max_iter)%nat -> 0 < vdot b x).
Proof.
  intros HA Hb Hz Ht. unfold conjugate_gradient. rewrite Hb. destruct (inv_start n A HA b Hb) as (I0 & E0). set (r0 := vsub b (A (vzero n))) in *.
  assert (Hr0 : ~ zero r0). { intros Z. apply Hz. apply (vdot_zero b). rewrite <- E0. apply zero_vdot, Z. }
  destruct (loop_ok n A HA b Hb tol Ht max_iter _ _ _ _ _ I0 Hr0) as (x & r & p & rs & ps & E & I & H1 & H2 & H3). exists x. split; [exact E|].
  pose proof (i_lx _ _ _ _ _ _ _ _ I) as Lx. pose proof (i_lr _ _ _ _ _ _ _ _ I) as Lr. pose proof (spd_len n A HA) as LA. split; [exact Lx|].
  assert (Er : residual A b x == vdot r r) by (unfold residual; cbv zeta; rewrite <- (i_res _ _ _ _ _ _ _ _ I); reflexivity).
  assert (Eb : vdot b x == vdot x (A x)).
  { pose proof (i_x _ _ _ _ _ _ _ _ I r Lr (i_r_ps _ _ _ _ _ _ _ _ I)) as Z. rewrite (i_res _ _ _ _ _ _ _ _ I) in Z. rewrite vdot_sub_l in Z by (rewrite LA by exact Lx; exact Hb).
    rewrite (vdot_comm (A x) x) in Z. lra. }
  cbn [length Nat.add] in H1. split; [|split; [|split; [exact Eb|]]].
  - intros Hn. rewrite Er. destruct H1 as [H1|(Hnz & Hc)]; [exact H1|]. exfalso.
    assert (C : (length (r :: rs) <= n)%nat); [|cbn [length] in C; lia]. apply ortho_count.
    + intros v [<-|Hv]; [exact Lr|]. apply (i_lrs _ _ _ _ _ _ _ _ I v Hv).
    + cbn [ortho]. split; [intros u Hu; apply (i_r_rs _ _ _ _ _ _ _ _ I u Hu)|]. split; [intros Z; apply Hnz, vdot_zero, Z|apply (i_rs _ _ _ _ _ _ _ _ I)].
  - rewrite Er. destruct H1 as [H1|(Hnz & Hc)]; [left; exact H1|right]. intros y Hy.
    rewrite (i_cnt _ _ _ _ _ _ _ _ I) in Hc. rewrite <- Hc in Hy. destruct (i_kry _ _ _ _ _ _ _ _ I y Hy) as (Ly & Sy).
    apply (objective_opt n A HA b Hb x r ps y Lx (i_res _ _ _ _ _ _ _ _ I) (i_r_ps _ _ _ _ _ _ _ _ I) (i_x _ _ _ _ _ _ _ _ I) Ly Sy Lr).
  - intros H. specialize (H3 H). assert (Z : objective A b (vzero n) == 0) by (unfold objective; rewrite vdot_zero_r, vdot_zero_l; ring).
    rewrite Z in H3. unfold objective in H3. rewrite <- Eb in H3. lra.
Qed.

(** A further round never makes the solution worse. *)
Theorem C74_monotone (n : nat) (A : vec -> vec) (b : vec) (tol : Q) (k k' : nat) (x x' : vec) :
  spd n A -> length b = n -> ~ zero b -> 0 < tol -> (k <= k')%nat ->
  conjugate_gradient A b tol k = Some x -> conjugate_gradient A b tol k' = Some x' -> objective A b x' <= objective A b x.
Proof.
  intros HA Hb Hz Ht Hk E. revert x'. induction Hk as [|k' Hk IH]; intros x' E'; [rewrite E in E'; inversion E'; subst; lra|].
  destruct (C74_solves n A b tol k' HA Hb Hz Ht) as (x1 & E1 & _). specialize (IH x1 E1).
  unfold conjugate_gradient in E1, E'. rewrite Hb in E1, E'. destruct (inv_start n A HA b Hb) as (I0 & E0). set (r0 := vsub b (A (vzero n))) in *.
  assert (Hr0 : ~ zero r0). { intros Z. apply Hz. apply (vdot_zero b). rewrite <- E0. apply zero_vdot, Z. }
  pose proof (loop_more n A HA b Hb tol Ht k' _ _ _ _ _ x1 x' I0 Hr0 E1 E'). lra.
Qed.

(** A concrete case: a 2x2 matrix. *)
Definition exA (v : vec) : vec := [vdot [4; 1] v; vdot [1; 3] v].
Example C74_ex_spd : spd 2 exA.
Proof.
  split.
  - intros v _. reflexivity.
  - intros [|a [|b [|? ?]]] [|x [|y [|? ?]]] L1 L2; try discriminate. unfold exA, veq, vscale; cbn [vadd vdot map]. repeat apply Forall2_cons; try apply Forall2_nil; ring.
  - intros c [|x [|y [|? ?]]] L; try discriminate. unfold exA, veq, vscale; cbn [vadd vdot map]. repeat apply Forall2_cons; try apply Forall2_nil; ring.
  - intros [|a [|b [|? ?]]] [|x [|y [|? ?]]] L1 L2; try discriminate. unfold exA, veq, vscale; cbn [vadd vdot map]. ring.
  - intros [|x [|y [|? ?]]] L Hz; try discriminate. unfold exA, veq, vscale; cbn [vadd vdot map].
    assert (Sq : forall t : Q, 0 <= t * t) by (intros t; destruct (Qlt_le_dec t 0); nra).
    assert (E : (4 * x + (1 * y + 0)) * x + ((1 * x + (3 * y + 0)) * y + 0) == 3 * (x * x) + (x + y) * (x + y) + 2 * (y * y)) by ring.
    rewrite E. clear E. pose proof (Sq x) as Hx. pose proof (Sq y) as Hy. pose proof (Sq (x + y)) as H1.
    destruct (Qlt_le_dec 0 (x * x + y * y)) as [l|l]; [generalize dependent ((x + y) * (x + y)); intros; lra|].
    exfalso. apply Hz. repeat apply Forall_cons; try apply Forall_nil; apply sq_zero; lra.
Qed.
Example C74_ex_run : match conjugate_gradient exA [1; 2] (1 # 10000000000) 10 with Some x => Forall2 Qeq x [1 # 11; 7 # 11] | None => False end.
Proof. vm_compute. repeat constructor. Qed.
Example C74_ex_one : match conjugate_gradient exA [1; 2] (1 # 10000000000) 1 with Some x => Forall2 Qeq x [1 # 4; 1 # 2] | None => False end.
Proof. vm_compute. repeat constructor. Qed.
(** Without the tolerance, rounds after the exact solution divide zero by zero: the hypothesis 0 < tol is needed. *)
Example C74_ex_tol_zero : conjugate_gradient (fun v => map (fun x => 2 * x) v) [3] 0 10 = None.
Proof. vm_compute. reflexivity. Qed.

Print Assumptions C74_solves.
Print Assumptions C74_monotone.
