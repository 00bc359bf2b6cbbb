(** C75: TRPO's full step. *)
From Coq Require Import QArith Qfield Lqa Lia.
From Verif Require Import Base P_Base Vec M_CG S_CG P_CG C74.
Open Scope Q_scope.

(** A square root with relative error at most e in the square. *)
Definition root_within (e : Q) (sqrt : Q -> Q) : Prop :=
  forall q, 0 < q -> 0 < sqrt q /\ (1 - e) * q <= sqrt q * sqrt q <= (1 + e) * q.

Lemma fvp_spd n H damping : spsd n H -> 0 < damping -> spd n (fisher_vector_product H damping).
Proof.
  intros P Hd. destruct P as [P1 P2 P3 P4 P5]. unfold fisher_vector_product.
  assert (Ls : forall v, length v = n -> length (vscale damping v) = n) by (intros v Lv; apply vscale_len; exact Lv). split.
  - intros v Lv. apply vadd_len; [apply P1|apply Ls]; exact Lv.
  - intros u v Lu Lv. rewrite (P2 u v Lu Lv). generalize (H u) (H v). clear. intros a c. revert u v c.
    induction a as [|x a IH]; intros [|y u] [|z v] [|w c]; cbn; try constructor; [ring|apply IH].
  - intros c v Lv. rewrite (P3 c v Lv). generalize (H v). clear. intros a. revert v. induction a as [|x a IH]; intros [|y v]; cbn; try constructor; [ring|apply IH].
  - intros u v Lu Lv. rewrite vdot_add_l by (rewrite P1, Ls by assumption; reflexivity). rewrite vdot_add_r by (rewrite P1, Ls by assumption; reflexivity).
    rewrite vdot_scale_l, vdot_scale_r, (P4 u v Lu Lv). reflexivity.
  - intros v Lv Hz. rewrite vdot_add_l by (rewrite P1, Ls by assumption; reflexivity). rewrite vdot_scale_l. pose proof (P5 v Lv).
    assert (0 < vdot v v); [|nra]. pose proof (vdot_self_nonneg v). destruct (Qlt_le_dec 0 (vdot v v)); [assumption|]. exfalso. apply Hz, vdot_zero. lra.
Qed.

(** With a gain gradient that is not zero: a finite step, along which the gain grows, whose quadratic KL divergence is within max_kl; and which uses up
    max_kl, but for the 1e-8 added to the denominator (d is conjugate_gradient's solution). *)
Theorem C75_step_partial (n : nat) (H : vec -> vec) (sqrt : Q -> Q) (e damping tol max_kl : Q) (g : vec) (max_iter : nat) :
  spsd n H -> 0 < damping -> 0 < tol -> 0 < max_kl -> 0 <= e -> root_within e sqrt -> length g = n -> ~ zero g -> (1 <= max_iter)%nat ->
  exists step, kl_constrained_step sqrt H damping tol max_kl g max_iter = Some step /\ length step = n /\
    0 < vdot g step /\
    (1 # 2) * vdot step (H step) <= (1 + e) * max_kl /\
    exists d, conjugate_gradient (fisher_vector_product H damping) g tol max_iter = Some d /\
      let F v := vdot v (fisher_vector_product H damping v) in
      (1 - e) * max_kl * F d <= (1 # 2) * F step * (F d + (1 # 100000000)) <= (1 + e) * max_kl * F d.
Proof.
  intros P Hd Ht Hm He Hs Lg Hg Hk. pose proof (fvp_spd n H damping P Hd) as HF. set (F := fisher_vector_product H damping) in *.
  destruct (C74_solves n F g tol max_iter HF Lg Hg Ht) as (d & E & Ld & _ & _ & Hgd & Hpos). specialize (Hpos Hk).
  unfold kl_constrained_step. fold F. rewrite E. cbv zeta. rewrite Hgd in Hpos. set (D := vdot d (F d)) in *.
  unfold fdiv. destruct (Qeq_bool (D + (1 # 100000000)) 0) eqn:Ez; [apply Qeq_bool_eq in Ez; lra|]. clear Ez.
  set (q := 2 * max_kl / (D + (1 # 100000000))). assert (Hq : 0 < q) by (apply Qlt_shift_div_l; lra).
  assert (Eq : q * (D + (1 # 100000000)) == 2 * max_kl) by (unfold q; field; lra).
  destruct (Hs q Hq) as (Hs0 & Hs1 & Hs2). set (s := sqrt q) in *. exists (vscale s d). split; [reflexivity|]. assert (Lsd : length (vscale s d) = n) by (apply vscale_len; exact Ld). split; [exact Lsd|].
  assert (EF : vdot (vscale s d) (F (vscale s d)) == s * s * D).
  { rewrite (spd_scale n F HF s d Ld), vdot_scale_r, vdot_scale_l. fold D. ring. }
  split; [rewrite vdot_scale_r, Hgd; apply Qmult_lt_0_compat; assumption|]. split.
  - (* H <= F, and D <= D + 1e-8 *)
    assert (HH : vdot (vscale s d) (H (vscale s d)) <= s * s * D).
    { rewrite <- EF. unfold F, fisher_vector_product. rewrite vdot_add_r by (rewrite (psd_len n H P), (vscale_len damping _ n Lsd) by exact Lsd; reflexivity).
      rewrite vdot_scale_r. pose proof (vdot_self_nonneg (vscale s d)). nra. }
    assert (HD : s * s * D <= (1 + e) * (2 * max_kl)); [|lra].
    rewrite <- Eq. assert (s * s * D <= (1 + e) * q * D) by (apply Qmult_le_compat_r; lra).
    assert (0 <= (1 + e) * q) by (apply Qmult_le_0_compat; lra). lra.
  - exists d. split; [reflexivity|]. cbv beta zeta. rewrite EF. fold D.
    assert (E2 : (1 # 2) * (s * s * D) * (D + (1 # 100000000)) == (1 # 2) * D * (s * s * (D + (1 # 100000000)))) by ring. rewrite E2.
    assert (B1 : (1 - e) * (2 * max_kl) <= s * s * (D + (1 # 100000000))) by (rewrite <- Eq, Qmult_assoc; apply Qmult_le_compat_r; lra).
    assert (B2 : s * s * (D + (1 # 100000000)) <= (1 + e) * (2 * max_kl)) by (rewrite <- Eq, Qmult_assoc; apply Qmult_le_compat_r; lra).
    split.
    + assert (T : (1 # 2) * D * ((1 - e) * (2 * max_kl)) <= (1 # 2) * D * (s * s * (D + (1 # 100000000)))) by (apply Qmult_le_l; [lra|exact B1]). lra.
    + assert (T : (1 # 2) * D * (s * s * (D + (1 # 100000000))) <= (1 # 2) * D * ((1 + e) * (2 * max_kl))) by (apply Qmult_le_l; [lra|exact B2]). lra.
Qed.

(** With a zero gain gradient there is no finite step. *)
Theorem C75_zero_gradient_partial (n : nat) (H : vec -> vec) (sqrt : Q -> Q) (damping tol max_kl : Q) (g : vec) (max_iter : nat) :
  spsd n H -> 0 < damping -> length g = n -> zero g -> (1 <= max_iter)%nat ->
  kl_constrained_step sqrt H damping tol max_kl g max_iter = None.
Proof.
  intros P Hd Lg Hg Hk. pose proof (fvp_spd n H damping P Hd) as HF. set (F := fisher_vector_product H damping) in *.
  unfold kl_constrained_step. fold F. unfold conjugate_gradient. rewrite Lg. destruct (inv_start n F HF g Lg) as (_ & E0). set (r0 := vsub g (F (vzero n))) in *.
  destruct max_iter as [|k]; [lia|]. cbn [cg_loop]. unfold fdiv at 1.
  assert (Z : zero r0) by (apply vdot_zero; rewrite E0; apply zero_vdot, Hg).
  assert (E : vdot (F r0) r0 == 0) by (rewrite vdot_comm; apply zero_dot_l, Z).
  destruct (Qeq_bool (vdot (F r0) r0) 0) eqn:Ez; [reflexivity|]. apply Qeq_bool_neq in Ez. contradiction.
Qed.

(** Such a root exists: an integer square root, scaled. *)
Definition root100 (q : Q) : Q := Z.sqrt (Qnum q * Zpos (Qden q) * 10000) # (Qden q * 100).
Lemma root100_ok : root_within (1 # 40) root100.
Proof.
  intros [a b] Hq. unfold root100. cbn [Qnum Qden]. assert (Ha : (0 < a)%Z) by (unfold Qlt in Hq; cbn in Hq; lia).
  set (N := (a * Z.pos b * 10000)%Z). assert (HN : (10000 <= N)%Z) by (unfold N; nia). pose proof (Z.sqrt_spec N ltac:(lia)) as (S1 & S2). set (s := Z.sqrt N) in *.
  assert (Hs : (100 <= s)%Z) by nia. unfold Qlt, Qle, Qmult, Qminus, Qplus, Qopp. cbn [Qnum Qden]. split; [lia|].
  assert (B1 : (39 * N <= 40 * (s * s))%Z) by nia. assert (B2 : (40 * (s * s) <= 41 * N)%Z) by nia. clear - B1 B2. clearbody s.
  rewrite !Pos2Z.inj_mul. set (B := Z.pos b) in *. assert (HB : (0 < B)%Z) by (unfold B; lia). clearbody B. unfold N in *. clear N.
  apply (Z.mul_le_mono_nonneg_r _ _ B) in B1; [|lia]. apply (Z.mul_le_mono_nonneg_r _ _ B) in B2; [|lia].
  split; lia.
Qed.

(** The full claim, for every gradient, is false. *)
Theorem C75_step_refuted :
  ~ (forall (n : nat) (H : vec -> vec) (sqrt : Q -> Q) (damping tol max_kl : Q) (g : vec) (max_iter : nat),
       spsd n H -> 0 < damping -> 0 < tol -> 0 < max_kl -> root_within (1 # 40) sqrt -> length g = n -> (1 <= max_iter)%nat ->
       kl_constrained_step sqrt H damping tol max_kl g max_iter <> None).
Proof.
  intros C. assert (P : spsd 1 (fun v => v)).
  { split; try (intros; reflexivity); try (intros; assumption). intros v _. apply vdot_self_nonneg. }
  apply (C 1%nat (fun v => v) root100 1 1 1 [0] 1%nat P); try lra; try reflexivity; try exact root100_ok; try lia.
Qed.

(** A concrete case: curvature diag(3, 0), gradient (1, 2). *)
Definition exH (v : vec) : vec := match v with x :: rest => (3 * x) :: map (fun _ => 0) rest | [] => [] end.
Example C75_ex_psd : spsd 2 exH.
Proof.
  split.
  - intros [|x [|y [|? ?]]] L; try discriminate. reflexivity.
  - intros [|a [|b [|? ?]]] [|x [|y [|? ?]]] L1 L2; try discriminate. unfold veq. cbn [exH vadd map]. repeat apply Forall2_cons; try apply Forall2_nil; ring.
  - intros c [|x [|y [|? ?]]] L; try discriminate. unfold veq, vscale. cbn [exH map]. repeat apply Forall2_cons; try apply Forall2_nil; ring.
  - intros [|a [|b [|? ?]]] [|x [|y [|? ?]]] L1 L2; try discriminate. cbn [exH vdot map]. ring.
  - intros [|x [|y [|? ?]]] L; try discriminate. cbn [exH vdot map]. assert (0 <= x * x) by (destruct (Qlt_le_dec x 0); nra). lra.
Qed.
Example C75_ex : match kl_constrained_step root100 exH (1 # 2) (1 # 10000000000) (1 # 100) [1; 2] 10 with
  Some step => 0 < vdot [1; 2] step /\ (1 # 2) * vdot step (exH step) <= (41 # 40) * (1 # 100) | None => False end.
Proof. vm_compute. split; congruence. Qed.

Print Assumptions C75_step_partial.
Print Assumptions C75_zero_gradient_partial.
Print Assumptions C75_step_refuted.
