(** Proofs about conjugate gradients. *)
From Coq Require Import QArith Qfield Lqa Lia Setoid.
From Verif Require Import Base P_Base Vec M_CG S_CG.
Open Scope Q_scope.

(** * Orthogonal vectors *)
Fixpoint ortho (vs : list vec) : Prop :=
  match vs with [] => True | v :: vs => (forall u, In u vs -> vdot v u == 0) /\ ~ vdot v v == 0 /\ ortho vs end.
(** sum of (u . v)^2 / (v . v) *)
Definition energy (u : vec) (vs : list vec) : Q := fold_right (fun v acc => vdot u v * vdot u v / vdot v v + acc) 0 vs.

Lemma bessel n vs : forall u, length u = n -> (forall v, In v vs -> length v = n) -> ortho vs -> energy u vs <= vdot u u.
Proof.
  induction vs as [|v vs IH]; intros u Lu Lv Ho; [apply vdot_self_nonneg|]. destruct Ho as (Ho & Hn & Ho').
  cbn [energy fold_right]. fold (energy u vs). set (c := vdot u v / vdot v v). set (u' := vsub u (vscale c v)).
  assert (Hv : length v = n) by (apply Lv; left; reflexivity).
  assert (Lu' : length u' = n) by (apply vsub_len; [exact Lu|apply vscale_len; exact Hv]).
  assert (Lc : length u = length (vscale c v)) by (rewrite (vscale_len c v n Hv); exact Lu).
  assert (E : energy u vs == energy u' vs).
  { clear IH. assert (G : forall w, In w vs -> vdot u w == vdot u' w).
    { intros w Hw. unfold u'. rewrite vdot_sub_l by exact Lc. rewrite vdot_scale_l, (Ho w Hw). ring. }
    clear - G. induction vs as [|w vs IH]; [reflexivity|]. cbn [energy fold_right]. fold (energy u vs) (energy u' vs).
    rewrite (G w) by (left; reflexivity). rewrite IH by (intros x Hx; apply G; right; exact Hx). reflexivity. }
  rewrite E. pose proof (IH u' Lu' (fun w Hw => Lv w (or_intror Hw)) Ho') as I.
  assert (E2 : vdot u' u' == vdot u u - vdot u v * vdot u v / vdot v v).
  { unfold u'. rewrite vdot_sub_l by exact Lc. rewrite !vdot_sub_r by exact Lc. rewrite !vdot_scale_l, !vdot_scale_r, (vdot_comm v u). unfold c. field. exact Hn. }
  rewrite E2 in I. lra.
Qed.

(** unit vectors *)
Definition unit_ (n j : nat) : vec := map (fun k => if (k =? j)%nat then 1 else 0) (seq 0 n).
Lemma unit_len n j : length (unit_ n j) = n. Proof. unfold unit_. rewrite map_length, seq_length. reflexivity. Qed.
Lemma unit_dot_gen j v : forall a, vdot (map (fun k => if (k =? j)%nat then 1 else 0) (seq a (length v))) v == if (a <=? j)%nat then nth (j - a) v 0 else 0.
Proof.
  induction v as [|x v IH]; intros a; cbn [length seq map vdot].
  - destruct (a <=? j)%nat; [destruct (j - a)%nat; reflexivity|reflexivity].
  - rewrite IH. destruct (Nat.eqb_spec a j).
    + subst. rewrite Nat.leb_refl, Nat.sub_diag. destruct (Nat.leb_spec (S j) j); [lia|]. cbn. ring.
    + destruct (Nat.leb_spec a j), (Nat.leb_spec (S a) j); try lia; [|ring].
      replace (j - a)%nat with (S (j - S a)) by lia. cbn [nth]. ring.
Qed.
Lemma unit_dot j v : vdot (unit_ (length v) j) v == nth j v 0.
Proof. unfold unit_. rewrite unit_dot_gen. cbn [Nat.leb]. rewrite Nat.sub_0_r. reflexivity. Qed.
Lemma unit_self n j : (j < n)%nat -> vdot (unit_ n j) (unit_ n j) == 1.
Proof.
  intros Hj. pose proof (unit_dot j (unit_ n j)) as E. rewrite unit_len in E. rewrite E. unfold unit_.
  set (f := fun k => if (k =? j)%nat then 1 else 0). rewrite (nth_indep _ 0 (f 0%nat)) by (rewrite map_length, seq_length; exact Hj).
  rewrite map_nth, seq_nth by exact Hj. unfold f. cbn [Nat.add]. rewrite Nat.eqb_refl. reflexivity.
Qed.

Definition qsumn (f : nat -> Q) (n : nat) : Q := fold_right (fun j acc => f j + acc) 0 (seq 0 n).
Lemma qsumn_ext f g n : (forall j, (j < n)%nat -> f j == g j) -> qsumn f n == qsumn g n.
Proof.
  intros H. unfold qsumn. assert (G : forall j, In j (seq 0 n) -> f j == g j) by (intros j Hj; apply H; apply in_seq in Hj; lia).
  induction (seq 0 n) as [|j l IH]; [reflexivity|]. cbn [fold_right]. rewrite (G j) by (left; reflexivity). rewrite IH by (intros k Hk; apply G; right; exact Hk). reflexivity.
Qed.
Lemma qsumn_le f g n : (forall j, (j < n)%nat -> f j <= g j) -> qsumn f n <= qsumn g n.
Proof.
  intros H. unfold qsumn. assert (G : forall j, In j (seq 0 n) -> f j <= g j) by (intros j Hj; apply H; apply in_seq in Hj; lia).
  induction (seq 0 n) as [|j l IH]; [apply Qle_refl|]. cbn [fold_right]. specialize (IH (fun k Hk => G k (or_intror Hk))). specialize (G j (or_introl eq_refl)). lra.
Qed.
Lemma qsumn_plus f g n : qsumn (fun j => f j + g j) n == qsumn f n + qsumn g n.
Proof. unfold qsumn. induction (seq 0 n) as [|j l IH]; cbn [fold_right]; [ring|]. rewrite IH. ring. Qed.
Lemma qsumn_div f d n : qsumn (fun j => f j / d) n == qsumn f n / d.
Proof. unfold qsumn, Qdiv. induction (seq 0 n) as [|j l IH]; cbn [fold_right]; [ring|]. rewrite IH. ring. Qed.
Lemma qsumn_one n : qsumn (fun _ => 1) n == inject_Z (Z.of_nat n).
Proof.
  unfold qsumn. rewrite <- (seq_length n 0) at 2. induction (seq 0 n) as [|j l IH]; [reflexivity|]. cbn [fold_right length].
  rewrite IH, Nat2Z.inj_succ. unfold Z.succ. rewrite inject_Z_plus. ring.
Qed.
Lemma qsumn_sq v : qsumn (fun j => nth j v 0 * nth j v 0) (length v) == vdot v v.
Proof.
  induction v as [|x v IH]; [reflexivity|]. cbn [length vdot]. unfold qsumn in *. cbn [seq fold_right nth]. rewrite <- IH. rewrite <- seq_shift.
  apply Qplus_comp; [reflexivity|]. clear. induction (seq 0 (length v)) as [|j l IH]; [reflexivity|]. cbn [map fold_right nth]. rewrite IH. reflexivity.
Qed.

(** At most n mutually orthogonal non-zero vectors in dimension n. *)
Lemma ortho_count n vs : (forall v, In v vs -> length v = n) -> ortho vs -> (length vs <= n)%nat.
Proof.
  intros L Ho. assert (E : qsumn (fun j => energy (unit_ n j) vs) n == inject_Z (Z.of_nat (length vs))).
  { clear - L Ho. induction vs as [|v vs IH].
    - cbn [energy fold_right length]. change (inject_Z (Z.of_nat 0)) with 0. unfold qsumn. induction (seq 0 n) as [|j l IH]; [reflexivity|]. cbn [fold_right]. rewrite IH. ring.
    - destruct Ho as (_ & Hn & Ho). cbn [energy fold_right]. fold (energy). rewrite (qsumn_plus (fun j => vdot (unit_ n j) v * vdot (unit_ n j) v / vdot v v) (fun j => energy (unit_ n j) vs)).
      rewrite IH by (try exact Ho; intros w Hw; apply L; right; exact Hw). cbn [length]. rewrite Nat2Z.inj_succ. unfold Z.succ. rewrite inject_Z_plus.
      rewrite qsumn_div. assert (Lv : length v = n) by (apply L; left; reflexivity). subst n.
      rewrite (qsumn_ext (fun j => vdot (unit_ (length v) j) v * vdot (unit_ (length v) j) v) (fun j => nth j v 0 * nth j v 0)) by (intros j _; rewrite unit_dot; reflexivity).
      rewrite qsumn_sq. change (inject_Z 1) with 1. field. exact Hn. }
  assert (B : qsumn (fun j => energy (unit_ n j) vs) n <= qsumn (fun _ => 1) n).
  { apply qsumn_le. intros j Hj. rewrite <- (unit_self n j Hj). apply (bessel n); [apply unit_len|exact L|exact Ho]. }
  rewrite E, qsumn_one in B. rewrite <- Zle_Qle in B. lia.
Qed.

(** * The invariant *)
Lemma zero_vdot v : zero v -> vdot v v == 0.
Proof. induction 1 as [|x v Hx Hv IH]; cbn [vdot]; [reflexivity|]. rewrite Hx, IH. ring. Qed.
Lemma veq_zero v n : veq v (vzero n) -> zero v.
Proof. revert n. induction v as [|x v IH]; intros [|n] H; inversion H; subst; constructor; [assumption|]. apply (IH n). assumption. Qed.
Lemma vdot_zero v : vdot v v == 0 -> zero v.
Proof. intros H. eapply veq_zero, vdot_self_zero, H. Qed.
Lemma vdot_zero_l n v : vdot (vzero n) v == 0. Proof. rewrite vdot_comm. apply vdot_zero_r. Qed.

Lemma vsub_opp : forall a c, veq (vsub a c) (vadd a (vscale (-1 # 1) c)).
Proof. induction a as [|y v IH]; intros [|z w]; cbn; try constructor; [ring|apply IH]. Qed.
Lemma vsub_sub : forall w u v, veq (vsub (vsub w u) v) (vsub w (vadd u v)).
Proof. induction w as [|y w IH]; intros [|z u] [|t v]; cbn; try constructor; [ring|apply IH]. Qed.
Lemma zero_dot_l : forall u v, zero u -> vdot u v == 0.
Proof. intros u v Z. revert v. induction Z; intros [|z w]; cbn; try reflexivity. rewrite H, IHZ. ring. Qed.

Lemma vadd_diff : forall x y, length x = length y -> veq y (vadd x (vscale 1 (vsub y x))).
Proof. induction x as [|u x IH]; intros [|v y] L; cbn in *; try discriminate; constructor; [ring|]. apply IH. congruence. Qed.

Section CG.
  Variable n : nat.
  Variable A : vec -> vec.
  Hypothesis HA : spd n A.
  Variable b : vec.
  Hypothesis Hb : length b = n.

  (** w is orthogonal to vs; v is orthogonal to everything that is orthogonal to vs *)
  Definition perp (vs : list vec) (w : vec) : Prop := forall v, In v vs -> vdot w v == 0.
  Definition inspan (vs : list vec) (v : vec) : Prop := forall w, length w = n -> perp vs w -> vdot w v == 0.

  Record inv (x r p : vec) (rs ps : list vec) : Prop := {
    i_lx : length x = n; i_lr : length r = n; i_lp : length p = n;
    i_lrs : forall v, In v rs -> length v = n; i_lps : forall v, In v ps -> length v = n;
    i_res : veq r (vsub b (A x));
    i_r_rs : perp rs r; i_r_ps : perp ps r; i_conj : perp ps (A p);
    i_rs_span : forall v, In v rs -> inspan ps v; i_r_span : inspan (p :: ps) r;
    i_Ap_span : forall v, In v ps -> inspan (r :: rs) (A v);
    i_rp : vdot r p == vdot r r; i_App : vdot (A p) r == vdot (A p) p;
    i_x : inspan ps x; i_rs : ortho rs;
    i_b : inspan (p :: ps) b; i_kry : forall y, krylov A b (length ps) y -> length y = n /\ inspan ps y; i_cnt : length rs = length ps }.

  Lemma veq_A u v : length u = n -> veq u v -> veq (A u) (A v).
  Proof.
    intros Lu E. assert (Lv : length v = n) by (rewrite <- (veq_len _ _ E); exact Lu). pose proof (spd_len n A HA) as LA.
    apply vsub_zero; [rewrite !LA by assumption; reflexivity|]. rewrite LA by exact Lu.
    (* A u - A v = A (u - v) and u - v is zero *)
    assert (Lm : length (vscale (-1 # 1) v) = n) by (apply vscale_len; exact Lv).
    assert (E1 : veq (vsub (A u) (A v)) (A (vadd u (vscale (-1 # 1) v)))).
    { rewrite (spd_add n A HA u _ Lu Lm), (spd_scale n A HA (-1 # 1) v Lv). apply vsub_opp. }
    set (w := vadd u (vscale (-1 # 1) v)) in *. assert (Lw : length w = n) by (apply vadd_len; [exact Lu|exact Lm]).
    assert (Zw : zero w).
    { unfold w. clear - E. induction E; cbn; constructor; [rewrite H; ring|assumption]. }
    (* A w = A (0 w) = 0 *)
    assert (E2 : vdot (A w) (A w) == 0).
    { rewrite (spd_sym n A HA w (A w) Lw (LA _ Lw)). apply zero_dot_l, Zw. }
    rewrite E1. apply vdot_self_zero in E2. rewrite LA in E2 by exact Lw. exact E2.
  Qed.

  Lemma inspan_in vs v : In v vs -> inspan vs v.
  Proof. intros H w _ Hw. apply Hw. exact H. Qed.
  Lemma inspan_mono vs vs' v : (forall u, In u vs -> In u vs') -> inspan vs v -> inspan vs' v.
  Proof. intros H Hs w Lw Hw. apply Hs; [exact Lw|]. intros u Hu. apply Hw, H, Hu. Qed.

  Lemma p_nonzero x r p rs ps : inv x r p rs ps -> ~ zero r -> 0 < vdot r r /\ ~ zero p /\ 0 < vdot (A p) p.
  Proof.
    intros I Hr. destruct I. assert (Hrr : 0 < vdot r r).
    { pose proof (vdot_self_nonneg r). destruct (Qlt_le_dec 0 (vdot r r)); [assumption|]. exfalso. apply Hr, vdot_zero. lra. }
    assert (Hp : ~ zero p). { intros Z. assert (E : vdot r p == 0); [|lra]. rewrite vdot_comm. apply zero_dot_l, Z. }
    split; [exact Hrr|]. split; [exact Hp|]. apply (spd_pos n A HA); assumption.
  Qed.

  Lemma inv_step x r p rs ps a be : inv x r p rs ps -> ~ zero r -> a == vdot r r / vdot (A p) p ->
    let x1 := vadd x (vscale a p) in let r1 := vsub r (vscale a (A p)) in
    be == vdot r1 r1 / vdot r r -> inv x1 r1 (vadd r1 (vscale be p)) (r :: rs) (p :: ps).
  Proof.
    intros I Hr Ha x1 r1 Hbe. destruct (p_nonzero _ _ _ _ _ I Hr) as (Hrr & Hp & HpAp). pose proof I as I0. destruct I.
    pose proof (spd_len n A HA) as LA. pose proof (spd_sym n A HA) as SY. assert (LAp : length (A p) = n) by (apply LA; assumption).
    assert (Lap : length (vscale a p) = n) by (apply vscale_len; assumption). assert (LaAp : length (vscale a (A p)) = n) by (apply vscale_len; assumption).
    assert (Lx1 : length x1 = n) by (apply vadd_len; assumption). assert (Lr1 : length r1 = n) by (apply vsub_len; assumption).
    assert (Lbp : length (vscale be p) = n) by (apply vscale_len; assumption). set (p1 := vadd r1 (vscale be p)).
    assert (Lp1 : length p1 = n) by (apply vadd_len; assumption).
    assert (R1 : forall w, vdot r1 w == vdot r w - a * vdot (A p) w) by (intros w; unfold r1; rewrite vdot_sub_l by congruence; rewrite vdot_scale_l; reflexivity).
    assert (P1 : forall w, vdot p1 w == vdot r1 w + be * vdot p w) by (intros w; unfold p1; rewrite vdot_add_l by congruence; rewrite vdot_scale_l; reflexivity).
    assert (aeq : a * vdot (A p) p == vdot r r) by (rewrite Ha; field; lra).
    assert (apos : 0 < a) by (rewrite Ha; apply Qlt_shift_div_l; lra).
    (* r1 is orthogonal to the directions and to the residuals *)
    assert (H_r1_ps : perp (p :: ps) r1).
    { intros v [<-|Hv]; rewrite R1; [rewrite i_rp0, aeq; ring|]. rewrite (i_r_ps0 v Hv), (i_conj0 v Hv). ring. }
    assert (H_r1_rs : perp (r :: rs) r1).
    { intros v [<-|Hv]; rewrite R1; [rewrite i_App0, aeq; ring|]. rewrite (i_r_rs0 v Hv), (i_rs_span0 v Hv (A p) LAp i_conj0). ring. }
    (* A p is a combination of r and r1 *)
    assert (H_Ap : inspan [r1; r] (A p)).
    { intros w Lw Hw. assert (E1 : vdot w r1 == 0) by (apply Hw; left; reflexivity). assert (E2 : vdot w r == 0) by (apply Hw; right; left; reflexivity).
      rewrite (vdot_comm w r1), R1, (vdot_comm r w), E2, (vdot_comm (A p) w) in E1. nra. }
    assert (H_r1_Ap : vdot r1 (A p) == - (vdot r1 r1 / a)).
    { assert (E : vdot r1 r1 == vdot r1 r - a * vdot r1 (A p)) by (rewrite (R1 r1), (vdot_comm r r1), (vdot_comm (A p) r1); reflexivity).
      rewrite (H_r1_rs r (or_introl eq_refl)) in E. rewrite E. field. lra. }
    (* the new direction is conjugate to the old ones *)
    assert (H_conj : perp (p :: ps) (A p1)).
    { intros v Hv. assert (Lv : length v = n) by (destruct Hv as [<-|Hv]; auto). rewrite (SY p1 v Lp1 Lv), P1.
      destruct Hv as [<-|Hv].
      - rewrite H_r1_Ap, Hbe. rewrite (vdot_comm p (A p)). rewrite Ha. field. split; lra.
      - rewrite (i_Ap_span0 v Hv r1 Lr1 H_r1_rs). rewrite <- (SY p v i_lp0 Lv), (i_conj0 v Hv). ring. }
    constructor; try assumption.
    - intros v [<-|Hv]; auto.
    - intros v [<-|Hv]; auto.
    - (* residual *)
      unfold r1, x1. rewrite (spd_add n A HA x _ i_lx0 Lap), (spd_scale n A HA a p i_lp0), i_res0.
      apply vsub_sub.
    - intros v [<-|Hv]; [exact i_r_span0|]. eapply inspan_mono; [|apply i_rs_span0; exact Hv]. intros u Hu. right. exact Hu.
    - (* r1 = p1 - be p *)
      intros w Lw Hw. assert (E1 : vdot w p1 == 0) by (apply Hw; left; reflexivity). assert (E2 : vdot w p == 0) by (apply Hw; right; left; reflexivity).
      rewrite (vdot_comm w p1), P1, (vdot_comm p w), E2, (vdot_comm r1 w) in E1. lra.
    - intros v [<-|Hv].
      + eapply inspan_mono; [|exact H_Ap]. intros u [<-|[<-|[]]]; [left|right; left]; reflexivity.
      + eapply inspan_mono; [|apply i_Ap_span0; exact Hv]. intros u Hu. right. exact Hu.
    - rewrite vdot_comm, P1. rewrite (vdot_comm p r1), (H_r1_ps p (or_introl eq_refl)). ring.
    - rewrite (vdot_comm (A p1) p1), P1. rewrite (vdot_comm p (A p1)), (H_conj p (or_introl eq_refl)), (vdot_comm r1 (A p1)). ring.
    - (* x1 *)
      intros w Lw Hw. unfold x1. rewrite vdot_add_r by congruence. rewrite vdot_scale_r, (Hw p (or_introl eq_refl)), (i_x0 w Lw); [ring|].
      intros v Hv. apply Hw. right. exact Hv.
    - cbn [ortho]. split; [intros u Hu; apply i_r_rs0; exact Hu|]. split; [lra|exact i_rs0].
    - eapply inspan_mono; [|exact i_b0]. intros u Hu. right. exact Hu.
    - intros y (c & y' & Hy' & E). destruct (i_kry0 y' Hy') as (Ly' & Sy'). assert (Lc : length (vscale c b) = n) by (apply vscale_len; exact Hb).
      assert (LAy : length (A y') = n) by (apply LA; exact Ly'). split; [rewrite (veq_len _ _ E); apply vadd_len; assumption|].
      intros w Lw Hw. rewrite E, vdot_add_r by congruence. rewrite vdot_scale_r, (i_b0 w Lw Hw).
      assert (E2 : vdot w (A y') == 0); [|rewrite E2; ring]. rewrite <- (SY w y' Lw Ly'). apply Sy'; [apply LA; exact Lw|].
      intros v Hv. rewrite (SY w v Lw (i_lps0 v Hv)). apply (i_Ap_span0 v Hv w Lw).
      intros u [<-|Hu]; [apply (i_r_span0 w Lw Hw)|]. apply (i_rs_span0 u Hu w Lw). intros z Hz. apply Hw. right. exact Hz.
    - cbn [length]. congruence.
  Qed.

  Lemma objective_step x p a r : length x = n -> length p = n -> veq r (vsub b (A x)) ->
    objective A b (vadd x (vscale a p)) == objective A b x - a * vdot r p + (1 # 2) * (a * a) * vdot (A p) p.
  Proof.
    intros Lx Lp Hr. pose proof (spd_len n A HA) as LA. assert (Lap : length (vscale a p) = n) by (apply vscale_len; assumption).
    assert (LAx : length (A x) = n) by auto. assert (LAp : length (A p) = n) by auto. assert (LaAp : length (vscale a (A p)) = n) by (apply vscale_len; assumption).
    unfold objective. rewrite Hr. rewrite (spd_add n A HA x _ Lx Lap), (spd_scale n A HA a p Lp).
    rewrite vdot_sub_l by congruence. rewrite !vdot_add_r by congruence. rewrite !vdot_add_l by congruence. rewrite ?vdot_scale_r, ?vdot_scale_l, ?vdot_scale_r.
    rewrite <- (spd_sym n A HA x p Lx Lp), (vdot_comm p (A x)), (vdot_comm p (A p)). ring.
  Qed.

  (** the remaining rounds *)
  Lemma loop_ok tol (Ht : 0 < tol) k : forall x r p rs ps, inv x r p rs ps -> ~ zero r ->
    exists x' r' p' rs' ps', cg_loop A tol k x r (Some p) = Some x' /\ inv x' r' p' rs' ps' /\ (vdot r' r' < tol * tol \/ (~ zero r' /\ length rs' = (length rs + k)%nat)) /\ objective A b x' <= objective A b x /\ ((1 <= k)%nat -> objective A b x' < objective A b x).
  Proof.
    induction k as [|k IH]; intros x r p rs ps I Hr.
    - exists x, r, p, rs, ps. cbn [cg_loop]. split; [reflexivity|]. split; [exact I|]. split; [right; split; [exact Hr|lia]|]. split; [lra|lia].
    - destruct (p_nonzero _ _ _ _ _ I Hr) as (Hrr & Hp & HpAp). cbn [cg_loop]. unfold fdiv at 1.
      destruct (Qeq_bool (vdot (A p) p) 0) eqn:Ez; [apply Qeq_bool_eq in Ez; lra|].
      set (a := vdot r r / vdot (A p) p). set (x1 := vadd x (vscale a p)). set (r1 := vsub r (vscale a (A p))).
      pose proof (inv_step x r p rs ps a (vdot r1 r1 / vdot r r) I Hr (Qeq_refl _)) as I1. cbv zeta in I1. fold x1 r1 in I1. specialize (I1 (Qeq_refl _)).
      assert (D : objective A b x1 < objective A b x).
      { unfold x1. rewrite (objective_step x p a r (i_lx _ _ _ _ _ I) (i_lp _ _ _ _ _ I) (i_res _ _ _ _ _ I)), (i_rp _ _ _ _ _ I).
        assert (aeq : a * vdot (A p) p == vdot r r) by (unfold a; field; lra). assert (apos : 0 < a) by (unfold a; apply Qlt_shift_div_l; lra).
        assert (E : a * a * vdot (A p) p == a * vdot r r) by (rewrite <- aeq; ring). nra. }
      destruct (negb (Qle_bool tol 0) && negb (Qle_bool (tol * tol) (vdot r1 r1))) eqn:Es.
      + apply andb_prop in Es as (_ & Es). apply negb_true_iff in Es.
        exists x1, r1, (vadd r1 (vscale (vdot r1 r1 / vdot r r) p)), (r :: rs), (p :: ps). split; [reflexivity|]. split; [exact I1|].
        split; [left|split; [lra|intros _; exact D]]. destruct (Qlt_le_dec (vdot r1 r1) (tol * tol)) as [l|l]; [exact l|]. apply Qle_bool_iff in l. congruence.
      + assert (Hr1 : ~ zero r1).
        { intros Z. apply zero_vdot in Z. apply andb_false_iff in Es as [Es|Es]; apply negb_false_iff, Qle_bool_iff in Es; [lra|nra]. }
        unfold fdiv. destruct (Qeq_bool (vdot r r) 0) eqn:Ez2; [apply Qeq_bool_eq in Ez2; lra|].
        destruct (IH _ _ _ _ _ I1 Hr1) as (x' & r' & p' & rs' & ps' & E & I' & H1 & H2 & _). exists x', r', p', rs', ps'. split; [exact E|]. split; [exact I'|].
        split; [destruct H1 as [H1|(H1 & H1')]; [left; exact H1|right; split; [exact H1|cbn [length] in H1'; lia]]|]. split; [lra|intros _; lra].
  Qed.

  (** one more round at the end never raises the objective *)
  Lemma loop_more tol (Ht : 0 < tol) k : forall x r p rs ps x' x'', inv x r p rs ps -> ~ zero r ->
    cg_loop A tol k x r (Some p) = Some x' -> cg_loop A tol (S k) x r (Some p) = Some x'' -> objective A b x'' <= objective A b x'.
  Proof.
    induction k as [|k IH]; intros x r p rs ps x' x'' I Hr E1 E2.
    - cbn [cg_loop] in E1. inversion E1; subst x'. destruct (loop_ok tol Ht 1 _ _ _ _ _ I Hr) as (y & ? & ? & ? & ? & E & _ & _ & H & _). rewrite E2 in E. inversion E; subst. exact H.
    - destruct (p_nonzero _ _ _ _ _ I Hr) as (Hrr & Hp & HpAp). remember (S k) as k1. cbn [cg_loop] in E2. subst k1. cbn [cg_loop] in E1.
      unfold fdiv at 1 in E1. unfold fdiv at 1 in E2.
      destruct (Qeq_bool (vdot (A p) p) 0) eqn:Ez; [discriminate|].
      set (a := vdot r r / vdot (A p) p) in *. set (x1 := vadd x (vscale a p)) in *. set (r1 := vsub r (vscale a (A p))) in *.
      pose proof (inv_step x r p rs ps a (vdot r1 r1 / vdot r r) I Hr (Qeq_refl _)) as I1. cbv zeta in I1. fold x1 r1 in I1. specialize (I1 (Qeq_refl _)).
      destruct (negb (Qle_bool tol 0) && negb (Qle_bool (tol * tol) (vdot r1 r1))) eqn:Es.
      + inversion E1; inversion E2; subst. lra.
      + assert (Hr1 : ~ zero r1).
        { intros Z. apply zero_vdot in Z. apply andb_false_iff in Es as [Es|Es]; apply negb_false_iff, Qle_bool_iff in Es; [lra|nra]. }
        unfold fdiv in E1, E2. destruct (Qeq_bool (vdot r r) 0) eqn:Ez2; [apply Qeq_bool_eq in Ez2; lra|].
        eapply IH; [exact I1|exact Hr1|exact E1|exact E2].
  Qed.

  Lemma vsub_zero_r v : forall m, zero m -> length m = length v -> veq (vsub v m) v.
  Proof. induction v as [|y v IH]; intros m Z L; [destruct m; constructor|]. destruct Z as [|z m Hz Z]; [discriminate|]. cbn. constructor; [rewrite Hz; ring|]. apply IH; [exact Z|cbn in L; congruence]. Qed.
  Lemma A_zero : zero (A (vzero n)).
  Proof.
    apply vdot_zero. pose proof (spd_len n A HA) as LA. rewrite (spd_sym n A HA (vzero n) (A (vzero n)) (vzero_len n) (LA _ (vzero_len n))). apply vdot_zero_l.
  Qed.
  Lemma inv_start : let r0 := vsub b (A (vzero n)) in inv (vzero n) r0 r0 [] [] /\ veq r0 b.
  Proof.
    intros r0. pose proof (spd_len n A HA) as LA. assert (L0 := vzero_len n). assert (L1 : length (A (vzero n)) = n) by auto. assert (Lr : length r0 = n) by (apply vsub_len; assumption).
    assert (E : veq r0 b) by (apply vsub_zero_r; [exact A_zero|congruence]). split; [|exact E].
    constructor; try assumption; try reflexivity; try (intros v Hv; destruct Hv; fail); cbn [ortho]; auto.
    - intros w _ Hw. apply Hw. left. reflexivity.
    - intros w _ _. apply vdot_zero_r.
    - intros w _ Hw. rewrite <- E. apply Hw. left. reflexivity.
    - intros y (Zy & Ly). split; [congruence|]. intros w Lw _. rewrite vdot_comm. apply zero_dot_l, Zy.
  Qed.
  Lemma objective_opt x r ps y : length x = n -> veq r (vsub b (A x)) -> perp ps r -> inspan ps x -> length y = n -> inspan ps y -> length r = n ->
    objective A b x <= objective A b y.
  Proof.
    intros Lx Hr Hp Sx Ly Sy Lr. set (d := vsub y x). assert (Ld : length d = n) by (apply vsub_len; assumption).
    assert (E : veq y (vadd x (vscale 1 d))).
    { unfold d. apply vadd_diff. congruence. }
    assert (Eo : objective A b y == objective A b (vadd x (vscale 1 d))).
    { pose proof (veq_A y _ Ly E) as EA. unfold objective. generalize dependent (vadd x (vscale 1 d)). intros z E EA. rewrite EA, E. reflexivity. }
    rewrite Eo, (objective_step x d 1 r Lx Ld Hr).
    assert (Z : vdot r d == 0) by (unfold d; rewrite vdot_sub_r by congruence; rewrite (Sx r Lr Hp), (Sy r Lr Hp); ring). rewrite Z.
    assert (0 <= vdot (A d) d); [|lra].
    destruct (Qlt_le_dec 0 (vdot d d)) as [l|l].
    - apply Qlt_le_weak, (spd_pos n A HA d Ld). intros Zd. apply zero_vdot in Zd. lra.
    - assert (Zd : zero d) by (apply vdot_zero; pose proof (vdot_self_nonneg d); lra). rewrite vdot_comm, (zero_dot_l d _ Zd). lra.
  Qed.

End CG.