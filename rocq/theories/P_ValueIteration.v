(** Proofs for C134: operators between the Bellman operator and the advantage-learning operator, on finite decision problems, over the reals. *)
From Coq Require Import Reals Lra Lia List PeanoNat.
Import ListNotations.
Open Scope R_scope.

(** ** The largest of f 0 .. f m *)
Fixpoint vmax (f : nat -> R) (m : nat) : R := match m with O => f O | S m => Rmax (vmax f m) (f (S m)) end.
Lemma vmax_ge f m : forall a, (a <= m)%nat -> f a <= vmax f m.
Proof.
  induction m as [|m IH]; intros a H; cbn [vmax]; [replace a with O by lia; lra|]. destruct (Nat.eq_dec a (S m)) as [->|N]; [apply Rmax_r|]. eapply Rle_trans; [apply IH; lia|apply Rmax_l].
Qed.
Lemma vmax_at f m : exists a, (a <= m)%nat /\ f a = vmax f m.
Proof.
  induction m as [|m IH]; cbn [vmax]; [exists O; auto|]. destruct IH as (a & Ha & E). destruct (Rle_dec (vmax f m) (f (S m))) as [L|L].
  - exists (S m). rewrite Rmax_right by exact L. auto.
  - exists a. rewrite Rmax_left by lra. split; [lia|exact E].
Qed.
Lemma vmax_le f m B : (forall a, (a <= m)%nat -> f a <= B) -> vmax f m <= B.
Proof. intros H. destruct (vmax_at f m) as (a & Ha & <-). now apply H. Qed.
Lemma vmax_ext f g m : (forall a, (a <= m)%nat -> f a = g a) -> vmax f m = vmax g m.
Proof. induction m as [|m IH]; intros H; cbn [vmax]; [apply H; lia|]. rewrite IH by (intros; apply H; lia). now rewrite H by lia. Qed.
(** A bound for finitely many numbers. *)
Lemma bound_finite (f : nat -> R) n : exists B, 0 <= B /\ forall s, (s < n)%nat -> Rabs (f s) <= B.
Proof.
  induction n as [|n IH]; [exists 0; split; [lra|intros s H; lia]|]. destruct IH as (B & HB & H). exists (Rmax B (Rabs (f n))). split; [eapply Rle_trans; [exact HB|apply Rmax_l]|].
  intros s Hs. destruct (Nat.eq_dec s n) as [->|N]; [apply Rmax_r|]. eapply Rle_trans; [apply H; lia|apply Rmax_l].
Qed.

(** ** Limits *)
Lemma cv_const c : Un_cv (fun _ => c) c.
Proof. intros e He. exists O. intros n _. unfold R_dist. rewrite Rminus_diag_eq by reflexivity. rewrite Rabs_R0. exact He. Qed.
Lemma cv_le x y l m : Un_cv x l -> Un_cv y m -> (forall k, x k <= y k) -> l <= m.
Proof.
  intros Hx Hy H. destruct (Rle_dec l m) as [L|L]; [exact L|]. exfalso. set (e := (l - m) / 2). assert (He : 0 < e) by (unfold e; lra). destruct (Hx e He) as [N1 H1], (Hy e He) as [N2 H2].
  specialize (H1 (N1 + N2)%nat ltac:(lia)). specialize (H2 (N1 + N2)%nat ltac:(lia)). specialize (H (N1 + N2)%nat). unfold R_dist in *. apply Rabs_def2 in H1, H2. unfold e in *. lra.
Qed.
Lemma cv_shift x l : Un_cv x l -> Un_cv (fun k => x (S k)) l.
Proof. intros H e He. destruct (H e He) as [N HN]. exists N. intros k Hk. apply HN. lia. Qed.
Lemma cv_ext x y l : (forall k, x k = y k) -> Un_cv x l -> Un_cv y l.
Proof. intros E H e He. destruct (H e He) as [N HN]. exists N. intros k Hk. rewrite <- E. now apply HN. Qed.
Lemma cv_max x y l m : Un_cv x l -> Un_cv y m -> Un_cv (fun k => Rmax (x k) (y k)) (Rmax l m).
Proof.
  intros Hx Hy e He. destruct (Hx e He) as [N1 H1], (Hy e He) as [N2 H2]. exists (N1 + N2)%nat. intros k Hk. specialize (H1 k ltac:(lia)). specialize (H2 k ltac:(lia)).
  unfold R_dist in *. apply Rabs_def2 in H1, H2. apply Rabs_def1; unfold Rmax; destruct (Rle_dec (x k) (y k)), (Rle_dec l m); lra.
Qed.
Lemma cv_vmax (x : nat -> nat -> R) l m : (forall a, (a <= m)%nat -> Un_cv (fun k => x k a) (l a)) -> Un_cv (fun k => vmax (x k) m) (vmax l m).
Proof. induction m as [|m IH]; intros H; cbn [vmax]; [apply H; lia|]. apply cv_max; [apply IH; intros a Ha; apply H; lia|apply H; lia]. Qed.
Lemma geometric_cv c g : 0 <= g < 1 -> Un_cv (fun k => c * g ^ k) 0.
Proof.
  intros Hg e He. destruct (pow_lt_1_zero g ltac:(rewrite Rabs_right; lra) (e / (Rabs c + 1))) as [N HN]; [apply Rdiv_lt_0_compat; [exact He|pose proof (Rabs_pos c); lra]|].
  exists N. intros k Hk. unfold R_dist. rewrite Rminus_0_r, Rabs_mult. specialize (HN k Hk). pose proof (Rabs_pos c). pose proof (Rabs_pos (g ^ k)).
  apply Rle_lt_trans with ((Rabs c + 1) * Rabs (g ^ k)); [nra|]. apply Rlt_le_trans with ((Rabs c + 1) * (e / (Rabs c + 1))); [apply Rmult_lt_compat_l; lra|]. right. field. lra.
Qed.
(** A sequence that falls by ever less, and is bounded, converges. *)
Lemma almost_growing_cv x c g B : 0 <= g < 1 -> (forall k, x (S k) - x k >= - (c * g ^ k)) -> (forall k, x k <= B) -> 0 <= c -> exists l, Un_cv x l.
Proof.
  intros Hg H HB Hc. set (w := fun k => x k - c / (1 - g) * g ^ k).
  assert (Gr : Un_growing w).
  { intros k. unfold w. specialize (H k). cbn [pow]. assert (E : c / (1 - g) * (g * g ^ k) = c / (1 - g) * g ^ k - c * g ^ k) by (field; lra). rewrite E. lra. }
  assert (Ub : has_ub w).
  { exists B. intros y (k & ->). unfold w. specialize (HB k). assert (0 <= c / (1 - g) * g ^ k); [|lra]. apply Rmult_le_pos; [apply Rmult_le_pos; [lra|left; apply Rinv_0_lt_compat; lra]|apply pow_le; lra]. }
  destruct (growing_cv w Gr Ub) as [l Hl]. exists l. apply (cv_ext (fun k => w k + c / (1 - g) * g ^ k)); [intros k; unfold w; lra|]. replace l with (l + 0) by lra. apply CV_plus; [exact Hl|]. now apply geometric_cv.
Qed.
(** y (k+1) = a y k + e k with e k -> e *)
Lemma linear_cv y ee e a : 0 <= a < 1 -> (forall k, y (S k) = a * y k + ee k) -> Un_cv ee e -> Un_cv y (e / (1 - a)).
Proof.
  intros Ha Hy He eps Hp. set (L := e / (1 - a)). destruct (He (eps * (1 - a) / 2)) as [N HN]; [assert (0 < eps * (1 - a)) by (apply Rmult_lt_0_compat; lra); lra|].
  assert (Step : forall j, Rabs (y (N + j)%nat - L) <= a ^ j * Rabs (y N - L) + eps / 2).
  { induction j as [|j IH]; [rewrite Nat.add_0_r; cbn [pow]; lra|]. rewrite Nat.add_succ_r, Hy. replace (a * y (N + j)%nat + ee (N + j)%nat - L) with (a * (y (N + j)%nat - L) + (ee (N + j)%nat - e)) by (unfold L; field; lra).
    eapply Rle_trans; [apply Rabs_triang|]. rewrite Rabs_mult, (Rabs_right a) by lra. specialize (HN (N + j)%nat ltac:(lia)). unfold R_dist in HN. cbn [pow].
    assert (a * Rabs (y (N + j)%nat - L) <= a * (a ^ j * Rabs (y N - L) + eps / 2)) by (apply Rmult_le_compat_l; lra). lra. }
  destruct (geometric_cv (Rabs (y N - L)) a Ha (eps / 2)) as [M HM]; [lra|]. exists (N + M)%nat. intros k Hk. replace k with (N + (k - N))%nat by lia. unfold R_dist. eapply Rle_lt_trans; [apply Step|].
  specialize (HM (k - N)%nat ltac:(lia)). unfold R_dist in HM. rewrite Rminus_0_r, Rabs_right in HM; [lra|]. apply Rle_ge, Rmult_le_pos; [apply Rabs_pos|apply pow_le; lra].
Qed.

(** ** Decision problems *)
Section Problem.
Context (n m : nat) (g : R) (Hg : 0 <= g < 1).
(** probability, reward, next state, terminal *)
Context (out : nat -> nat -> list (R * (R * nat * bool))).
Fixpoint psum (l : list (R * (R * nat * bool))) : R := match l with [] => 0 | (p, _) :: l => p + psum l end.
Definition good (l : list (R * (R * nat * bool))) : Prop := Forall (fun x => let '(p, (_, s', _)) := x in 0 <= p /\ (s' < n)%nat) l.
Context (wf : forall s a, (s < n)%nat -> (a <= m)%nat -> psum (out s a) = 1 /\ good (out s a)).
Fixpoint ev (U : nat -> R) (l : list (R * (R * nat * bool))) : R :=
  match l with [] => 0 | (p, (r, s', t)) :: l => p * (r + (if t : bool then 0 else g * U s')) + ev U l end.

Lemma psum_nonneg l : good l -> 0 <= psum l.
Proof. induction 1 as [|[p [[r s'] t]] l [Hp _] F IH]; cbn [psum]; lra. Qed.
Lemma ev_mono l U U' d : good l -> 0 <= d -> (forall s, (s < n)%nat -> U s <= U' s + d) -> ev U l <= ev U' l + g * d * psum l.
Proof.
  intros F Hd H. induction F as [|[p [[r s'] t]] l [Hp Hs] F IH]; cbn [ev psum]; [lra|]. specialize (H s' Hs). assert (0 <= g * d) by (apply Rmult_le_pos; lra).
  assert (p * (r + (if t then 0 else g * U s')) <= p * (r + (if t then 0 else g * U' s')) + g * d * p); [|lra].
  destruct t; [nra|]. assert (g * U s' <= g * (U' s' + d)) by (apply Rmult_le_compat_l; lra). nra.
Qed.
Lemma ev_bound l : exists B, 0 <= B /\ forall U C, good l -> 0 <= C -> (forall s, (s < n)%nat -> U s <= C) -> ev U l <= B + g * C * psum l.
Proof.
  induction l as [|[p [[r s'] t]] l (B & HB & IH)]; [exists 0; split; [lra|intros; cbn; lra]|]. exists (B + Rabs (p * r)). split; [pose proof (Rabs_pos (p * r)); lra|]. intros U C F HC H.
  apply Forall_cons_iff in F. destruct F as [[Hp Hs] F]. specialize (IH U C F HC H). cbn [ev psum]. specialize (H s' Hs). pose proof (Rle_abs (p * r)). assert (0 <= g * C) by (apply Rmult_le_pos; lra).
  assert (p * (if t then 0 else g * U s') <= g * C * p); [|lra]. destruct t; [nra|]. assert (g * U s' <= g * C) by (apply Rmult_le_compat_l; lra). nra.
Qed.
Lemma ev_cv (U : nat -> nat -> R) L l : good l -> (forall s, (s < n)%nat -> Un_cv (fun k => U k s) (L s)) -> Un_cv (fun k => ev (U k) l) (ev L l).
Proof.
  intros F H. induction F as [|[p [[r s'] t]] l [Hp Hs] F IH]; cbn [ev]; [apply cv_const|]. apply CV_plus; [|exact IH]. apply CV_mult; [apply cv_const|]. apply CV_plus; [apply cv_const|].
  destruct t; [apply cv_const|]. apply CV_mult; [apply cv_const|]. now apply H.
Qed.

(** Two solutions of equations of this kind. *)
Lemma contraction (U U' : nat -> R) : (forall d, 0 <= d -> (forall s, (s < n)%nat -> U s <= U' s + d) -> forall s, (s < n)%nat -> U s <= U' s + g * d) -> forall s, (s < n)%nat -> U s <= U' s.
Proof.
  intros H. destruct (bound_finite (fun s => U s - U' s) n) as (B & HB & H0).
  assert (K : forall k s, (s < n)%nat -> U s <= U' s + B * g ^ k).
  { induction k as [|k IH]; intros s Hs; [cbn [pow]; specialize (H0 s Hs); pose proof (Rle_abs (U s - U' s)); lra|].
    cbn [pow]. replace (B * (g * g ^ k)) with (g * (B * g ^ k)) by ring. apply H; [apply Rmult_le_pos; [lra|apply pow_le; lra]|exact IH|exact Hs]. }
  intros s Hs. apply (cv_le (fun _ => U s) (fun k => U' s + B * g ^ k) (U s) (U' s)); [apply cv_const| |intros k; now apply K].
  replace (U' s) with (U' s + 0) at 1 by lra. apply CV_plus; [apply cv_const|now apply geometric_cv].
Qed.
Definition bellman (V : nat -> R) : Prop := forall s, (s < n)%nat -> V s = vmax (fun a => ev V (out s a)) m.
Definition earns (pi : nat -> nat) (U : nat -> R) : Prop := forall s, (s < n)%nat -> U s = ev U (out s (pi s)).
Lemma ev_plus s a U U' d : (s < n)%nat -> (a <= m)%nat -> 0 <= d -> (forall s, (s < n)%nat -> U s <= U' s + d) -> ev U (out s a) <= ev U' (out s a) + g * d.
Proof. intros Hs Ha Hd H. destruct (wf s a Hs Ha) as [P G]. pose proof (ev_mono (out s a) U U' d G Hd H) as X. rewrite P in X. lra. Qed.
Lemma bellman_unique V V' : bellman V -> bellman V' -> forall s, (s < n)%nat -> V s = V' s.
Proof.
  assert (K : forall V V', bellman V -> bellman V' -> forall s, (s < n)%nat -> V s <= V' s).
  { intros U U' HU HU'. apply contraction. intros d Hd H s Hs. rewrite (HU s Hs), (HU' s Hs). apply vmax_le. intros a Ha. pose proof (ev_plus s a U U' d Hs Ha Hd H). pose proof (vmax_ge (fun a => ev U' (out s a)) m a Ha) as X. cbn beta in X. lra. }
  intros H H' s Hs. apply Rle_antisym; now apply K.
Qed.
Lemma earns_le V pi U : bellman V -> (forall s, (s < n)%nat -> (pi s <= m)%nat) -> earns pi U -> forall s, (s < n)%nat -> U s <= V s.
Proof.
  intros HV Hp HU. apply contraction. intros d Hd H s Hs. rewrite (HU s Hs), (HV s Hs). pose proof (ev_plus s (pi s) U V d Hs (Hp s Hs) Hd H). pose proof (vmax_ge (fun a => ev V (out s a)) m (pi s) (Hp s Hs)) as X. cbn beta in X. lra.
Qed.

(** ** The iteration *)
Context (al : R) (Hal : 0 <= al < 1) (Qk : nat -> nat -> nat -> R).
Notation V k s := (vmax (Qk k s) m).
Notation VV k := (fun s => vmax (Qk k s) m).
Context (upper : forall k s a, (s < n)%nat -> (a <= m)%nat -> Qk (S k) s a <= ev (VV k) (out s a)).
Context (lower : forall k s a, (s < n)%nat -> (a <= m)%nat -> Qk (S k) s a >= ev (VV k) (out s a) - al * (V k s - Qk k s a)).

Lemma falls : exists c, 0 <= c /\ forall k s, (s < n)%nat -> V (S k) s - V k s >= - (c * g ^ k).
Proof.
  destruct (bound_finite (fun s => V 1 s - V 0 s) n) as (c & Hc & H0). exists c. split; [exact Hc|]. induction k as [|k IH]; intros s Hs.
  - cbn [pow]. specialize (H0 s Hs). pose proof (Rle_abs (- (V 1 s - V 0 s))) as X. rewrite Rabs_Ropp in X. lra.
  - destruct (vmax_at (Qk (S k) s) m) as (a & Ha & Ea). pose proof (lower (S k) s a Hs Ha) as L. pose proof (upper k s a Hs Ha) as Up. rewrite Ea in *. pose proof (vmax_ge (Qk (S (S k)) s) m a Ha) as G.
    assert (Hd : 0 <= c * g ^ k) by (apply Rmult_le_pos; [lra|apply pow_le; lra]).
    pose proof (ev_plus s a (VV k) (VV (S k)) (c * g ^ k) Hs Ha Hd ltac:(intros s' Hs'; specialize (IH s' Hs'); cbn beta; lra)) as M. cbn [pow]. lra.
Qed.
Lemma bounded : exists B, forall k s, (s < n)%nat -> V k s <= B.
Proof.
  assert (Rb : exists B, 0 <= B /\ forall s a U C, (s < n)%nat -> (a <= m)%nat -> 0 <= C -> (forall s, (s < n)%nat -> U s <= C) -> ev U (out s a) <= B + g * C).
  { assert (Row : forall s, exists B, 0 <= B /\ forall a U C, (s < n)%nat -> (a <= m)%nat -> 0 <= C -> (forall s, (s < n)%nat -> U s <= C) -> ev U (out s a) <= B + g * C).
    { intros s. assert (X : forall j, (j <= S m)%nat -> exists B, 0 <= B /\ forall a U C, (s < n)%nat -> (a < j)%nat -> 0 <= C -> (forall s, (s < n)%nat -> U s <= C) -> ev U (out s a) <= B + g * C).
      { induction j as [|j IH]; intros Hj; [exists 0; split; [lra|intros; lia]|]. destruct (IH ltac:(lia)) as (B1 & P1 & H1), (ev_bound (out s j)) as (B2 & P2 & H2). exists (B1 + B2). split; [lra|]. intros a U C Hs Ha HC HU.
        destruct (Nat.eq_dec a j) as [->|N]; [|specialize (H1 a U C Hs ltac:(lia) HC HU); lra]. destruct (wf s j Hs ltac:(lia)) as [P G]. specialize (H2 U C G HC HU). rewrite P in H2. lra. }
      destruct (X (S m) (le_n _)) as (B & P & H). exists B. split; [exact P|]. intros a U C Hs Ha. apply H; [exact Hs|lia]. }
    assert (X : forall j, exists B, 0 <= B /\ forall s a U C, (s < j)%nat -> (s < n)%nat -> (a <= m)%nat -> 0 <= C -> (forall s, (s < n)%nat -> U s <= C) -> ev U (out s a) <= B + g * C).
    { induction j as [|j (B1 & P1 & H1)]; [exists 0; split; [lra|intros; lia]|]. destruct (Row j) as (B2 & P2 & H2). exists (B1 + B2). split; [lra|]. intros s a U C Hj Hs Ha HC HU.
      destruct (Nat.eq_dec s j) as [->|N]; [specialize (H2 a U C Hs Ha HC HU); lra|specialize (H1 s a U C ltac:(lia) Hs Ha HC HU); lra]. }
    destruct (X n) as (B & P & H). exists B. split; [exact P|]. intros s a U C Hs. now apply H. }
  destruct Rb as (B & HB & HR). destruct (bound_finite (VV 0) n) as (B0 & HB0 & H0). set (C := B0 + B / (1 - g)). assert (HBg : 0 <= B / (1 - g)) by (apply Rmult_le_pos; [lra|left; apply Rinv_0_lt_compat; lra]).
  exists C. induction k as [|k IH]; intros s Hs.
  - specialize (H0 s Hs). cbn beta in H0. pose proof (Rle_abs (V 0 s)). unfold C. lra.
  - apply vmax_le. intros a Ha. eapply Rle_trans; [now apply upper|]. eapply Rle_trans; [apply (HR s a (VV k) C Hs Ha); [unfold C; lra|exact IH]|].
    assert (B = (1 - g) * (B / (1 - g))) by (field; lra). unfold C. assert ((1 - g) * B0 >= 0) by (apply Rle_ge, Rmult_le_pos; lra). rewrite H at 1. ring_simplify. lra.
Qed.
Lemma values_converge : exists L, forall s, (s < n)%nat -> Un_cv (fun k => V k s) (L s).
Proof.
  destruct falls as (c & Hc & Hf), bounded as (B & HB).
  assert (X : forall j, (j <= n)%nat -> exists L, forall s, (s < j)%nat -> Un_cv (fun k => V k s) (L s)).
  { induction j as [|j IH]; intros Hj; [exists (fun _ => 0); intros s H; lia|]. destruct (IH ltac:(lia)) as (L & HL). destruct (almost_growing_cv (fun k => V k j) c g B Hg) as (l & Hl); [intros k; apply Hf; lia|intros k; apply HB; lia|exact Hc|].
    exists (fun s => if Nat.eq_dec s j then l else L s). intros s Hs. destruct (Nat.eq_dec s j) as [->|N]; [exact Hl|]. apply HL. lia. }
  exact (X n (le_n _)).
Qed.
Lemma limit_bellman L : (forall s, (s < n)%nat -> Un_cv (fun k => V k s) (L s)) -> bellman L.
Proof.
  intros HL s Hs. assert (Hb : forall a, (a <= m)%nat -> Un_cv (fun k => ev (VV k) (out s a)) (ev L (out s a))) by (intros a Ha; apply (ev_cv (fun k => VV k)); [exact (proj2 (wf s a Hs Ha))|exact HL]).
  apply Rle_antisym.
  - apply (cv_le (fun k => V (S k) s) (fun k => vmax (fun a => ev (VV k) (out s a)) m)); [apply (cv_shift (fun k => V k s)); now apply HL|apply (cv_vmax (fun k a => ev (VV k) (out s a)) (fun a => ev L (out s a))); exact Hb|].
    intros k. apply vmax_le. intros a Ha. eapply Rle_trans; [now apply upper|]. exact (vmax_ge (fun a => ev (VV k) (out s a)) m a Ha).
  - apply vmax_le. intros a Ha.
    (* y (k+1) = al y k + (E_k - al V_k) stays below Qk and converges *)
    set (ee := fun k => ev (VV k) (out s a) - al * V k s). set (y := fix y k := match k with O => Qk 0 s a | S k => al * y k + ee k end).
    assert (Hee : Un_cv ee (ev L (out s a) - al * L s)) by (apply CV_minus; [now apply Hb|apply CV_mult; [apply cv_const|now apply HL]]).
    assert (Hy : Un_cv y ((ev L (out s a) - al * L s) / (1 - al))) by (apply (linear_cv y ee); [exact Hal|intros k; reflexivity|exact Hee]).
    assert (Hle : forall k, y k <= Qk k s a).
    { induction k as [|k IH]; [cbn; lra|]. change (y (S k)) with (al * y k + ee k). pose proof (lower k s a Hs Ha) as Lo. unfold ee. assert (al * y k <= al * Qk k s a) by (apply Rmult_le_compat_l; lra). lra. }
    assert (X : (ev L (out s a) - al * L s) / (1 - al) <= L s).
    { apply (cv_le y (fun k => V k s)); [exact Hy|now apply HL|]. intros k. eapply Rle_trans; [apply Hle|]. now apply vmax_ge. }
    assert (E : ev L (out s a) - al * L s = (1 - al) * ((ev L (out s a) - al * L s) / (1 - al))) by (field; lra). assert ((1 - al) * ((ev L (out s a) - al * L s) / (1 - al)) <= (1 - al) * L s) by (apply Rmult_le_compat_l; lra). lra.
Qed.
(** Actions that are not optimal are, in the end, below those that are. *)
Lemma not_greedy L : (forall s, (s < n)%nat -> Un_cv (fun k => V k s) (L s)) -> exists N, forall k s a, (N <= k)%nat -> (s < n)%nat -> (a <= m)%nat -> Qk k s a = V k s -> ev L (out s a) = L s.
Proof.
  intros HL. pose proof (limit_bellman L HL) as HB.
  assert (One : forall s a, (s < n)%nat -> (a <= m)%nat -> exists N, forall k, (N <= k)%nat -> Qk k s a = V k s -> ev L (out s a) = L s).
  { intros s a Hs Ha. assert (Le : ev L (out s a) <= L s) by (rewrite (HB s Hs); exact (vmax_ge (fun a => ev L (out s a)) m a Ha)). destruct (Req_dec (ev L (out s a)) (L s)) as [E|NE]; [exists O; auto|].
    set (d := (L s - ev L (out s a)) / 2). assert (Hd : 0 < d) by (unfold d; lra).
    destruct (HL s Hs d Hd) as [N1 H1]. destruct (ev_cv (fun k => VV k) L (out s a) (proj2 (wf s a Hs Ha)) HL d Hd) as [N2 H2]. exists (S (N1 + N2)). intros [|k] Hk Eq; [lia|]. exfalso.
    pose proof (upper k s a Hs Ha) as U. specialize (H1 (S k) ltac:(lia)). specialize (H2 k ltac:(lia)). unfold R_dist in *. apply Rabs_def2 in H1, H2. unfold d in *. rewrite Eq in U. lra. }
  assert (Fin : forall (Pp : nat -> nat -> Prop) b, (forall i, (i < b)%nat -> exists N, forall k, (N <= k)%nat -> Pp i k) -> exists N, forall i k, (i < b)%nat -> (N <= k)%nat -> Pp i k).
  { intros Pp b. induction b as [|b IH]; intros H; [exists O; intros; lia|]. destruct IH as [N1 H1]; [intros i Hi; apply H; lia|]. destruct (H b ltac:(lia)) as [N2 H2]. exists (N1 + N2)%nat. intros i k Hi Hk. destruct (Nat.eq_dec i b) as [->|Nb]; [apply H2; lia|apply H1; lia]. }
  destruct (Fin (fun s k => forall a, (a <= m)%nat -> Qk k s a = V k s -> ev L (out s a) = L s) n) as [N HN].
  - intros s Hs. destruct (Fin (fun a k => Qk k s a = V k s -> ev L (out s a) = L s) (S m)) as [N HN]; [intros a Ha; apply One; [exact Hs|lia]|]. exists N. intros k Hk a Ha. apply HN; [lia|exact Hk].
  - exists N. intros k s a Hk Hs Ha. apply HN; assumption.
Qed.
(** Every action value is, in the end, between its optimal value and that value less what the gap is enlarged by. *)
Lemma between L : (forall s, (s < n)%nat -> Un_cv (fun k => V k s) (L s)) -> forall s a, (s < n)%nat -> (a <= m)%nat -> forall eps, 0 < eps -> exists N, forall k, (N <= k)%nat ->
  L s - (L s - ev L (out s a)) / (1 - al) - eps <= Qk k s a <= ev L (out s a) + eps.
Proof.
  intros HL s a Hs Ha eps He. pose proof (ev_cv (fun k => VV k) L (out s a) (proj2 (wf s a Hs Ha)) HL) as Hb.
  set (ee := fun k => ev (VV k) (out s a) - al * V k s). set (y := fix y k := match k with O => Qk 0 s a | S k => al * y k + ee k end).
  assert (Hee : Un_cv ee (ev L (out s a) - al * L s)) by (apply CV_minus; [exact Hb|apply CV_mult; [apply cv_const|now apply HL]]).
  assert (Hy : Un_cv y ((ev L (out s a) - al * L s) / (1 - al))) by (apply (linear_cv y ee); [exact Hal|intros k; reflexivity|exact Hee]).
  assert (Hle : forall k, y k <= Qk k s a).
  { induction k as [|k IH]; [cbn; lra|]. change (y (S k)) with (al * y k + ee k). pose proof (lower k s a Hs Ha) as Lo. unfold ee. assert (al * y k <= al * Qk k s a) by (apply Rmult_le_compat_l; lra). lra. }
  destruct (Hy eps He) as [N1 H1]. destruct (Hb eps He) as [N2 H2]. exists (S (N1 + N2)). intros [|k] Hk; [lia|].
  specialize (H1 (S k) ltac:(lia)). specialize (H2 k ltac:(lia)). unfold R_dist in *. apply Rabs_def2 in H1, H2. specialize (Hle (S k)). pose proof (upper k s a Hs Ha) as U.
  replace (L s - (L s - ev L (out s a)) / (1 - al)) with ((ev L (out s a) - al * L s) / (1 - al)) by (field; lra). cbn beta in *. split; lra.
Qed.
(** With equality below: the limit of the action values. *)
Lemma al_cv L : (forall k s a, (s < n)%nat -> (a <= m)%nat -> Qk (S k) s a = ev (VV k) (out s a) - al * (V k s - Qk k s a)) -> (forall s, (s < n)%nat -> Un_cv (fun k => V k s) (L s)) ->
  forall s a, (s < n)%nat -> (a <= m)%nat -> Un_cv (fun k => Qk k s a) (L s - (L s - ev L (out s a)) / (1 - al)).
Proof.
  intros Eq HL s a Hs Ha. replace (L s - (L s - ev L (out s a)) / (1 - al)) with ((ev L (out s a) - al * L s) / (1 - al)) by (field; lra).
  apply (linear_cv (fun k => Qk k s a) (fun k => ev (VV k) (out s a) - al * V k s)); [exact Hal|intros k; rewrite Eq by assumption; ring|].
  apply CV_minus; [apply (ev_cv (fun k => VV k)); [exact (proj2 (wf s a Hs Ha))|exact HL]|apply CV_mult; [apply cv_const|now apply HL]].
Qed.
End Problem.
