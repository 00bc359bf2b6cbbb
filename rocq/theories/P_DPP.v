(** Proofs for C135: dynamic policy programming on finite decision problems. *)
From Coq Require Import Setoid Reals Lra Lia List PeanoNat.
From Verif Require Import M_Boltzmann M_DPP P_ValueIteration.
Import ListNotations.
Open Scope R_scope.

(** ** The iteration over the reals *)
Section DPP.
Context (n m : nat) (g : R) (Hg : 0 <= g < 1) (out : nat -> nat -> list (R * (R * nat * bool))).
Context (wf : forall s a, (s < n)%nat -> (a <= m)%nat -> psum (out s a) = 1 /\ good n (out s a)).
Fixpoint rw (l : list (R * (R * nat * bool))) : R := match l with [] => 0 | (p, (r, _, _)) :: l => p * r + rw l end.
Fixpoint lin (U : nat -> R) (l : list (R * (R * nat * bool))) : R := match l with [] => 0 | (p, (_, s', t)) :: l => p * (if t : bool then 0 else g * U s') + lin U l end.
Lemma ev_split U l : ev g U l = rw l + lin U l.
Proof. induction l as [|[p [[r s'] t]] l IH]; cbn [ev rw lin]; [lra|rewrite IH; lra]. Qed.
Lemma lin_scale c U l : lin (fun s => c * U s) l = c * lin U l.
Proof. induction l as [|[p [[r s'] t]] l IH]; cbn [lin]; [lra|rewrite IH; destruct t; ring]. Qed.
Lemma lin_add U U' l : lin (fun s => U s + U' s) l = lin U l + lin U' l.
Proof. induction l as [|[p [[r s'] t]] l IH]; cbn [lin]; [lra|rewrite IH; destruct t; ring]. Qed.
Lemma lin_near U U' d s a : (s < n)%nat -> (a <= m)%nat -> 0 <= d -> (forall s, (s < n)%nat -> Rabs (U s - U' s) <= d) -> Rabs (lin U (out s a) - lin U' (out s a)) <= g * d.
Proof.
  intros Hs Ha Hd H. destruct (wf s a Hs Ha) as [P G].
  pose proof (ev_mono n g Hg (out s a) U U' d G Hd ltac:(intros s' Hs'; specialize (H s' Hs'); pose proof (Rle_abs (U s' - U' s')); lra)) as X.
  pose proof (ev_mono n g Hg (out s a) U' U d G Hd ltac:(intros s' Hs'; specialize (H s' Hs'); pose proof (Rle_abs (- (U s' - U' s'))) as Y; rewrite Rabs_Ropp in Y; lra)) as X'.
  rewrite !ev_split, P in *. apply Rabs_le. lra.
Qed.
(** There is a solution of the optimality equation. *)
Fixpoint vi (k : nat) (s a : nat) : R := match k with O => 0 | S k => ev g (fun s => vmax (vi k s) m) (out s a) end.
Lemma bellman_exists : exists V, bellman n m g out V.
Proof.
  destruct (values_converge n m g Hg out wf 0 vi) as (L & HL); [intros; cbn [vi]; lra|intros; cbn [vi]; lra|].
  exists L. apply (limit_bellman n m g out wf 0 ltac:(lra) vi); [intros; cbn [vi]; lra|intros; cbn [vi]; lra|exact HL].
Qed.

Context (c : R) (Hc : 0 <= c) (Qk : nat -> nat -> nat -> R) (Lk : nat -> nat -> R).
Context (near : forall k s, (s < n)%nat -> Rabs (Lk k s - vmax (Qk k s) m) <= c).
Context (next : forall k s a, (s < n)%nat -> (a <= m)%nat -> Qk (S k) s a = Qk k s a + ev g (Lk k) (out s a) - Lk k s).
Fixpoint Sk (k : nat) (s : nat) : R := match k with O => 0 | S k => Sk k s + Lk k s end.
Lemma lin_Sk k l : lin (Sk (S k)) l = lin (Sk k) l + lin (Lk k) l.
Proof. exact (lin_add (Sk k) (Lk k) l). Qed.
Lemma lin_zero l : lin (Sk 0) l = 0.
Proof. induction l as [|[p [[r s'] t]] l IH]; cbn [lin Sk]; [lra|]. change (Sk 0) with (fun _ : nat => 0) in IH. cbn [Sk] in IH. rewrite IH. destruct t; ring. Qed.
Lemma closed k s a : (s < n)%nat -> (a <= m)%nat -> Qk k s a + Sk k s = Qk 0 s a + INR k * rw (out s a) + lin (Sk k) (out s a).
Proof.
  intros Hs Ha. induction k as [|k IH]; [rewrite lin_zero; cbn [Sk INR]; lra|]. rewrite next by assumption. rewrite lin_Sk, S_INR, ev_split. cbn [Sk]. lra.
Qed.
Context (V : nat -> R) (HV : bellman n m g out V).
Lemma vmax_near f f' d : (forall a, (a <= m)%nat -> Rabs (f a - f' a) <= d) -> Rabs (vmax f m - vmax f' m) <= d.
Proof.
  intros H. destruct (vmax_at f m) as (a & Ha & Ea), (vmax_at f' m) as (b & Hb & Eb). pose proof (vmax_ge f m b Hb). pose proof (vmax_ge f' m a Ha).
  pose proof (H a Ha) as A. pose proof (H b Hb) as B. apply Rabs_le. pose proof (Rle_abs (f a - f' a)). pose proof (Rle_abs (- (f b - f' b))) as X. rewrite Rabs_Ropp in X. lra.
Qed.
Lemma vmax_shift f d : vmax (fun a => f a + d) m = vmax f m + d.
Proof. apply Rle_antisym; [apply vmax_le; intros a Ha; pose proof (vmax_ge f m a Ha); lra|]. destruct (vmax_at f m) as (a & Ha & <-). exact (vmax_ge (fun a => f a + d) m a Ha). Qed.
Lemma vmax_times f k : 0 <= k -> vmax (fun a => k * f a) m = k * vmax f m.
Proof. intros Hk. apply Rle_antisym; [apply vmax_le; intros a Ha; apply Rmult_le_compat_l; [exact Hk|now apply vmax_ge]|]. destruct (vmax_at f m) as (a & Ha & <-). exact (vmax_ge (fun a => k * f a) m a Ha). Qed.
Lemma initial_bound : exists B, 0 <= B /\ forall s a, (s < n)%nat -> (a <= m)%nat -> Rabs (Qk 0 s a) <= B.
Proof.
  assert (X : forall j, exists B, 0 <= B /\ forall s a, (s < j)%nat -> (a <= m)%nat -> Rabs (Qk 0 s a) <= B).
  { induction j as [|j (B1 & P1 & H1)]; [exists 0; split; [lra|intros; lia]|]. destruct (bound_finite (Qk 0 j) (S m)) as (B2 & P2 & H2). exists (B1 + B2). split; [lra|]. intros s a Hs Ha.
    destruct (Nat.eq_dec s j) as [->|N]; [specialize (H2 a ltac:(lia)); lra|specialize (H1 s a ltac:(lia) Ha); lra]. }
  exact (X n).
Qed.
Lemma sums : exists B, 0 <= B /\ forall k s, (s < n)%nat -> Rabs (Sk k s - INR k * V s) <= B.
Proof.
  destruct initial_bound as (B0 & P0 & H0), (bound_finite V n) as (M & PM & HM). set (B := (c + B0 + M) / (1 - g)).
  assert (HB : 0 <= B) by (apply Rmult_le_pos; [lra|left; apply Rinv_0_lt_compat; lra]). assert (EB : c + B0 + M + g * B = B) by (unfold B; field; lra). exists B. split; [exact HB|].
  induction k as [|k IH]; intros s Hs; [cbn [Sk INR]; rewrite Rmult_0_l, Rminus_0_r, Rabs_R0; exact HB|].
  assert (Z : forall a, (a <= m)%nat -> Rabs ((Qk k s a + Sk k s) - INR k * ev g V (out s a)) <= B0 + g * B).
  { intros a Ha. rewrite closed by assumption. rewrite ev_split. pose proof (lin_near (Sk k) (fun s => INR k * V s) B s a Hs Ha HB IH) as X. rewrite lin_scale in X. specialize (H0 s a Hs Ha).
    replace (Qk 0 s a + INR k * rw (out s a) + lin (Sk k) (out s a) - INR k * (rw (out s a) + lin V (out s a))) with (Qk 0 s a + (lin (Sk k) (out s a) - INR k * lin V (out s a))) by ring. eapply Rle_trans; [apply Rabs_triang|]. lra. }
  apply vmax_near in Z. rewrite vmax_shift in Z. rewrite vmax_times in Z by apply pos_INR. rewrite <- (HV s Hs) in Z. pose proof (near k s Hs) as N. pose proof (HM s Hs) as HMs. change (fun a => Qk k s a) with (Qk k s) in Z.
  rewrite S_INR. cbn [Sk]. replace (Sk k s + Lk k s - (INR k + 1) * V s) with ((Lk k s - vmax (Qk k s) m) + (vmax (Qk k s) m + Sk k s - INR k * V s) + (- V s)) by ring.
  eapply Rle_trans; [apply Rabs_triang|]. rewrite Rabs_Ropp. eapply Rle_trans; [apply Rplus_le_compat_r, Rabs_triang|]. lra.
Qed.
Lemma entries : exists C, 0 <= C /\ forall k s a, (s < n)%nat -> (a <= m)%nat -> Rabs (Qk k s a - INR k * (ev g V (out s a) - V s)) <= C.
Proof.
  destruct sums as (B & HB & H), initial_bound as (B0 & P0 & H0). exists (B0 + g * B + B). split; [assert (0 <= g * B) by (apply Rmult_le_pos; lra); lra|]. intros k s a Hs Ha.
  pose proof (closed k s a Hs Ha) as E. pose proof (H k s Hs) as X. pose proof (lin_near (Sk k) (fun s => INR k * V s) B s a Hs Ha HB (H k)) as Y. rewrite lin_scale in Y. specialize (H0 s a Hs Ha). rewrite ev_split.
  replace (Qk k s a - INR k * (rw (out s a) + lin V (out s a) - V s)) with (Qk 0 s a + (lin (Sk k) (out s a) - INR k * lin V (out s a)) + - (Sk k s - INR k * V s)) by lra.
  eapply Rle_trans; [apply Rabs_triang|]. rewrite Rabs_Ropp. eapply Rle_trans; [apply Rplus_le_compat_r, Rabs_triang|]. lra.
Qed.
Lemma dpp_greedy : exists N, forall k s a, (N <= k)%nat -> (s < n)%nat -> (a <= m)%nat -> Qk k s a = vmax (Qk k s) m -> ev g V (out s a) = V s.
Proof.
  destruct entries as (C & HC & H).
  assert (One : forall s a, (s < n)%nat -> (a <= m)%nat -> exists N, forall k, (N <= k)%nat -> Qk k s a = vmax (Qk k s) m -> ev g V (out s a) = V s).
  { intros s a Hs Ha. assert (Le : ev g V (out s a) <= V s) by (rewrite (HV s Hs); exact (vmax_ge (fun a => ev g V (out s a)) m a Ha)). destruct (Req_dec (ev g V (out s a)) (V s)) as [E|NE]; [exists O; auto|].
    set (d := V s - ev g V (out s a)). assert (Hd : 0 < d) by (unfold d; lra). exists (Z.to_nat (up (2 * C / d)) + 1)%nat. intros k Hk Eq. exfalso.
    destruct (vmax_at (fun a => ev g V (out s a)) m) as (b & Hb & Eb). rewrite <- (HV s Hs) in Eb. pose proof (H k s a Hs Ha) as A. pose proof (H k s b Hs Hb) as B. rewrite Eb in B. pose proof (vmax_ge (Qk k s) m b Hb) as G.
    pose proof (Rle_abs (Qk k s a - INR k * (ev g V (out s a) - V s))). pose proof (Rle_abs (- (Qk k s b - INR k * (V s - V s)))) as X. rewrite Rabs_Ropp in X.
    assert (K : 2 * C / d < INR k).
    { destruct (archimed (2 * C / d)) as [Hu _]. assert (0 <= 2 * C / d) by (apply Rmult_le_pos; [lra|left; now apply Rinv_0_lt_compat]). rewrite INR_IZR_INZ. eapply Rlt_trans; [exact Hu|]. apply IZR_lt. lia. }
    assert (2 * C < INR k * d) by (apply (Rmult_lt_compat_r d) in K; [|exact Hd]; replace (2 * C / d * d) with (2 * C) in K by (field; lra); exact K).
    unfold d in *. nra. }
  assert (Fin : forall (Pp : nat -> nat -> Prop) b, (forall i, (i < b)%nat -> exists N, forall k, (N <= k)%nat -> Pp i k) -> exists N, forall i k, (i < b)%nat -> (N <= k)%nat -> Pp i k).
  { intros Pp b. induction b as [|b IH]; intros HP; [exists O; intros; lia|]. destruct IH as [N1 H1]; [intros i Hi; apply HP; lia|]. destruct (HP b ltac:(lia)) as [N2 H2]. exists (N1 + N2)%nat. intros i k Hi Hk. destruct (Nat.eq_dec i b) as [->|Nb]; [apply H2; lia|apply H1; lia]. }
  destruct (Fin (fun s k => forall a, (a <= m)%nat -> Qk k s a = vmax (Qk k s) m -> ev g V (out s a) = V s) n) as [N HN].
  - intros s Hs. destruct (Fin (fun a k => Qk k s a = vmax (Qk k s) m -> ev g V (out s a) = V s) (S m)) as [N HN]; [intros a Ha; apply One; [exact Hs|lia]|]. exists N. intros k Hk a Ha. apply HN; [lia|exact Hk].
  - exists N. intros k s a Hk Hs Ha. apply HN; assumption.
Qed.
End DPP.

(** ** The operators *)
Lemma sumR_le l l' : Forall2 Rle l l' -> sumR l <= sumR l'.
Proof. induction 1 as [|x y l l' H F IH]; unfold sumR in *; cbn; lra. Qed.
Lemma sumR_const {X} (l : list X) c : sumR (map (fun _ => c) l) = INR (length l) * c.
Proof. induction l as [|x l IH]; [cbn; lra|]. cbn [map sumR fold_right length]. fold (sumR (map (fun _ => c) l)). rewrite IH, S_INR. lra. Qed.
Lemma F2_map {X} (P : R -> R -> Prop) (f h : X -> R) l : (forall x, In x l -> P (f x) (h x)) -> Forall2 P (map f l) (map h l).
Proof. induction l as [|x l IH]; intros H; cbn [map]; constructor; [apply H; now left|apply IH; intros y Hy; apply H; now right]. Qed.
Lemma exp_sum_pos l : l <> [] -> 0 < sumR (map exp l).
Proof.
  intros H. destruct l as [|x l]; [congruence|]. cbn. pose proof (exp_pos x). assert (0 <= fold_right Rplus 0 (map exp l)); [|lra]. clear. induction l as [|y l IH]; cbn; [lra|]. pose proof (exp_pos y). lra.
Qed.
Lemma sumR_ge_one l x : In x l -> exp x <= sumR (map exp l).
Proof.
  induction l as [|y l IH]; [contradiction|]. intros [->|H]; cbn [map sumR fold_right]; fold (sumR (map exp l)).
  - assert (0 <= sumR (map exp l)); [|lra]. clear. induction l as [|y l IH]; cbn; [lra|]. pose proof (exp_pos y). unfold sumR in IH. lra.
  - pose proof (exp_pos y). specialize (IH H). lra.
Qed.
Lemma map_eta_in eta (row : list R) v : In v row -> In (eta * v) (map (fun q => eta * q) row).
Proof. apply (in_map (fun q => eta * q)). Qed.
Lemma logsumexp_near eta row v : 0 < eta -> In v row -> (forall x, In x row -> x <= v) -> v <= logsumexp_over eta row <= v + ln (INR (length row)) / eta.
Proof.
  intros He Hv Hm. assert (Hne : row <> []) by (intros ->; contradiction). assert (Hlen : 0 < INR (length row)) by (apply lt_0_INR; destruct row; [congruence|cbn; lia]). unfold logsumexp_over.
  assert (Pos : 0 < sumR (map exp (map (fun q => eta * q) row))) by (apply exp_sum_pos; destruct row; [congruence|discriminate]).
  assert (Lo : exp (eta * v) <= sumR (map exp (map (fun q => eta * q) row))) by (apply sumR_ge_one, map_eta_in, Hv).
  assert (Hi : sumR (map exp (map (fun q => eta * q) row)) <= INR (length row) * exp (eta * v)).
  { rewrite <- (sumR_const row). apply sumR_le. rewrite map_map. apply F2_map. intros x Hx. specialize (Hm x Hx). assert (E : eta * x <= eta * v) by (apply Rmult_le_compat_l; lra). destruct E as [E|E]; [left; now apply exp_increasing|right; now rewrite E]. }
  split.
  - apply (Rmult_le_reg_r eta); [exact He|]. replace (ln (sumR (map exp (map (fun q => eta * q) row))) / eta * eta) with (ln (sumR (map exp (map (fun q => eta * q) row)))) by (field; lra).
    rewrite <- (ln_exp (v * eta)). rewrite (Rmult_comm v). destruct Lo as [Lo|Lo]; [left; apply ln_increasing; [apply exp_pos|exact Lo]|right; now rewrite Lo].
  - apply (Rmult_le_reg_r eta); [exact He|]. replace (ln (sumR (map exp (map (fun q => eta * q) row))) / eta * eta) with (ln (sumR (map exp (map (fun q => eta * q) row)))) by (field; lra).
    replace ((v + ln (INR (length row)) / eta) * eta) with (ln (INR (length row)) + eta * v) by (field; lra). rewrite <- (ln_exp (eta * v)), <- ln_mult by (assumption || apply exp_pos).
    destruct Hi as [Hi|Hi]; [left; now apply ln_increasing|right; now rewrite Hi].
Qed.
(** x exp (-x) <= 1 *)
Lemma x_exp x : 0 <= x -> x * exp (- x) <= 1.
Proof. intros H. pose proof (exp_ineq1_le x) as E. rewrite exp_Ropp. apply (Rmult_le_reg_r (exp x)); [apply exp_pos|]. rewrite Rmult_assoc, Rinv_l, Rmult_1_r, Rmult_1_l by (apply Rgt_not_eq, exp_pos). lra. Qed.
Lemma expectation_eq beta row : compute_expectation beta row = sumR (map (fun q => exp (beta * q) / sumR (map exp (map (fun q => beta * q) row)) * q) row).
Proof.
  unfold compute_expectation, softmax. generalize (sumR (map exp (map (fun q => beta * q) row))) as S. intros S. rewrite !map_map. f_equal. induction row as [|x row IH]; cbn [map combine]; [reflexivity|]. now rewrite IH.
Qed.
Lemma sumR_scale {X} (f : X -> R) d l : sumR (map (fun x => f x / d) l) = sumR (map f l) / d.
Proof. induction l as [|x l IH]; [cbn; unfold Rdiv; ring|]. cbn [map sumR fold_right]. fold (sumR (map (fun x => f x / d) l)). fold (sumR (map f l)). rewrite IH. unfold Rdiv. ring. Qed.
Lemma sumR_minus {X} (f h : X -> R) l : sumR (map f l) - sumR (map h l) = sumR (map (fun x => f x - h x) l).
Proof. induction l as [|x l IH]; [cbn; ring|]. cbn [map sumR fold_right]. fold (sumR (map f l)). fold (sumR (map h l)). fold (sumR (map (fun x => f x - h x) l)). rewrite <- IH. ring. Qed.
Lemma expectation_near eta row v : 0 < eta -> In v row -> (forall x, In x row -> x <= v) -> v - INR (length row) / eta <= compute_expectation eta row <= v.
Proof.
  intros He Hv Hm. rewrite expectation_eq. set (S := sumR (map exp (map (fun q => eta * q) row))).
  assert (Hne : row <> []) by (intros ->; contradiction). assert (Pos : 0 < S) by (apply exp_sum_pos; destruct row; [congruence|discriminate]).
  assert (Lo : exp (eta * v) <= S) by (apply sumR_ge_one, map_eta_in, Hv).
  assert (One : sumR (map (fun q => exp (eta * q) / S * v) row) = v).
  { assert (E : map (fun q => exp (eta * q) / S * v) row = map (fun q => exp (eta * q) * v / S) row) by (apply map_ext; intros q; unfold Rdiv; ring). rewrite E, sumR_scale.
    assert (E2 : sumR (map (fun q => exp (eta * q) * v) row) = S * v). { unfold S. rewrite map_map. clear. induction row as [|x row IH]; [cbn; ring|]. cbn [map sumR fold_right]. fold (sumR (map (fun q => exp (eta * q) * v) row)). fold (sumR (map (fun x => exp (eta * x)) row)). rewrite IH. ring. }
    rewrite E2. field. lra. }
  assert (W : forall q, 0 < exp (eta * q) / S) by (intros q; apply Rdiv_lt_0_compat; [apply exp_pos|exact Pos]).
  split.
  - assert (D : v - sumR (map (fun q => exp (eta * q) / S * q) row) <= INR (length row) * / eta); [|unfold Rdiv; lra].
    rewrite <- One at 1. rewrite sumR_minus, <- sumR_const. apply sumR_le, F2_map. intros x Hx. specialize (Hm x Hx). replace (exp (eta * x) / S * v - exp (eta * x) / S * x) with (exp (eta * x) / S * (v - x)) by ring.
    apply Rle_trans with (exp (eta * x) / exp (eta * v) * (v - x)).
    + apply Rmult_le_compat_r; [lra|]. unfold Rdiv. apply Rmult_le_compat_l; [left; apply exp_pos|]. apply Rinv_le_contravar; [apply exp_pos|exact Lo].
    + unfold Rdiv. rewrite <- exp_Ropp, <- exp_plus. replace (eta * x + - (eta * v)) with (- (eta * (v - x))) by ring. assert (X : 0 <= eta * (v - x)) by (apply Rmult_le_pos; lra). pose proof (x_exp _ X) as Y.
      apply (Rmult_le_reg_l eta); [exact He|]. rewrite Rinv_r by lra. lra.
  - rewrite <- One at 1. apply sumR_le, F2_map. intros x Hx. apply Rmult_le_compat_l; [left; apply W|now apply Hm].
Qed.
