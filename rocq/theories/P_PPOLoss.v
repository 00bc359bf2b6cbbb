From Coq Require Import Reals Lra Lia Psatz.
From Verif Require Import Base M_PPOLoss S_PPOLoss.
Open Scope R_scope.

Lemma policy_term_surrogate c lp lpo adv : 0 <= clip_eps c -> policy_term c lp lpo adv = surrogate (clip_eps c) (exp (lp - lpo)) adv.
Proof.
  intros He. unfold policy_term, surrogate, clamp. set (r := exp _). set (e := clip_eps c) in *. clearbody r e.
  destruct (Rle_dec 0 adv) as [Ha|Ha]; unfold Rmin, Rmax; repeat destruct (Rle_dec _ _); nra.
Qed.
Lemma surrogate_le eps r adv : surrogate eps r adv <= r * adv.
Proof. unfold surrogate. destruct (Rle_dec 0 adv); unfold Rmin, Rmax; destruct (Rle_dec _ _); nra. Qed.

Lemma clip_nearest x lo hi : lo <= hi -> nearest lo hi x (elementwise_clip x lo hi).
Proof.
  intros H. unfold elementwise_clip, nearest, Rmin, Rmax, Rabs.
  destruct (Rle_dec x lo) as [H1|H1]; [destruct (Rle_dec lo hi) as [H2|H2]|destruct (Rle_dec x hi) as [H2|H2]];
    (split; [lra|]); intros z Hz; repeat destruct (Rcase_abs _); lra.
Qed.
Lemma nearest_unique lo hi x y z : nearest lo hi x y -> nearest lo hi x z -> lo <= x <= hi \/ x < lo \/ hi < x -> y = z.
Proof.
  intros (A & B) (C & D) H. pose proof (B z C) as E. pose proof (D y A) as F. unfold Rabs in *.
  destruct H as [H|[H|H]].
  - specialize (B x H). specialize (D x H). unfold Rabs in B, D. repeat destruct (Rcase_abs _); lra.
  - repeat destruct (Rcase_abs _); lra.
  - repeat destruct (Rcase_abs _); lra.
Qed.

Lemma total_map {A B} (f : B -> R) (g : A -> B) l : total f (map g l) = total (fun x => f (g x)) l.
Proof. induction l; cbn; [reflexivity|]. rewrite IHl. reflexivity. Qed.
Lemma total_ext {A} (f g : A -> R) l : (forall x, In x l -> f x = g x) -> total f l = total g l.
Proof. induction l; cbn; intros H; [reflexivity|]. rewrite (H a), IHl by (intros; try apply H; auto). reflexivity. Qed.
Lemma total_le {A} (f g : A -> R) l : (forall x, In x l -> f x <= g x) -> total f l <= total g l.
Proof. induction l; cbn; intros H; [lra|]. assert (f a <= g a) by auto. assert (total f l <= total g l) by auto. lra. Qed.
Lemma total_scale {A} c (f : A -> R) l : total (fun x => c * f x) l = c * total f l.
Proof. induction l; cbn; [ring|]. rewrite IHl. ring. Qed.
Lemma total_add {A} (f g : A -> R) l : total (fun x => f x + g x) l = total f l + total g l.
Proof. induction l; cbn; [ring|]. rewrite IHl. ring. Qed.
Lemma total_const {A} c (l : list A) : total (fun _ => c) l = c * INR (length l).
Proof. induction l; [cbn; ring|]. cbn [total length]. rewrite IHl, S_INR. ring. Qed.
Lemma rsum_total l : rsum l = total (fun x => x) l.
Proof. induction l; cbn; [reflexivity|]. rewrite IHl. reflexivity. Qed.
Lemma rmean_average {A} (f : A -> R) l : rmean (map f l) = average f l.
Proof. unfold rmean, average. rewrite rsum_total, total_map, map_length. reflexivity. Qed.
Lemma map3_map {A X Y Z W} (f : X -> Y -> Z -> W) (g : A -> X) (h : A -> Y) (k : A -> Z) l : map3 f (map g l) (map h l) (map k l) = map (fun x => f (g x) (h x) (k x)) l.
Proof. induction l; cbn; [reflexivity|]. rewrite IHl. reflexivity. Qed.
Lemma len_pos {A} (l : list A) : l <> [] -> 0 < INR (length l).
Proof. intros H. apply lt_0_INR. destruct l; [congruence|cbn; lia]. Qed.
Lemma average_le {A} (f g : A -> R) l : (forall x, In x l -> f x <= g x) -> average f l <= average g l.
Proof.
  intros H. unfold average. destruct l as [|a l]; [cbn; lra|]. apply Rmult_le_compat_r; [left; apply Rinv_0_lt_compat, len_pos; discriminate|]. apply total_le, H.
Qed.
Lemma average_ext {A} (f g : A -> R) l : (forall x, In x l -> f x = g x) -> average f l = average g l.
Proof. intros H. unfold average. rewrite (total_ext f g l H). reflexivity. Qed.

Lemma rvar_nonneg l : 0 <= rvar l.
Proof.
  unfold rvar. rewrite rmean_average. destruct l as [|a l]; [unfold average; cbn; lra|]. rewrite <- (Rmult_0_l (/ INR (length (a :: l)))).
  unfold average. apply Rmult_le_compat_r; [left; apply Rinv_0_lt_compat, len_pos; discriminate|].
  apply Rle_trans with (total (fun _ : R => 0) (a :: l)); [rewrite total_const; lra|]. apply total_le. intros x _. apply Rle_0_sqr.
Qed.
Lemma total_nonneg_zero {A} (f : A -> R) l : (forall x, In x l -> 0 <= f x) -> total f l = 0 -> forall x, In x l -> f x = 0.
Proof.
  induction l as [|a l IH]; cbn; intros H E x [].
  - subst. assert (0 <= total f l). { apply Rle_trans with (total (fun _ => 0) l); [rewrite total_const; lra|apply total_le; auto]. } specialize (H x (or_introl eq_refl)). lra.
  - apply IH; auto. assert (0 <= total f l). { apply Rle_trans with (total (fun _ => 0) l); [rewrite total_const; lra|apply total_le; auto]. } specialize (H a (or_introl eq_refl)). lra.
Qed.
(** The variance is zero exactly for constant data. *)
Lemma rvar_zero l : l <> [] -> (rvar l = 0 <-> forall x, In x l -> x = rmean l).
Proof.
  intros Hl. pose proof (len_pos l Hl) as HL. unfold rvar at 1. rewrite rmean_average. unfold average. split.
  - intros E x Hx. assert (T : total (fun x => (x - rmean l) * (x - rmean l)) l = 0).
    { apply Rmult_eq_reg_r with (/ INR (length l)); [rewrite Rmult_0_l; exact E|]. apply Rinv_neq_0_compat. lra. }
    pose proof (total_nonneg_zero _ l (fun x _ => Rle_0_sqr (x - rmean l)) T x Hx) as Z. apply Rsqr_0_uniq in Z. lra.
  - intros H. rewrite (total_ext _ (fun _ => 0)), total_const; [unfold Rdiv; ring|]. intros x Hx. rewrite <- (H x Hx). ring.
Qed.
Lemma rmean_const l c : l <> [] -> (forall x, In x l -> x = c) -> rmean l = c.
Proof. intros Hl H. unfold rmean. rewrite rsum_total, (total_ext _ (fun _ => c)), total_const by exact H. pose proof (len_pos l Hl). field. lra. Qed.
