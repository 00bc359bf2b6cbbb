(** Vectors of rationals: torch's elementwise operations and dot products on flat tensors of equal length, with their algebra. *)
From Coq Require Import QArith Lqa Setoid Morphisms.
From Verif Require Import Base.
Open Scope Q_scope.

Definition vec := list Q.
Fixpoint vdot (a b : vec) : Q := match a, b with x :: a, y :: b => x * y + vdot a b | _, _ => 0 end.
Fixpoint vadd (a b : vec) : vec := match a, b with x :: a, y :: b => (x + y) :: vadd a b | _, _ => [] end.
Definition vscale (c : Q) (a : vec) : vec := map (fun x => c * x) a.
Fixpoint vsub (a b : vec) : vec := match a, b with x :: a, y :: b => (x - y) :: vsub a b | _, _ => [] end.
Definition vzero (n : nat) : vec := repeat 0 n.
Definition veq (a b : vec) : Prop := Forall2 Qeq a b.

Lemma veq_refl a : veq a a. Proof. induction a; constructor; [reflexivity|assumption]. Qed.
Lemma veq_sym a b : veq a b -> veq b a. Proof. induction 1; constructor; [symmetry|]; assumption. Qed.
Lemma veq_trans a b c : veq a b -> veq b c -> veq a c.
Proof. intros H. revert c. induction H; intros c K; inversion K; subst; constructor; [etransitivity; eassumption|apply IHForall2; assumption]. Qed.
#[export] Instance veq_equiv : Equivalence veq. Proof. split; [exact veq_refl|exact veq_sym|exact veq_trans]. Qed.
Lemma veq_len a b : veq a b -> length a = length b. Proof. induction 1; cbn; congruence. Qed.

#[export] Instance vdot_proper : Proper (veq ==> veq ==> Qeq) vdot.
Proof. intros a a' H. induction H; intros b b' K; destruct K; cbn; try reflexivity. rewrite H, H1, (IHForall2 _ _ K). reflexivity. Qed.
#[export] Instance vadd_proper : Proper (veq ==> veq ==> veq) vadd.
Proof. intros a a' H. induction H; intros b b' K; destruct K; cbn; try reflexivity. constructor; [rewrite H, H1; reflexivity|apply (IHForall2 _ _ K)]. Qed.
#[export] Instance vsub_proper : Proper (veq ==> veq ==> veq) vsub.
Proof. intros a a' H. induction H; intros b b' K; destruct K; cbn; try reflexivity. constructor; [rewrite H, H1; reflexivity|apply (IHForall2 _ _ K)]. Qed.
#[export] Instance vscale_proper : Proper (Qeq ==> veq ==> veq) vscale.
Proof. intros c c' E a a' H. induction H; cbn; constructor; [rewrite E, H; reflexivity|assumption]. Qed.

Lemma vadd_len a b n : length a = n -> length b = n -> length (vadd a b) = n.
Proof. intros <-. revert b. induction a; intros [|y b] L; cbn in *; try discriminate; [reflexivity|]. f_equal. apply IHa. congruence. Qed.
Lemma vsub_len a b n : length a = n -> length b = n -> length (vsub a b) = n.
Proof. intros <-. revert b. induction a; intros [|y b] L; cbn in *; try discriminate; [reflexivity|]. f_equal. apply IHa. congruence. Qed.
Lemma vscale_len c a n : length a = n -> length (vscale c a) = n. Proof. intros <-. apply map_length. Qed.
Lemma vzero_len n : length (vzero n) = n. Proof. apply repeat_length. Qed.

Lemma vdot_comm a b : vdot a b == vdot b a.
Proof. revert b. induction a; intros [|y b]; cbn; try reflexivity. rewrite IHa. ring. Qed.
Lemma vdot_scale_l c a b : vdot (vscale c a) b == c * vdot a b.
Proof. revert b. induction a; intros [|y b]; cbn; try ring. change (map (fun x => c * x) a0) with (vscale c a0). rewrite IHa. ring. Qed.
Lemma vdot_scale_r c a b : vdot a (vscale c b) == c * vdot a b.
Proof. rewrite vdot_comm, vdot_scale_l, vdot_comm. reflexivity. Qed.
Lemma vdot_add_l a b c : length a = length b -> vdot (vadd a b) c == vdot a c + vdot b c.
Proof. revert b c. induction a; intros [|y b] [|z c] L; cbn in *; try discriminate; try ring. rewrite IHa by congruence. ring. Qed.
Lemma vdot_add_r a b c : length b = length c -> vdot a (vadd b c) == vdot a b + vdot a c.
Proof. intros L. rewrite vdot_comm, vdot_add_l by exact L. rewrite (vdot_comm b), (vdot_comm c). reflexivity. Qed.
Lemma vdot_sub_l a b c : length a = length b -> vdot (vsub a b) c == vdot a c - vdot b c.
Proof. revert b c. induction a; intros [|y b] [|z c] L; cbn in *; try discriminate; try ring. rewrite IHa by congruence. ring. Qed.
Lemma vdot_sub_r a b c : length b = length c -> vdot a (vsub b c) == vdot a b - vdot a c.
Proof. intros L. rewrite vdot_comm, vdot_sub_l by exact L. rewrite (vdot_comm b), (vdot_comm c). reflexivity. Qed.
Lemma vdot_zero_r a n : vdot a (vzero n) == 0.
Proof. revert n. induction a; intros [|n]; cbn; try reflexivity. change (repeat 0 n) with (vzero n). rewrite IHa. ring. Qed.
Lemma vdot_app a b c d : length a = length c -> vdot (a ++ b) (c ++ d) == vdot a c + vdot b d.
Proof. revert c. induction a; intros [|y c] L; cbn in *; try discriminate; [ring|]. rewrite IHa by congruence. ring. Qed.
Lemma vdot_self_nonneg a : 0 <= vdot a a.
Proof. induction a as [|x a IH]; cbn; [lra|]. assert (0 <= x * x) by (destruct (Qlt_le_dec x 0); nra). lra. Qed.
Lemma sq_zero x : x * x == 0 -> x == 0.
Proof. intros H. destruct (Qlt_le_dec x 0); [nra|]. destruct (Qlt_le_dec 0 x); [nra|lra]. Qed.
Lemma vdot_self_zero a : vdot a a == 0 -> veq a (vzero (length a)).
Proof.
  induction a as [|x a IH]; cbn; intros H; [constructor|]. pose proof (vdot_self_nonneg a). assert (0 <= x * x) by (destruct (Qlt_le_dec x 0); nra).
  constructor; [apply sq_zero; lra|]. apply IH. lra.
Qed.
Lemma vsub_zero a b : length a = length b -> veq (vsub a b) (vzero (length a)) -> veq a b.
Proof.
  revert b. induction a as [|x a IH]; intros [|y b] L H; cbn in *; try discriminate; [constructor|]. inversion H; subst. constructor; [lra|]. apply IH; [congruence|assumption].
Qed.
Lemma vsub_self a : veq (vsub a a) (vzero (length a)).
Proof. induction a; cbn; constructor; [ring|assumption]. Qed.
