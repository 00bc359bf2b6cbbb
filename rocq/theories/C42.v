(** C42: ACER's trust-region adjustment of the gradient. *)
From Coq Require Import QArith Qminmax Qfield Lqa.
From Verif Require Import Base P_Base Vec M_AcerKL.
Open Scope Q_scope.

(** The gradients are seen as vectors: all parameters of the distribution one after the other. *)
Definition same_sizes (a b : list vec) : Prop := map (@length Q) a = map (@length Q) b.
Definition dist2 (a b : vec) : Q := vdot (vsub a b) (vsub a b).

Lemma fold_dots l s : fold_left (fun s (p : vec * vec) => s + vdot (fst p) (snd p)) l s == s + fold_right (fun p s => vdot (fst p) (snd p) + s) 0 l.
Proof. revert s. induction l as [|p l IH]; intros s; cbn [fold_left fold_right]; [ring|]. rewrite IH. ring. Qed.
Lemma dots_concat a b : same_sizes a b -> dots a b == vdot (concat a) (concat b).
Proof.
  intros H. unfold dots. rewrite fold_dots. revert b H. induction a as [|x a IH]; intros [|y b] H; try discriminate H; [reflexivity|]. injection H as Hx H.
  cbn [combine fold_right fst snd concat]. specialize (IH b H). rewrite vdot_app by exact Hx. rewrite <- IH. ring.
Qed.
Lemma concat_len (a b : list vec) : same_sizes a b -> length (concat a) = length (concat b).
Proof. revert b. induction a as [|x a IH]; intros [|y b] H; try discriminate H; [reflexivity|]. injection H as Hx H. cbn [concat]. rewrite !app_length, Hx, (IH b H). reflexivity. Qed.
Lemma vsub_app a b c d : length a = length b -> vsub (a ++ c) (b ++ d) = vsub a b ++ vsub c d.
Proof. revert b. induction a as [|x a IH]; intros [|y b] L; cbn in *; try discriminate; [reflexivity|]. f_equal. apply IH. congruence. Qed.
Lemma constrained_concat k g c : same_sizes k g ->
  concat (map (fun p => vsub (snd p) (vscale c (fst p))) (combine k g)) = vsub (concat g) (vscale c (concat k)).
Proof.
  revert g. induction k as [|x k IH]; intros [|y g] H; try discriminate H; [reflexivity|]. injection H as Hx H. cbn [combine map concat fst snd]. rewrite (IH g H).
  unfold vscale at 3. rewrite map_app. fold (vscale c x). fold (vscale c (concat k)). rewrite vsub_app; [reflexivity|]. rewrite (vscale_len c x _ Hx). reflexivity.
Qed.
Lemma constrained_sizes k g delta : same_sizes k g -> same_sizes (constrained k g delta) g.
Proof.
  unfold constrained. generalize (k_factor k g delta). intros c. revert g. induction k as [|x k IH]; intros [|y g] H; try discriminate H; [reflexivity|]. injection H as Hx H.
  cbn [combine map fst snd]. unfold same_sizes in *. cbn [map]. f_equal; [apply vsub_len; [reflexivity|apply vscale_len; exact Hx]|]. apply IH. exact H.
Qed.

(** The adjusted gradient z meets the constraint k.z <= delta if k is not zero; it is g itself when k is zero or g meets the constraint already;
    among all vectors meeting the constraint it is the one closest to g, and the only one that close; and the loss returned is linear in the
    parameters of the distribution with gradient z. *)
Theorem C42_projection (k g : list vec) (delta : Q) : same_sizes k g ->
  let z := constrained k g delta in
  same_sizes z g /\
  (~ veq (concat k) (vzero (length (concat k))) -> vdot (concat k) (concat z) <= delta) /\
  (veq (concat k) (vzero (length (concat k))) \/ vdot (concat k) (concat g) <= delta -> veq (concat z) (concat g)) /\
  (forall w, length w = length (concat g) -> vdot (concat k) w <= delta ->
     dist2 (concat z) (concat g) <= dist2 w (concat g) /\ (dist2 w (concat g) <= dist2 (concat z) (concat g) -> veq w (concat z))) /\
  (forall p d, same_sizes p g -> same_sizes d g -> constrained_loss (map (fun q => vadd (fst q) (snd q)) (combine p d)) k g delta - constrained_loss p k g delta == vdot (concat d) (concat z)).
Proof.
  intros HS z. pose proof (constrained_sizes k g delta HS) as HZ. fold z in HZ. split; [exact HZ|].
  assert (EZ : concat z = vsub (concat g) (vscale (k_factor k g delta) (concat k))) by (apply constrained_concat; exact HS).
  pose proof (concat_len _ _ HS) as LK. pose proof (dots_concat k g HS) as Ekg. pose proof (dots_concat k k eq_refl) as Ekk.
  set (K := concat k) in *. set (G := concat g) in *. set (Z := concat z) in *. set (c := k_factor k g delta) in *.
  assert (Ec : (vdot K K == 0 /\ c == 0) \/ (0 < vdot K K /\ vdot K G <= delta /\ c == 0) \/ (0 < vdot K K /\ delta < vdot K G /\ 0 < c /\ c * vdot K K == vdot K G - delta)).
  { subst c. unfold k_factor. destruct (Qle_bool (dots k k) 0) eqn:B; cbn [negb].
    - apply Qle_bool_iff in B. left. pose proof (vdot_self_nonneg K). split; [lra|reflexivity].
    - assert (P : 0 < vdot K K). { rewrite <- Ekk. apply Qnot_le_lt. intros X. apply Qle_bool_iff in X. congruence. } right.
      assert (Eq : (dots k g - delta) / dots k k == (vdot K G - delta) / vdot K K) by (rewrite Ekg, Ekk; reflexivity).
      assert (Eq2 : (vdot K G - delta) / vdot K K * vdot K K == vdot K G - delta) by (field; lra).
      assert (EM : Qmax 0 ((dots k g - delta) / dots k k) == Qmax 0 ((vdot K G - delta) / vdot K K)) by (rewrite Eq; reflexivity). rewrite EM. clear EM Eq.
      generalize dependent ((vdot K G - delta) / vdot K K). intros f Ef. destruct (Q.max_spec 0 f) as [[L E]|[L E]].
      + right. rewrite E. split; [exact P|]. split; [nra|]. split; [exact L|exact Ef].
      + left. rewrite E. split; [exact P|]. split; [nra|reflexivity]. }
  assert (KZ : vdot K Z == vdot K G - c * vdot K K). { rewrite EZ, vdot_sub_r by (symmetry; apply vscale_len; exact LK). rewrite vdot_scale_r. reflexivity. }
  split; [|split; [|split]].
  - intros Hk. rewrite KZ. destruct Ec as [[E0 _]|[(P & L & E0)|(P & L & Pc & E0)]]; [destruct Hk; apply vdot_self_zero; exact E0|rewrite E0; lra|lra].
  - intros H. assert (E0 : c == 0). { destruct Ec as [[_ E0]|[(_ & _ & E0)|(P & L & _)]]; [exact E0|exact E0|]. exfalso. destruct H as [H|H]; [|lra]. assert (X : vdot K K == 0) by (rewrite H at 2; apply vdot_zero_r). lra. }
    rewrite EZ, E0. clear - LK. revert LK. generalize K G. intros K0 G0. revert G0. induction K0 as [|x K0 IH]; intros [|y G0] L; cbn in *; try discriminate; constructor; [ring|apply IH; congruence].
  - intros w Lw Hw. assert (LZ : length Z = length G) by (apply concat_len; exact HZ).
    (* |w-g|^2 = |w-z|^2 + 2 (w-z).(z-g) + |z-g|^2 *)
    assert (D1 : dist2 w G == dist2 w Z + 2 * vdot (vsub w Z) (vsub Z G) + dist2 Z G).
    { unfold dist2. rewrite ?vdot_sub_l, ?vdot_sub_r by congruence. rewrite (vdot_comm G w), (vdot_comm Z w), (vdot_comm G Z). ring. }
    assert (ZG : forall x, vdot x (vsub Z G) == - c * vdot x K).
    { intros x. rewrite vdot_sub_r by exact LZ. rewrite EZ, vdot_sub_r by (symmetry; apply vscale_len; exact LK). rewrite vdot_scale_r. ring. }
    assert (D2 : vdot (vsub w Z) (vsub Z G) == - c * (vdot K w - vdot K Z)). { rewrite ZG, vdot_sub_l by congruence. rewrite (vdot_comm w), (vdot_comm Z). reflexivity. }
    assert (D3 : 0 <= vdot (vsub w Z) (vsub Z G)). { rewrite D2, KZ. destruct Ec as [[_ E0]|[(_ & _ & E0)|(P & L & Pc & E0)]]; [rewrite E0; lra|rewrite E0; lra|]. rewrite E0. nra. }
    pose proof (vdot_self_nonneg (vsub w Z)) as D4. fold (dist2 w Z) in D4. split; [lra|]. intros H. apply vsub_zero; [congruence|]. rewrite <- (vsub_len w Z (length w) eq_refl) by congruence. apply vdot_self_zero. fold (dist2 w Z). lra.
  - intros p d HP HD. assert (A : forall q, same_sizes q g -> constrained_loss q k g delta == vdot (concat q) Z).
    { intros q HQ. unfold constrained_loss. change (dots q z == vdot (concat q) (concat z)). apply dots_concat. unfold same_sizes in *. congruence. }
    assert (AP : concat (map (fun q => vadd (fst q) (snd q)) (combine p d)) = vadd (concat p) (concat d) /\ same_sizes (map (fun q => vadd (fst q) (snd q)) (combine p d)) g).
    { clear - HP HD. revert d g HP HD. induction p as [|x p IH]; intros [|y d] [|u g] HP HD; try discriminate HP; try discriminate HD; [split; reflexivity|]. injection HP as HPx HP. injection HD as HDx HD. destruct (IH d g HP HD) as [I1 I2].
      cbn [combine map concat fst snd]. split; [rewrite I1|unfold same_sizes in *; cbn [map]; f_equal; [apply vadd_len; assumption|exact I2]].
      assert (L : length x = length y) by congruence. revert L. clear. revert y. induction x as [|a x IH]; intros [|b y] L; cbn in *; try discriminate; [reflexivity|]. f_equal. apply IH. congruence. }
    destruct AP as [AP1 AP2]. rewrite (A _ AP2), (A _ HP), AP1, vdot_add_l; [ring|]. apply concat_len. unfold same_sizes in *. congruence.
Qed.

(** Two parameters (a mean of size 2 and a scale of size 1); here g violates the constraint and is moved along k. *)
Example C42_ex : map (map Qred) (constrained [[1; 0]; [1]] [[3; 5]; [1]] 2) = [[2; 5]; [0]] /\ Qred (vdot [1; 0; 1] [2; 5; 0]) = 2 /\
  constrained_loss [[1; 1]; [1]] [[1; 0]; [1]] [[3; 5]; [1]] 2 == 7.
Proof. vm_compute. repeat split. Qed.

Print Assumptions C42_projection.
