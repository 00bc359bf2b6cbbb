(** C44: quadratic action values. *)
From Coq Require Import QArith Qminmax Lqa Qfield.
From Verif Require Import Base P_Base Vec M_Quadratic S_Quadratic.
Open Scope Q_scope.

Lemma qsum_ext n f g : (forall i, (i < n)%nat -> f i == g i) -> qsum n f == qsum n g.
Proof. induction n as [|n IH]; intros H; cbn [qsum]; [reflexivity|]. rewrite IH by (intros; apply H; lia). rewrite H by lia. reflexivity. Qed.
Lemma qsum_le n f g : (forall i, (i < n)%nat -> f i <= g i) -> qsum n f <= qsum n g.
Proof. induction n as [|n IH]; intros H; cbn [qsum]; [lra|]. assert (qsum n f <= qsum n g) by (apply IH; intros; apply H; lia). assert (f n <= g n) by (apply H; lia). lra. Qed.
Lemma qsum_zero n f : (forall i, (i < n)%nat -> f i == 0) -> qsum n f == 0.
Proof. induction n as [|n IH]; intros H; cbn [qsum]; [reflexivity|]. rewrite IH by (intros; apply H; lia). rewrite H by lia. ring. Qed.
Lemma qsum_plus n f g : qsum n (fun i => f i + g i) == qsum n f + qsum n g.
Proof. induction n as [|n IH]; cbn [qsum]; [ring|]. rewrite IH. ring. Qed.
Lemma qsum_scale n c f : qsum n (fun i => c * f i) == c * qsum n f.
Proof. induction n as [|n IH]; cbn [qsum]; [ring|]. rewrite IH. ring. Qed.
Lemma qsum_swap n m f : qsum n (fun i => qsum m (fun j => f i j)) == qsum m (fun j => qsum n (fun i => f i j)).
Proof. induction n as [|n IH]; cbn [qsum]; [symmetry; apply qsum_zero; reflexivity|]. rewrite IH, <- qsum_plus. reflexivity. Qed.
Lemma qsum_one n i f : (i < n)%nat -> (forall j, (j < n)%nat -> j <> i -> f j == 0) -> qsum n f == f i.
Proof.
  induction n as [|n IH]; intros L H; [lia|]. cbn [qsum]. destruct (Nat.eq_dec i n) as [->|N].
  - rewrite qsum_zero; [ring|]. intros j Hj. apply H; lia.
  - rewrite IH; [|lia|intros; apply H; lia]. rewrite (H n) by lia. ring.
Qed.
Lemma qsum_shift n f : qsum (S n) f == f 0%nat + qsum n (fun i => f (S i)).
Proof. induction n as [|n IH]; [cbn; ring|]. change (qsum (S n) f + f (S n) == f 0%nat + (qsum n (fun i => f (S i)) + f (S n))). rewrite IH. ring. Qed.
Lemma vdot_qsum a b n : length a = n -> length b = n -> vdot a b == qsum n (fun i => nth i a 0 * nth i b 0).
Proof.
  intros <-. revert b. induction a as [|x a IH]; intros [|y b] L; cbn [length] in *; try discriminate; [reflexivity|].
  rewrite qsum_shift. cbn [vdot nth]. rewrite (IH b) by congruence. reflexivity.
Qed.
Lemma nth_col P j i : nth i (map (fun row => nth j row 0) P) 0 == entry P i j.
Proof. unfold entry. revert i. induction P as [|r P IH]; intros [|i]; cbn [map nth]; try reflexivity; [destruct j; reflexivity|destruct j; reflexivity|apply IH]. Qed.

(** The value computed for an action is the quadratic function of the documentation. *)
Lemma quad_model n P x : square n P -> length x = n -> vdot (vecmat x P) x == quad_form n P x.
Proof.
  intros [LP FP] LX. unfold vecmat, quad_form. destruct P as [|r P]; [cbn in LP; subst n; destruct x; [reflexivity|discriminate]|].
  assert (Lr : length r = n) by (apply Forall_inv in FP; exact FP). set (M := r :: P) in *. rewrite Lr.
  rewrite (vdot_qsum _ _ n) by (rewrite ?map_length, ?seq_length; congruence). rewrite qsum_swap. apply qsum_ext. intros j Hj.
  rewrite (nth_indep _ 0 ((fun j => vdot x (map (fun row => nth j row 0) M)) 0%nat)) by (rewrite map_length, seq_length; exact Hj).
  rewrite (map_nth (fun j => vdot x (map (fun row => nth j row 0) M))). rewrite seq_nth by exact Hj. cbn [Nat.add].
  rewrite (vdot_qsum _ _ n) by (rewrite ?map_length; assumption). rewrite Qmult_comm, <- qsum_scale. apply qsum_ext. intros i Hi. rewrite nth_col. ring.
Qed.
Theorem C44_value (q : quadratic) (a : vec) : square (length (mu q)) (mat q) -> length a = length (mu q) -> evaluate_actions q a == value q a.
Proof.
  intros SQ LA. unfold evaluate_actions, value. rewrite (quad_model (length (mu q))); [field|exact SQ|]. apply vsub_len; [exact LA|reflexivity].
Qed.

Lemma expand_ok b n : length b = 1%nat \/ length b = n -> exists m, expand b n = Ok m /\ length m = n /\ forall i, (i < n)%nat -> nth i m 0 = bound_at b i.
Proof.
  intros H. unfold expand, bound_at. destruct b as [|x [|y b]].
  - destruct H as [H|H]; [discriminate|]. cbn in H. subst n. exists []. repeat split.
  - exists (repeat x n). rewrite repeat_length. split; [reflexivity|]. split; [reflexivity|]. intros i Hi. rewrite nth_repeat with (a := x) || idtac. clear - Hi. revert i Hi. induction n as [|n IH]; intros [|i] Hi; cbn; try lia; [reflexivity|]. apply IH. lia.
  - destruct H as [H|H]; [discriminate|]. rewrite H, Nat.eqb_refl. exists (x :: y :: b). repeat split; auto.
Qed.
Lemma nth_vmax a b i : length a = length b -> (i < length b)%nat -> nth i (vmax a b) 0 = Qmax (nth i a 0) (nth i b 0).
Proof. revert b i. induction a as [|x a IH]; intros [|y b] [|i] L H; cbn in *; try lia; try discriminate; [reflexivity|]. apply IH; lia. Qed.
Lemma nth_vmin a b i : length a = length b -> (i < length b)%nat -> nth i (vmin a b) 0 = Qmin (nth i a 0) (nth i b 0).
Proof. revert b i. induction a as [|x a IH]; intros [|y b] [|i] L H; cbn in *; try lia; try discriminate; [reflexivity|]. apply IH; lia. Qed.
Lemma vmax_len a b : length a = length b -> length (vmax a b) = length b.
Proof. revert b. induction a as [|x a IH]; intros [|y b] L; cbn in *; try discriminate; [reflexivity|]. f_equal. apply IH. congruence. Qed.
Lemma vmin_len a b : length a = length b -> length (vmin a b) = length b.
Proof. revert b. induction a as [|x a IH]; intros [|y b] L; cbn in *; try discriminate; [reflexivity|]. f_equal. apply IH. congruence. Qed.

(** every entry of the greedy action is the entry of mu moved to the nearest bound if outside *)
Lemma greedy_spec q : good_bounds q -> exists g, greedy_actions q = Ok g /\ length g = length (mu q) /\ forall i, (i < length (mu q))%nat ->
  let c1 := match min_action q with Some m => Qmax (bound_at m i) (nth i (mu q) 0) | None => nth i (mu q) 0 end in
  nth i g 0 = match max_action q with Some m => Qmin (bound_at m i) c1 | None => c1 end.
Proof.
  intros (G1 & G2 & _). unfold greedy_actions.
  assert (A : exists a, match min_action q with None => Ok (mu q) | Some m => m <- expand m (length (mu q)) ;; Ok (vmax m (mu q)) end = Ok a /\ length a = length (mu q) /\
    forall i, (i < length (mu q))%nat -> nth i a 0 = match min_action q with Some m => Qmax (bound_at m i) (nth i (mu q) 0) | None => nth i (mu q) 0 end).
  { destruct (min_action q) as [m|]; [|exists (mu q); auto]. destruct (expand_ok m (length (mu q)) (G1 m eq_refl)) as (e & E & L & N). rewrite E. cbn [rbind]. exists (vmax e (mu q)). split; [reflexivity|]. split; [apply vmax_len; exact L|].
    intros i Hi. rewrite nth_vmax by assumption. rewrite N by exact Hi. reflexivity. }
  destruct A as (a & EA & LA & NA). rewrite EA. cbn [rbind]. destruct (max_action q) as [m|]; [|exists a; auto].
  destruct (expand_ok m (length a)) as (e & E & L & N). { rewrite LA. apply G2. reflexivity. } rewrite E. cbn [rbind]. exists (vmin e a). split; [reflexivity|]. split; [rewrite vmin_len; assumption|].
  intros i Hi. rewrite nth_vmin by (try congruence; lia). rewrite N by lia. rewrite (NA i Hi). reflexivity.
Qed.

(** The greedy action exists and is within the bounds. *)
Theorem C44_greedy_in_bounds (q : quadratic) : good_bounds q -> exists g, greedy_actions q = Ok g /\ in_bounds q g.
Proof.
  intros GB. destruct (greedy_spec q GB) as (g & E & L & N). exists g. split; [exact E|]. split; [exact L|]. intros i Hi. rewrite L in Hi. specialize (N i Hi). cbn in N. rewrite N. destruct GB as (_ & _ & G3).
  split; intros m Em.
  - rewrite Em. pose proof (Q.le_max_l (bound_at m i) (nth i (mu q) 0)). destruct (max_action q) as [m'|] eqn:E'; [|assumption]. apply Q.min_glb; [apply (G3 m m'); auto|assumption].
  - rewrite Em. apply Q.le_min_l.
Qed.

Lemma nth_vsub a b i n : length a = n -> length b = n -> (i < n)%nat -> nth i (vsub a b) 0 == nth i a 0 - nth i b 0.
Proof. intros <-. revert b i. induction a as [|x a IH]; intros [|y b] [|i] L H; cbn in *; try lia; try discriminate; [reflexivity|]. apply IH; lia. Qed.
Lemma quad_zero n P x : (forall i, (i < n)%nat -> nth i x 0 == 0) -> quad_form n P x == 0.
Proof. intros H. apply qsum_zero. intros i Hi. apply qsum_zero. intros j Hj. rewrite (H i Hi). ring. Qed.
Lemma quad_diag n P x : diagonal n P -> quad_form n P x == qsum n (fun i => entry P i i * (nth i x 0 * nth i x 0)).
Proof. intros D. apply qsum_ext. intros i Hi. rewrite (qsum_one n i) by (try exact Hi; intros j Hj Hn; rewrite (D i j) by (auto; lia); ring). ring. Qed.
Definition unit_vec (n i : nat) : vec := map (fun j => if (j =? i)%nat then 1 else 0) (seq 0 n).
Lemma nth_unit n i j : (j < n)%nat -> nth j (unit_vec n i) 0 = if (j =? i)%nat then 1 else 0.
Proof. intros H. unfold unit_vec. rewrite (nth_indep _ 0 ((fun j => if (j =? i)%nat then 1 else 0) 0%nat)) by (rewrite map_length, seq_length; exact H). rewrite (map_nth (fun j => if (j =? i)%nat then 1 else 0)), seq_nth by exact H. reflexivity. Qed.
Lemma pd_diag n P i : positive_definite n P -> diagonal n P -> (i < n)%nat -> 0 <= entry P i i.
Proof.
  intros PD D Hi. destruct (PD (unit_vec n i)) as [H _]; [unfold unit_vec; rewrite map_length, seq_length; reflexivity|]. rewrite (quad_diag n P _ D) in H.
  rewrite (qsum_one n i) in H; [|exact Hi|intros j Hj Hn; rewrite nth_unit by exact Hj; destruct (Nat.eqb_spec j i); [contradiction|ring]]. rewrite nth_unit in H by exact Hi. rewrite Nat.eqb_refl in H. lra.
Qed.
Lemma sq_le x y : 0 <= x <= y \/ y <= x <= 0 -> x * x <= y * y.
Proof. intros [H|H]; nra. Qed.

(** `max` is the value of the greedy action and at least the value of every action within the bounds, and advantages are not positive — if there are
    no bounds, or mu is within them, or the matrix is diagonal (in particular in one dimension). *)
Theorem C44_max_partial (q : quadratic) : let n := length (mu q) in square n (mat q) -> positive_definite n (mat q) -> good_bounds q ->
  (min_action q = None /\ max_action q = None) \/ in_bounds q (mu q) \/ diagonal n (mat q) ->
  exists g m, greedy_actions q = Ok g /\ max q = Ok m /\ value q g == m /\ (forall a, in_bounds q a -> value q a <= m) /\
    forall a, in_bounds q a -> exists d, compute_advantage q a = Ok d /\ d <= 0.
Proof.
  intros n SQ PD GB H. destruct (greedy_spec q GB) as (g & E & L & N). exists g.
  assert (M : exists m, max q = Ok m /\ value q g == m).
  { unfold max. destruct (min_action q) as [b|] eqn:E1.
    - rewrite E. cbn [rbind]. eexists. split; [reflexivity|]. symmetry. apply C44_value; assumption.
    - destruct (max_action q) as [b|] eqn:E2.
      + rewrite E. cbn [rbind]. eexists. split; [reflexivity|]. symmetry. apply C44_value; assumption.
      + exists (v q). split; [reflexivity|]. unfold value. rewrite quad_zero; [field|]. intros i Hi. rewrite (nth_vsub g (mu q) i n) by auto. rewrite (N i Hi). ring. }
  destruct M as (m & EM & Vm).
  assert (G : forall a, in_bounds q a -> value q a <= m).
  { intros a [LA BA]. rewrite <- Vm. unfold value. fold n. enough (X : quad_form n (mat q) (vsub g (mu q)) <= quad_form n (mat q) (vsub a (mu q))) by (setoid_replace (quad_form n (mat q) (vsub g (mu q)) / 2) with ((1 # 2) * quad_form n (mat q) (vsub g (mu q))) by field; setoid_replace (quad_form n (mat q) (vsub a (mu q)) / 2) with ((1 # 2) * quad_form n (mat q) (vsub a (mu q))) by field; lra).
    assert (Z : (min_action q = None /\ max_action q = None) \/ in_bounds q (mu q) -> quad_form n (mat q) (vsub g (mu q)) == 0).
    { intros C. apply quad_zero. intros i Hi. rewrite (nth_vsub g (mu q) i n) by auto. rewrite (N i Hi). destruct C as [[-> ->]|[_ B]]; [ring|]. destruct (B i Hi) as [B1 B2].
      assert (X1 : match min_action q with Some m0 => Qmax (bound_at m0 i) (nth i (mu q) 0) | None => nth i (mu q) 0 end == nth i (mu q) 0) by (destruct (min_action q) as [b|]; [apply Q.max_r; apply B1; reflexivity|reflexivity]).
      assert (X2 : match max_action q with Some m0 => Qmin (bound_at m0 i) match min_action q with Some m0 => Qmax (bound_at m0 i) (nth i (mu q) 0) | None => nth i (mu q) 0 end | None => match min_action q with Some m0 => Qmax (bound_at m0 i) (nth i (mu q) 0) | None => nth i (mu q) 0 end end == nth i (mu q) 0).
      { destruct (max_action q) as [b|]; [|exact X1]. rewrite Q.min_r; [exact X1|]. rewrite X1. apply B2. reflexivity. }
      rewrite X2. ring. }
    destruct (PD (vsub a (mu q))) as [PA _]; [apply vsub_len; auto|].
    destruct H as [H|[H|H]]; [rewrite Z by auto; exact PA|rewrite Z by auto; exact PA|].
    rewrite !(quad_diag n _ _ H). apply qsum_le. intros i Hi. pose proof (pd_diag n _ i PD H Hi) as P0. destruct (BA i) as [B1 B2]; [lia|].
    rewrite !(nth_vsub _ (mu q) i n) by auto. rewrite (N i Hi). destruct GB as (_ & _ & G3).
    enough (X : forall x, x = match max_action q with Some m0 => Qmin (bound_at m0 i) match min_action q with Some m0 => Qmax (bound_at m0 i) (nth i (mu q) 0) | None => nth i (mu q) 0 end | None => match min_action q with Some m0 => Qmax (bound_at m0 i) (nth i (mu q) 0) | None => nth i (mu q) 0 end end ->
      (x - nth i (mu q) 0) * (x - nth i (mu q) 0) <= (nth i a 0 - nth i (mu q) 0) * (nth i a 0 - nth i (mu q) 0)).
    { specialize (X _ eq_refl). set (y := match max_action q with Some _ => _ | None => _ end) in *. nra. }
    intros x Ex. apply sq_le. set (ui := nth i (mu q) 0) in *. set (ai := nth i a 0) in *.
    destruct (min_action q) as [b1|]; destruct (max_action q) as [b2|]; subst x.
    - specialize (B1 b1 eq_refl). specialize (B2 b2 eq_refl). specialize (G3 b1 b2 eq_refl eq_refl i Hi). destruct (Q.max_spec (bound_at b1 i) ui) as [[C1 C2]|[C1 C2]]; destruct (Q.min_spec (bound_at b2 i) (Qmax (bound_at b1 i) ui)) as [[D1 D2]|[D1 D2]]; rewrite D2; rewrite C2 in *; lra.
    - specialize (B1 b1 eq_refl). destruct (Q.max_spec (bound_at b1 i) ui) as [[C1 C2]|[C1 C2]]; rewrite C2; lra.
    - specialize (B2 b2 eq_refl). destruct (Q.min_spec (bound_at b2 i) ui) as [[C1 C2]|[C1 C2]]; rewrite C2; lra.
    - lra. }
  exists m. split; [exact E|]. split; [exact EM|]. split; [exact Vm|]. split; [exact G|]. intros a Ha. unfold compute_advantage. rewrite EM. cbn [rbind]. eexists. split; [reflexivity|].
  rewrite C44_value by (try exact SQ; destruct Ha; assumption). specialize (G a Ha). lra.
Qed.

(** With a matrix that is not diagonal and mu outside the bounds, an action within the bounds can be better than the "maximum". *)
Definition corr : quadratic := mkQuad [3; 0] [[1; 9 # 10]; [9 # 10; 1]] 0 (Some [-(1)]) (Some [1]).
Theorem C44_max_refuted : exists q m, square (length (mu q)) (mat q) /\ positive_definite (length (mu q)) (mat q) /\ good_bounds q /\ max q = Ok m /\
  exists a, in_bounds q a /\ m < value q a /\ exists d, compute_advantage q a = Ok d /\ 0 < d.
Proof.
  exists corr. eexists. split; [split; [reflexivity|repeat constructor]|]. split.
  { intros x Lx. cbn in Lx. destruct x as [|x [|y [|]]]; try discriminate Lx. assert (Eq : quad_form 2 (mat corr) [x; y] == x * x + (9 # 5) * (x * y) + y * y) by (unfold quad_form, entry; cbn; ring).
    change (length (mu corr)) with 2%nat. rewrite Eq. assert (Eq2 : x * x + (9 # 5) * (x * y) + y * y == (x + (9 # 10) * y) * (x + (9 # 10) * y) + (19 # 100) * (y * y)) by ring. rewrite Eq2.
    assert (S1 : forall z, 0 <= z * z) by (intros z; destruct (Qlt_le_dec z 0); nra). pose proof (S1 y). pose proof (S1 (x + (9 # 10) * y)). split; [lra|]. intros Z. assert (Y : y == 0) by (apply sq_zero; lra).
    assert (X : x + (9 # 10) * y == 0) by (apply sq_zero; lra). constructor; [lra|]. constructor; [exact Y|constructor]. }
  split; [split; [|split]|].
  - intros m E. injection E as <-. left. reflexivity.
  - intros m E. injection E as <-. left. reflexivity.
  - intros m m' E E' i Hi. injection E as <-. injection E' as <-. cbn. lra.
  - split; [vm_compute; reflexivity|]. exists [1; 1]. split; [split; [reflexivity|]|].
    + intros i Hi. cbn in Hi. split; intros m E; injection E as <-; destruct i as [|[|i]]; cbn; try lra; lia.
    + split; [vm_compute; reflexivity|]. eexists. split; [vm_compute; reflexivity|]. vm_compute. reflexivity.
Qed.

(** diagonal, mu outside the bounds *)
Example C44_ex : let q := mkQuad [3; 0] [[1; 0]; [0; 2]] 5 (Some [-(1)]) (Some [1; 2]) in
  greedy_actions q = Ok [1; 0] /\ exists m, max q = Ok m /\ m == 3 /\ value q [1; 1] == 2.
Proof. split; [vm_compute; reflexivity|]. eexists. split; [vm_compute; reflexivity|]. split; vm_compute; reflexivity. Qed.

Print Assumptions C44_value.
Print Assumptions C44_greedy_in_bounds.
Print Assumptions C44_max_partial.
Print Assumptions C44_max_refuted.
