(** Proofs about ACER's targets and policy gradient. *)
From Coq Require Import QArith Qminmax Qabs Qfield Qpower Lqa.
From Verif Require Import Base P_Base S_PPO P_PPO M_AcerLoss S_AcerLoss.
Open Scope Q_scope.

(** * The loop as a recursion over time *)
Definition l_init (R : Q) : lst := {| pi_loss := 0; Q_loss := 0; Q_ret := R; Q_opc := R; l_out := [] |}.
Definition lrun (c : lcfg) (R : Q) (l : list lstep) : lst := fold_right (fun x s => lbody c s x) (l_init R) l.
Lemma lrun_fold c R l : fold_left (lbody c) (rev l) (l_init R) = lrun c R l.
Proof. unfold lrun. rewrite <- fold_left_rev_right, rev_involutive. reflexivity. Qed.

Lemma lrun_out c R l : forall i x, nth_error l i = Some x ->
  exists rest, nth_error (l_out (lrun c R l)) i = Some (hd (0, 0, None) (l_out (lbody c (lrun c R rest) x))) /\ rest = skipn (S i) l.
Proof.
  induction l as [|y l IH]; intros [|i] x H; try discriminate; cbn [lrun fold_right].
  - injection H as ->. exists l. split; reflexivity.
  - destruct (IH i x H) as (rest & E & ->). exists (skipn (S i) l). split; [exact E|]. reflexivity.
Qed.
Lemma lrun_len c R l : length (l_out (lrun c R l)) = length l.
Proof. induction l as [|y l IH]; [reflexivity|]. cbn [lrun fold_right lbody l_out length]. f_equal. exact IH. Qed.

Lemma dsum_scale c k f n : discounted_sum c (fun l => k * f l) n == k * discounted_sum c f n.
Proof. unfold discounted_sum. induction (seq 0 n) as [|x l IH]; cbn [fold_right]; [ring|]. rewrite IH. ring. Qed.

Lemma nth_skip {A} (l : list A) i k d : nth k (skipn i l) d = nth (i + k) l d.
Proof. revert i. induction l as [|x l IH]; intros [|i]; cbn [skipn Nat.add nth]; try reflexivity; [destruct k; reflexivity|]. apply IH. Qed.

(** * Retrace *)
Section R.
  Variable gamma R : Q.

  Lemma trace_shift c c' i : (forall k, c (i + k)%nat = c' k) -> forall m j, trace c (i + j) m = trace c' j m.
  Proof.
    intros H m j. unfold trace. replace (S (i + j)) with (i + S j)%nat by lia. generalize (S j). clear j.
    induction m as [|m IH]; intros j; [reflexivity|]. cbn [seq fold_right]. rewrite H. f_equal. replace (S (i + j)) with (i + S j)%nat by lia. apply IH.
  Qed.
  Lemma retrace_shift n r v q c r' v' q' c' i : (i <= n)%nat ->
    (forall k, r (i + k)%nat = r' k) -> (forall k, v (i + k)%nat = v' k) -> (forall k, q (i + k)%nat = q' k) -> (forall k, c (i + k)%nat = c' k) ->
    forall j, retrace gamma R n r v q c (i + j) == retrace gamma R (n - i) r' v' q' c' j.
  Proof.
    intros Hi Hr Hv Hq Hc j. unfold retrace. rewrite Hq. apply Qplus_comp; [reflexivity|].
    replace (n - (i + j))%nat with (n - i - j)%nat by lia. apply dsum_ext. intros l _. rewrite (trace_shift c c' i Hc). apply Qmult_comp; [reflexivity|].
    unfold td. replace (i + j + l)%nat with (i + (j + l))%nat by lia. rewrite Hr, Hq. replace (S (i + (j + l))) with (i + S (j + l))%nat by lia. rewrite Hv.
    destruct (Nat.eqb_spec (i + S (j + l)) n), (Nat.eqb_spec (S (j + l)) (n - i)); try lia; reflexivity.
  Qed.

  Variable cf : lstep -> Q.
  Definition dummy : lstep := {| l_r := 0; l_v := 0; l_q := 0; l_rho := 1; l_root := 1; l_pi := fun _ => 0 |}.
  Definition at_ (f : lstep -> Q) (l : list lstep) (i : nat) : Q := f (nth i l dummy).
  Fixpoint tgt (l : list lstep) : Q :=
    match l with [] => R | x :: l => cf x * (l_r x + gamma * tgt l - l_q x) + l_v x end.
  Definition ret (l : list lstep) (i : nat) : Q := retrace gamma R (length l) (at_ l_r l) (at_ l_v l) (at_ l_q l) (at_ cf l) i.

  Lemma retrace_unfold n r v q c : (2 <= n)%nat -> retrace gamma R n r v q c 0 ==
    r 0%nat + gamma * (c 1%nat * (retrace gamma R n r v q c 1 - q 1%nat) + v 1%nat).
  Proof.
    intros Hn. destruct n as [|[|n]]; [lia|lia|]. unfold retrace. cbn [Nat.sub]. rewrite (dsum_shift gamma _ (S n)). cbn [Nat.add].
    rewrite (dsum_ext gamma (fun l => trace c 0 (S l) * td gamma R (S (S n)) r v q (S l))
              (fun m => c 1%nat * (trace c 1 m * td gamma R (S (S n)) r v q (S m)))).
    2:{ intros l _. unfold trace. cbn [seq fold_right]. ring. }
    rewrite (dsum_scale gamma (c 1%nat)). unfold td at 1. change (1 =? S (S n))%nat with false. cbv iota.
    unfold trace at 1. cbn [seq fold_right]. ring.
  Qed.
  Lemma retrace_one r v q c : retrace gamma R 1 r v q c 0 == r 0%nat + gamma * R.
  Proof.
    unfold retrace. cbn [Nat.sub]. rewrite dsum_shift. unfold trace, td, discounted_sum. cbn [seq fold_right Nat.add Nat.eqb]. ring.
  Qed.

  Lemma ret_skip l i : (i <= length l)%nat -> ret l i == ret (skipn i l) 0.
  Proof.
    intros Hi. unfold ret. rewrite skipn_length. rewrite <- (Nat.add_0_r i) at 1. apply retrace_shift; [exact Hi| | | |]; intros k; unfold at_; rewrite nth_skip; reflexivity.
  Qed.

  Lemma tgt_ret x l : l_r x + gamma * tgt l == ret (x :: l) 0.
  Proof.
    revert x. induction l as [|y l IH]; intros x.
    - unfold ret. cbn [length]. rewrite retrace_one. reflexivity.
    - cbn [tgt]. rewrite IH. unfold ret at 2. rewrite retrace_unfold by (cbn; lia). fold (ret (x :: y :: l) 1). rewrite (ret_skip (x :: y :: l) 1) by (cbn; lia). reflexivity.
  Qed.
  Lemma tgt_nth l i x : nth_error l i = Some x -> l_r x + gamma * tgt (skipn (S i) l) == ret l i.
  Proof.
    intros H. rewrite ret_skip by (apply Nat.lt_le_incl, nth_error_Some; congruence).
    assert (E : skipn i l = x :: skipn (S i) l).
    { revert i H. induction l as [|y l IHl]; intros [|i] H; try discriminate; [injection H as ->; reflexivity|]. cbn [skipn]. apply IHl. exact H. }
    rewrite E. apply tgt_ret.
  Qed.
End R.

Lemma lrun_ret c R l : Q_ret (lrun c R l) == tgt (l_gamma c) R (fun x => if l_discrete c then Qmin 1 (l_rho x) else Qmin 1 (l_root x)) l.
Proof. induction l as [|x l IH]; [reflexivity|]. cbn [lrun fold_right lbody Q_ret tgt]. fold (lrun c R l). rewrite IH. destruct (l_discrete c); reflexivity. Qed.
Lemma lrun_opc c R l : Q_opc (lrun c R l) == tgt (l_gamma c) R (fun _ => 1) l.
Proof. induction l as [|x l IH]; [reflexivity|]. cbn [lrun fold_right lbody Q_opc tgt]. fold (lrun c R l). rewrite IH. ring. Qed.

(** * Sums *)
Definition lsum {A} (f : A -> Q) (l : list A) : Q := fold_right (fun x acc => f x + acc) 0 l.

Lemma lrun_losses c R l :
  pi_loss (lrun c R l) == lsum (fun p : lstep * (Q * Q * option Q) => l_pi (fst p) (snd (fst (snd p)))) (combine l (l_out (lrun c R l))) /\
  Q_loss (lrun c R l) == lsum (fun p : lstep * (Q * Q * option Q) => mse (fst (fst (snd p))) (l_q (fst p)) / 2 +
                                  match snd (snd p) with Some t => mse t (l_v (fst p)) / 2 | None => 0 end) (combine l (l_out (lrun c R l))).
Proof.
  induction l as [|x l [IH1 IH2]]; [split; reflexivity|]. cbn [lrun fold_right]. fold (lrun c R l). unfold lbody. cbn [pi_loss Q_loss l_out combine lsum fold_right fst snd].
  fold (lsum (A := lstep * (Q * Q * option Q))). split; [rewrite IH1; unfold lsum; ring|]. destruct (l_discrete c); cbn [fst snd]; rewrite IH2; unfold lsum; ring.
Qed.

(** * Bounds *)
Lemma dsum_abs g f n : 0 <= g -> Qabs (discounted_sum g f n) <= discounted_sum g (fun m => Qabs (f m)) n.
Proof.
  intros Hg. unfold discounted_sum. induction (seq 0 n) as [|k l IH]; cbn [fold_right]; [apply Qle_refl|].
  eapply Qle_trans; [apply Qabs_triangle|]. apply Qplus_le_compat; [|exact IH]. rewrite Qabs_Qmult.
  assert (H : 0 <= Qpower g (Z.of_nat k)) by (apply Qpower_pos; exact Hg). rewrite (Qabs_pos _ H). apply Qle_refl.
Qed.
Lemma dsum_le g f h n : 0 <= g -> (forall m, (m < n)%nat -> f m <= h m) -> discounted_sum g f n <= discounted_sum g h n.
Proof.
  intros Hg H. unfold discounted_sum. assert (G : forall m, In m (seq 0 n) -> f m <= h m) by (intros m Hm; apply H; apply in_seq in Hm; lia).
  induction (seq 0 n) as [|k l IH]; cbn [fold_right]; [apply Qle_refl|]. apply Qplus_le_compat.
  - assert (H0 : 0 <= Qpower g (Z.of_nat k)) by (apply Qpower_pos; exact Hg). rewrite !(Qmult_comm (Qpower g (Z.of_nat k))). apply Qmult_le_compat_r; [|exact H0]. apply G. left. reflexivity.
  - apply IH. intros m Hm. apply G. right. exact Hm.
Qed.
Lemma trace_bound c i m : (forall k, 0 <= c k <= 1) -> 0 <= trace c i m <= 1.
Proof.
  intros H. unfold trace. induction (seq (S i) m) as [|k l IH]; cbn [fold_right]; [lra|]. specialize (H k). nra.
Qed.
Lemma retrace_bound gamma R n r v q c i : 0 <= gamma -> (forall k, 0 <= c k <= 1) ->
  Qabs (retrace gamma R n r v q c i - q i) <= discounted_sum gamma (fun m => Qabs (td gamma R n r v q (i + m))) (n - i).
Proof.
  intros Hg Hc. unfold retrace. setoid_replace (q i + discounted_sum gamma (fun m => trace c i m * td gamma R n r v q (i + m)) (n - i) - q i)
    with (discounted_sum gamma (fun m => trace c i m * td gamma R n r v q (i + m)) (n - i)) by ring.
  eapply Qle_trans; [apply dsum_abs; exact Hg|]. apply dsum_le; [exact Hg|]. intros m _. rewrite Qabs_Qmult.
  destruct (trace_bound c i m Hc) as [A B]. rewrite (Qabs_pos _ A). pose proof (Qabs_nonneg (td gamma R n r v q (i + m))). nra.
Qed.
Lemma retrace_ext gamma R n r v q c c' i : (forall k, c k == c' k) -> retrace gamma R n r v q c i == retrace gamma R n r v q c' i.
Proof.
  intros H. unfold retrace. apply Qplus_comp; [reflexivity|]. apply dsum_ext. intros m _. apply Qmult_comp; [|reflexivity].
  unfold trace. induction (seq (S i) m) as [|k l IH]; cbn [fold_right]; [reflexivity|]. rewrite H, IH. reflexivity.
Qed.

(** * Importance weighting *)
Lemma expect_ext p f g : (forall a, (a < length p)%nat -> f a == g a) -> expect p f == expect p g.
Proof.
  intros H. unfold expect. assert (G : forall a, In a (seq 0 (length p)) -> f a == g a) by (intros a Ha; apply H; apply in_seq in Ha; lia).
  induction (seq 0 (length p)) as [|a l IH]; cbn [fold_right]; [reflexivity|]. rewrite (G a) by (left; reflexivity). rewrite IH by (intros b Hb; apply G; right; exact Hb). reflexivity.
Qed.
Lemma expect_plus p f g : expect p (fun a => f a + g a) == expect p f + expect p g.
Proof. unfold expect. induction (seq 0 (length p)) as [|a l IH]; cbn [fold_right]; [ring|]. rewrite IH. ring. Qed.
Lemma expect_scale p k f : expect p (fun a => k * f a) == k * expect p f.
Proof. unfold expect. induction (seq 0 (length p)) as [|a l IH]; cbn [fold_right]; [ring|]. rewrite IH. ring. Qed.
(** change of distribution *)
Lemma expect_change p p' f g : length p = length p' -> (forall a, (a < length p)%nat -> nth a p 0 * f a == nth a p' 0 * g a) -> expect p f == expect p' g.
Proof.
  intros L H. unfold expect. rewrite <- L. assert (G : forall a, In a (seq 0 (length p)) -> nth a p 0 * f a == nth a p' 0 * g a) by (intros a Ha; apply H; apply in_seq in Ha; lia).
  induction (seq 0 (length p)) as [|a l IH]; cbn [fold_right]; [reflexivity|]. rewrite (G a) by (left; reflexivity). rewrite IH by (intros b Hb; apply G; right; exact Hb). reflexivity.
Qed.
Lemma qsum_expect (p : list Q) f : qsum (map (fun a => f a) (seq 0 (length p))) == fold_right (fun a acc => f a + acc) 0 (seq 0 (length p)).
Proof. unfold qsum. induction (seq 0 (length p)) as [|a l IH]; cbn [map fold_right]; [reflexivity|]. rewrite IH. reflexivity. Qed.

(** What the truncated weight leaves out is what the correction adds. *)
Lemma split_weight p m c : 0 < p -> 0 < m -> m * Qmin c (p / m) == p * Qmin 1 (c * (m / p)) /\ Qmin 1 (c * (m / p)) + relu (1 - c * (m / p)) == 1.
Proof.
  intros Hp Hm. assert (Hinv : 0 < p / m) by (apply Qlt_shift_div_l; lra). assert (Hinv2 : 0 < m / p) by (apply Qlt_shift_div_l; lra).
  assert (E : (p / m) * (m / p) == 1) by (field; lra).
  assert (Ea : m * (p / m) == p) by (field; lra). assert (Eb : p * (m / p) == m) by (field; lra).
  unfold relu. split.
  - destruct (Qlt_le_dec c (p / m)).
    + rewrite (Q.min_l c) by lra. rewrite Q.min_r; [|nra]. rewrite <- Eb at 1. ring.
    + rewrite (Q.min_r c) by lra. rewrite Q.min_l; [|nra]. rewrite Ea. ring.
  - destruct (Qlt_le_dec 1 (c * (m / p))).
    + rewrite Q.min_l, Q.max_l by lra. ring.
    + rewrite Q.min_r, Q.max_r by lra. ring.
Qed.
