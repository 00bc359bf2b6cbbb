(** Proofs for C139. *)
From Coq Require Import Setoid Reals QArith Qreals Lra.
From Verif Require Import Base M_Boltzmann M_PolicyLoss S_ValueIteration S_PolicyEvaluation S_PolicyImprovement P_PolicyEvaluation.
Close Scope Q_scope. Close Scope R_scope. Open Scope nat_scope.

Section Improve.
Context (D : problem) (W : well_formed D) (gamma : Q) (Hg : (0 <= Q2R gamma < 1)%R).
Local Notation n := (states D).
Local Notation m := (last_action D).
Local Notation g := (Q2R gamma).
Context (pi pi' : nat -> list (R * nat)) (P : proper D pi) (P' : proper D pi') (ch ch' U U' X : nat -> nat -> R) (HU : worth D gamma pi ch U) (HU' : worth D gamma pi' ch' U') (eps slack : R) (HX : near D X U eps).
(** [c]: how much the one-step comparison is off *)
Lemma shifted c : (0 <= c)%R -> (g * (c + g * c / (1 - g)) = g * c / (1 - g))%R. Proof. intros _. field. lra. Qed.
Lemma gain_nonneg c : (0 <= c)%R -> (0 <= g * c / (1 - g))%R. Proof. intros H. apply Rmult_le_pos; [nra|left; apply Rinv_0_lt_compat; lra]. Qed.
Lemma improve : (0 <= 2 * eps + slack)%R -> (forall s, s < n -> (- state_worth pi' ch' X s <= - state_worth pi ch X s + slack)%R) ->
  forall s a, s < n -> a <= m -> (U s a - g * (2 * eps + slack) / (1 - g) <= U' s a)%R.
Proof.
  intros Hc H. set (c := (2 * eps + slack)%R) in *. pose proof (gain_nonneg c Hc) as Hn. intros s a Hs Ha. enough (U s a <= U' s a + g * c / (1 - g))%R by lra. revert s a Hs Ha.
  apply (contraction2 D gamma Hg U (fun s a => U' s a + g * c / (1 - g))%R). intros d Hd K s a Hs Ha. rewrite (HU s a Hs Ha). rewrite (HU' s a Hs Ha).
  pose proof (expected_plus D W gamma Hg (state_worth pi ch U) (state_worth pi' ch' U') (c + g * c / (1 - g) + d) s a Hs Ha ltac:(lra)) as E.
  replace (g * (c + g * c / (1 - g) + d))%R with (g * c / (1 - g) + g * d)%R in E by (field; lra). rewrite Rplus_assoc. apply E. clear E. intros s' Hs'.
  assert (A : (state_worth pi ch U s' <= state_worth pi ch X s' + eps)%R) by (apply (state_worth_plus D); [exact P|exact Hs'|]; intros b Hb; specialize (HX s' b Hs' Hb); pose proof (Rle_abs (- (X s' b - U s' b))) as Y; rewrite Rabs_Ropp in Y; lra).
  assert (B : (state_worth pi' ch' X s' <= state_worth pi' ch' U s' + eps)%R) by (apply (state_worth_plus D); [exact P'|exact Hs'|]; intros b Hb; specialize (HX s' b Hs' Hb); pose proof (Rle_abs (X s' b - U s' b)); lra).
  assert (C : (state_worth pi' ch' U s' <= state_worth pi' ch' U' s' + (g * c / (1 - g) + d))%R) by (apply (state_worth_plus D); [exact P'|exact Hs'|]; intros b Hb; specialize (K s' b Hs' Hb); lra).
  specialize (H s' Hs'). unfold c in *. lra.
Qed.
Lemma no_better : (0 <= 2 * eps + slack)%R -> (forall s, s < n -> (- state_worth pi ch X s <= - state_worth pi' ch' X s + slack)%R) ->
  forall s a, s < n -> a <= m -> (U' s a <= U s a + g * (2 * eps + slack) / (1 - g))%R.
Proof.
  intros Hc H. set (c := (2 * eps + slack)%R) in *. pose proof (gain_nonneg c Hc) as Hn.
  apply (contraction2 D gamma Hg U' (fun s a => U s a + g * c / (1 - g))%R). intros d Hd K s a Hs Ha. rewrite (HU s a Hs Ha). rewrite (HU' s a Hs Ha).
  pose proof (expected_plus D W gamma Hg (state_worth pi' ch' U') (state_worth pi ch U) (c + g * c / (1 - g) + d) s a Hs Ha ltac:(lra)) as E.
  replace (g * (c + g * c / (1 - g) + d))%R with (g * c / (1 - g) + g * d)%R in E by (field; lra). rewrite Rplus_assoc. apply E. clear E. intros s' Hs'.
  assert (A : (state_worth pi ch X s' <= state_worth pi ch U s' + eps)%R) by (apply (state_worth_plus D); [exact P|exact Hs'|]; intros b Hb; specialize (HX s' b Hs' Hb); pose proof (Rle_abs (X s' b - U s' b)); lra).
  assert (B : (state_worth pi' ch' U s' <= state_worth pi' ch' X s' + eps)%R) by (apply (state_worth_plus D); [exact P'|exact Hs'|]; intros b Hb; specialize (HX s' b Hs' Hb); pose proof (Rle_abs (- (X s' b - U s' b))) as Y; rewrite Rabs_Ropp in Y; lra).
  assert (C : (state_worth pi' ch' U' s' <= state_worth pi' ch' U s' + (g * c / (1 - g) + d))%R) by (apply (state_worth_plus D); [exact P'|exact Hs'|]; intros b Hb; specialize (K s' b Hs' Hb); lra).
  specialize (H s' Hs'). unfold c in *. lra.
Qed.
End Improve.

(** ** The losses are negated worths *)
Lemma mean_one x : mean [x] = x. Proof. unfold mean, sumR. cbn. field. Qed.
Lemma mean_opp {X} (f : X -> R) l : mean_over (fun x => - f x)%R l = (- mean_over f l)%R. Proof. induction l as [|[p x] l IH]; cbn [mean_over]; [lra|]. rewrite IH. ring. Qed.
Lemma neg_q_worth D pi q s : expected_neg_q D pi q s = (- state_worth (listed D pi) free q s)%R.
Proof. unfold expected_neg_q, state_worth. rewrite <- mean_opp. apply mean_ext. intros c _. unfold neg_q_loss, free. rewrite mean_one. ring. Qed.
Lemma soft_worth D temperature pi q1 q2 s : expected_soft D temperature pi q1 q2 s = (- state_worth (listed D pi) (entropy_charge temperature pi) (fun s a => Rmin (q1 s a) (q2 s a)) s)%R.
Proof. unfold expected_soft, state_worth. rewrite <- mean_opp. apply mean_ext. intros c _. unfold soft_policy_loss, entropy_charge. cbn [combine map]. rewrite mean_one. ring. Qed.
Lemma near_min D q1 q2 U eps : near D q1 U eps -> near D q2 U eps -> near D (fun s a => Rmin (q1 s a) (q2 s a)) U eps.
Proof. intros H K s a Hs Ha. unfold Rmin. destruct (Rle_dec (q1 s a) (q2 s a)); [now apply H|now apply K]. Qed.

(** ** Gibbs *)
Lemma ln_below x : (0 < x)%R -> (ln x <= x - 1)%R.
Proof. intros H. pose proof (exp_ineq1_le (ln x)) as E. rewrite (exp_ln x H) in E. lra. Qed.
Lemma gibbs (t Z : R) (p x : nat -> R) (l : list nat) : (0 < t)%R -> (0 < Z)%R -> (forall a, In a l -> (0 <= p a)%R) ->
  (mean_over (fun a => x a - t * ln (p a)) (map (fun a => (p a, a)) l) <= t * ln Z * mean_over (fun _ => 1) (map (fun a => (p a, a)) l) + t * (sumR (map (fun a => exp (x a / t)) l) / Z - mean_over (fun _ => 1) (map (fun a => (p a, a)) l)))%R.
Proof.
  intros Ht HZ. induction l as [|a l IH]; intros H; cbn [map mean_over sumR fold_right]; [right; field; lra|]. specialize (IH (fun b Hb => H b (or_intror Hb))). pose proof (H a (or_introl eq_refl)) as Ha.
  fold (sumR (map (fun a => exp (x a / t)) l)). set (S1 := mean_over _ _) in *. set (S2 := mean_over (fun _ => 1%R) _) in *. set (S3 := sumR _) in *.
  enough (p a * (x a - t * ln (p a)) <= t * ln Z * p a + t * (exp (x a / t) / Z - p a))%R.
  { replace ((exp (x a / t) + S3) / Z)%R with (exp (x a / t) / Z + S3 / Z)%R by (field; lra). nra. }
  destruct Ha as [Ha|Ha].
  - assert (E : (0 < exp (x a / t) / (Z * p a))%R) by (apply Rmult_lt_0_compat; [apply exp_pos|apply Rinv_0_lt_compat; nra]).
    pose proof (ln_below _ E) as L. unfold Rdiv in L at 1. rewrite ln_mult, ln_Rinv, ln_mult, ln_exp in L; try (apply exp_pos || assumption || (apply Rinv_0_lt_compat; nra) || nra).
    apply (Rmult_le_compat_l (t * p a)) in L; [|nra]. replace (t * p a * (x a / t + - (ln Z + ln (p a))))%R with (p a * (x a - t * ln (p a)) - t * ln Z * p a)%R in L by (field; lra).
    replace (t * p a * (exp (x a / t) / (Z * p a) - 1))%R with (t * (exp (x a / t) / Z - p a))%R in L by (field; split; lra). lra.
  - rewrite <- Ha. pose proof (exp_pos (x a / t)). assert (0 < exp (x a / t) / Z)%R by (apply Rmult_lt_0_compat; [assumption|now apply Rinv_0_lt_compat]). nra.
Qed.
Lemma gibbs_eq (t Z : R) (x : nat -> R) (l : list nat) : (0 < t)%R -> (0 < Z)%R ->
  (mean_over (fun a => x a - t * ln (exp (x a / t) / Z)) (map (fun a => (exp (x a / t) / Z, a)) l) = t * ln Z * mean_over (fun _ => 1) (map (fun a => (exp (x a / t) / Z, a)) l))%R.
Proof.
  intros Ht HZ. induction l as [|a l IH]; cbn [map mean_over]; [ring|]. rewrite IH. unfold Rdiv at 3. rewrite ln_mult, ln_Rinv, ln_exp by (apply exp_pos || assumption || now apply Rinv_0_lt_compat). field. lra.
Qed.
Lemma weights_sum (Z : R) (f : nat -> R) l : (Z <> 0)%R -> mean_over (fun _ => 1%R) (map (fun a => (f a / Z, a))%R l) = (sumR (map f l) / Z)%R.
Proof. intros HZ. induction l as [|a l IH]; cbn [map mean_over sumR fold_right]; [field; exact HZ|]. rewrite IH. unfold sumR. field. exact HZ. Qed.
Lemma exps_pos (f : nat -> R) l : l <> [] -> (0 < sumR (map (fun a => exp (f a)) l))%R.
Proof.
  assert (K : forall l, (0 <= sumR (map (fun a => exp (f a)) l))%R) by (intros k; induction k as [|a k IH]; cbn [map sumR fold_right]; [lra|]; fold (sumR (map (fun a => exp (f a)) k)); pose proof (exp_pos (f a)); lra).
  destruct l as [|a l]; [tauto|]. intros _. cbn [map sumR fold_right]. fold (sumR (map (fun a => exp (f a)) l)). pose proof (exp_pos (f a)). specialize (K l). lra.
Qed.
