(** C123: ACER's networks and copies of distributions. *)
From Coq Require Import Reals Lra.
From Verif Require Import Base P_Base M_AcerHeads S_AcerHeads.
Open Scope R_scope.

(** * Discrete actions: the value is the policy's average of the action values: the advantages average to zero and the value is within the
    range of the action values. *)
Lemma dot_total l : forall q, rsum (map (fun p : R * R => fst p * snd p) (combine l q)) = total (map (fun p => fst p * snd p) (combine l q)).
Proof. reflexivity. Qed.
Theorem C123_discrete (probs q : list R) : length probs = length q -> total probs = 1 ->
  discrete_v probs q = expect (combine q probs) (fun x => x) /\ expect (combine q probs) (fun x => x - discrete_v probs q) = 0 /\
  (Forall (fun p => 0 <= p) probs -> forall lo hi, Forall (fun x => lo <= x <= hi) q -> lo <= discrete_v probs q <= hi).
Proof.
  intros L T. assert (E : discrete_v probs q = expect (combine q probs) (fun x => x)).
  { unfold discrete_v, expect. clear T. revert q L. induction probs as [|p ps IH]; intros [|x q] L; try discriminate L; [reflexivity|]. cbn [combine map rsum total fold_right fst snd]. injection L as L. specialize (IH q L). unfold rsum, total in *. rewrite IH. ring. }
  split; [exact E|]. split.
  - assert (G : forall c, expect (combine q probs) (fun x => x - c) = expect (combine q probs) (fun x => x) - c * total probs).
    { intros c. unfold expect. clear T E. revert q L. induction probs as [|p ps IH]; intros [|x q] L; try discriminate L; [cbn; ring|]. cbn [combine map total fold_right fst snd]. injection L as L. specialize (IH q L). unfold total in *. rewrite IH. ring. }
    rewrite G, T, <- E. ring.
  - intros P lo hi F. rewrite E. unfold expect. assert (G : lo * total probs <= total (map (fun p => snd p * fst p) (combine q probs)) <= hi * total probs).
    { clear T E. revert q L F. induction P as [|p ps H P IH]; intros [|x q] L F; try discriminate L; [cbn; lra|]. cbn [combine map total fold_right fst snd]. injection L as L. inversion F; subst. specialize (IH q L H3). unfold total in *. nra. }
    rewrite T in G. lra.
Qed.

(** * Continuous actions (stochastic dueling networks): the estimate of an action's value is v + adv(a) - E[adv] on average over the draws of the
    evaluator, so it averages to v under the policy, for every number of draws n >= 1; for n = 0 the evaluator fails. *)
Lemma expect_const {A} (pi : policy A) c : is_policy pi -> expect pi (fun _ => c) = c.
Proof.
  intros H. unfold expect. assert (G : total (map (fun p : A * R => snd p * c) pi) = total (map snd pi) * c). { clear H. induction pi as [|p pi IH]; cbn; [ring|]. unfold total in IH. rewrite IH. ring. }
  rewrite G, H. ring.
Qed.
Lemma expect_lin {A} (pi : policy A) f g a b : expect pi (fun x => a * f x + b * g x) = a * expect pi f + b * expect pi g.
Proof. unfold expect. induction pi as [|p pi IH]; cbn; [ring|]. unfold total in IH. rewrite IH. ring. Qed.
Lemma expect_ext {A} (pi : policy A) f g : (forall x, f x = g x) -> expect pi f = expect pi g.
Proof. intros H. unfold expect. f_equal. apply map_ext. intros p. now rewrite H. Qed.
Lemma draws_ext {A} (pi : policy A) : forall m (g h : list A -> R), (forall l, length l = m -> g l = h l) -> expect_draws pi m g = expect_draws pi m h.
Proof. induction m as [|m IHm]; intros g h E; cbn [expect_draws]; [apply E; reflexivity|]. apply expect_ext. intros x. apply IHm. intros l Hl. apply E. cbn. now rewrite Hl. Qed.
Lemma draws_sum {A} (pi : policy A) (f : A -> R) : is_policy pi -> forall n c d, expect_draws pi n (fun l => c + d * rsum (map f l)) = c + d * (INR n * expect pi f).
Proof.
  intros H. induction n as [|n IH]; intros c d; [cbn; ring|]. cbn [expect_draws].
  rewrite (expect_ext pi _ (fun a => d * f a + (c + d * (INR n * expect pi f)) * 1)).
  - rewrite expect_lin, expect_const by exact H. rewrite S_INR. ring.
  - intros a. cbn [map rsum fold_right]. transitivity (expect_draws pi n (fun l => (c + d * f a) + d * rsum (map f l))); [|rewrite IH; ring].
    apply draws_ext. intros l _. unfold rsum. ring.
Qed.
Definition value_of (r : result R) : R := match r with Ok x => x | Err _ => 0 end.
Theorem C123_continuous {Ob A} (v : Ob -> R) (adv : Ob -> A -> R) (obs : Ob) (pi : policy A) (n : nat) : is_policy pi -> (1 <= n)%nat ->
  (forall samples a, exists q, evaluator v adv obs n samples a = Ok q) /\
  (forall a, expect_draws pi n (fun samples => value_of (evaluator v adv obs n samples a)) = v obs + (adv obs a - expect pi (adv obs))) /\
  expect pi (fun a => expect_draws pi n (fun samples => value_of (evaluator v adv obs n samples a))) = continuous_v v obs.
Proof.
  intros H Hn. destruct n as [|n]; [lia|].
  assert (E : forall a, expect_draws pi (S n) (fun samples => value_of (evaluator v adv obs (S n) samples a)) = v obs + (adv obs a - expect pi (adv obs))).
  { intros a. rewrite (draws_ext pi (S n) _ (fun l => (v obs + adv obs a) + (- / INR (S n)) * rsum (map (adv obs) l))).
    - rewrite draws_sum by exact H. field. apply not_0_INR. discriminate.
    - intros l _. unfold evaluator. cbn [rbind value_of]. unfold Rdiv. change (map (fun i => adv obs i) l) with (map (adv obs) l). generalize (rsum (map (adv obs) l)) (/ INR (S n)). intros. ring. }
  split; [intros; eexists; reflexivity|]. split; [exact E|]. rewrite (expect_ext pi _ _ E).
  rewrite (expect_ext pi _ (fun a => 1 * adv obs a + (v obs - expect pi (adv obs)) * 1)) by (intros; ring). rewrite expect_lin, expect_const by exact H. unfold continuous_v. ring.
Qed.
Theorem C123_no_draws {Ob A} (v : Ob -> R) (adv : Ob -> A -> R) obs samples a : evaluator v adv obs 0 samples a = Err ZeroDivisionError.
Proof. reflexivity. Qed.

(** * Copies: a copied distribution of a supported kind gives every action the log-probability the original gives it, provided a categorical one
    was made from logits, or from probabilities none of which torch clamps.  (Copies of other categorical distributions are renormalised.) *)
Lemma rsum_pos l : Forall (fun x => 0 <= x) l -> 0 <= rsum l.
Proof. induction 1; cbn; unfold rsum in *; lra. Qed.
Lemma rsum_scale c l : rsum (map (fun x => x * c) l) = rsum l * c.
Proof. induction l as [|x l IH]; cbn; [ring|]. unfold rsum in IH. rewrite IH. ring. Qed.
Lemma rsum_exp_pos l : l <> [] -> 0 < rsum (map exp l).
Proof.
  destruct l as [|x l]; [congruence|]. intros _. cbn. pose proof (exp_pos x). assert (0 <= rsum (map exp l)). { apply rsum_pos. apply Forall_forall. intros y Hy. apply in_map_iff in Hy as (z & <- & _). left. apply exp_pos. } unfold rsum in *. lra.
Qed.
Lemma cat_logits_id l : rsum (map exp l) = 1 -> cat_of_logits l = DCat (Logits l).
Proof. intros E. unfold cat_of_logits. rewrite E, ln_1. do 2 f_equal. rewrite <- map_id. apply map_ext. intros; ring. Qed.

(** the distributions networks return: made by torch's constructors from nonempty logits, from probabilities in [eps, 1 - eps] adding up to one, or
    from means and deviations; wrapped any number of times *)
Inductive supported (eps : R) : distrib -> Prop :=
  | sup_logits l : l <> [] -> supported eps (cat_of_logits l)
  | sup_probs p : total p = 1 -> Forall (fun x => eps <= x <= 1 - eps) p -> supported eps (cat_of_probs p)
  | sup_normal loc scale : supported eps (DNormal loc scale)
  | sup_indep b n : supported eps b -> supported eps (DIndependent b n).
Lemma copy_lp eps d : 0 < eps -> supported eps d -> exists d', deepcopy eps d = Ok d' /\ forall a, log_prob eps d' a = log_prob eps d a.
Proof.
  intros He H. induction H as [l Hl|p T F|loc scale|b n H (d' & E & IH)].
  - unfold cat_of_logits at 1. cbn [deepcopy logits_of]. eexists. split; [reflexivity|]. intros a. rewrite cat_logits_id; [reflexivity|].
    rewrite map_map. transitivity (rsum (map (fun x => x * / rsum (map exp l)) (map exp l))).
    + rewrite map_map. f_equal. apply map_ext. intros x. unfold Rminus. rewrite exp_plus, exp_Ropp, exp_ln by (apply rsum_exp_pos; exact Hl). reflexivity.
    + rewrite rsum_scale. field. apply Rgt_not_eq. apply rsum_exp_pos. exact Hl.
  - assert (EP : map (fun x => x / rsum p) p = p). { change (rsum p) with (total p). rewrite T. rewrite <- map_id. apply map_ext. intros; field. }
    unfold cat_of_probs. rewrite EP. cbn [deepcopy logits_of]. eexists. split; [reflexivity|]. intros a.
    assert (C : map (fun x => clamp_eps eps x) p = p). { clear - F. induction F as [|x p H F IH]; cbn [map]; [reflexivity|]. rewrite IH. f_equal. unfold clamp_eps. rewrite Rmax_left by lra. apply Rmin_left. lra. }
    rewrite cat_logits_id; [reflexivity|]. rewrite map_map. transitivity (rsum p); [|exact T]. rewrite <- C at 2. f_equal. apply map_ext_in. intros x Hx. rewrite Forall_forall in F. specialize (F x Hx).
    apply exp_ln. unfold clamp_eps. rewrite Rmax_left by lra. rewrite Rmin_left by lra. lra.
  - eexists. split; [reflexivity|]. reflexivity.
  - cbn [deepcopy]. rewrite E. eexists. split; [reflexivity|]. intros a. cbn [log_prob]. rewrite IH. reflexivity.
Qed.
Theorem C123_copy (eps : R) (d : distrib) : 0 < eps -> supported eps d -> exists d', deepcopy eps d = Ok d' /\
  (forall a, log_prob eps d' a = log_prob eps d a) /\ exists params, get_params d = Ok params /\ params <> [].
Proof.
  intros He H. destruct (copy_lp eps d He H) as (d' & E & EL). exists d'. split; [exact E|]. split; [exact EL|].
  clear - H. induction H; cbn; eauto; eexists; (split; [reflexivity|discriminate]).
Qed.
(** The parameters, whatever the wrappers: the means, then the deviations, of a normal distribution; the log-probabilities of the actions for a
    categorical one made from logits; the probabilities for one made from probabilities. *)
Theorem C123_params (dims : list nat) : let wrap d := fold_right (fun n b => DIndependent b n) d dims in
  (forall loc scale, get_params (wrap (DNormal loc scale)) = Ok [loc; scale]) /\
  (forall eps l, exists p, get_params (wrap (cat_of_logits l)) = Ok [p] /\ length p = length l /\ forall i x, nth_error p i = Some x -> log_prob eps (cat_of_logits l) (AIndex i) = Ok [x]) /\
  (forall q, total q = 1 -> get_params (wrap (cat_of_probs q)) = Ok [q]).
Proof.
  assert (W : forall d, get_params (fold_right (fun n b => DIndependent b n) d dims) = get_params d) by (intros d; induction dims as [|n ns IH]; [reflexivity|exact IH]).
  cbv zeta. split; [|split].
  - intros. rewrite W. reflexivity.
  - intros eps l. rewrite W. eexists. split; [reflexivity|]. split; [apply map_length|]. intros i x E. cbn [cat_of_logits log_prob logits_of]. unfold cat_of_logits. cbn [log_prob logits_of]. rewrite E. reflexivity.
  - intros q T. rewrite W. cbn. change (rsum q) with (total q). rewrite T. do 2 f_equal. rewrite <- map_id. apply map_ext. intros; field.
Qed.
(** Probabilities that torch clamps: the copy of a categorical distribution is renormalised, so log-probabilities change. *)
Theorem C123_copy_clamped : forall eps, 0 < eps < / 2 -> exists d', deepcopy eps (cat_of_probs [1; 0; 0]) = Ok d' /\ log_prob eps d' (AIndex 0) <> log_prob eps (cat_of_probs [1; 0; 0]) (AIndex 0).
Proof.
  intros eps He. eexists. split; [reflexivity|]. unfold cat_of_probs, cat_of_logits. cbn. unfold clamp_eps.
  replace (1 / (1 + (0 + (0 + 0)))) with 1 by field. replace (0 / (1 + (0 + (0 + 0)))) with 0 by field.
  rewrite (Rmax_left 1 eps) by lra. rewrite (Rmax_right 0 eps) by lra. rewrite (Rmin_right 1 (1 - eps)) by lra. rewrite (Rmin_left eps (1 - eps)) by lra.
  rewrite !exp_ln by lra. intros E. injection E as E. assert (X : ln (1 - eps + (eps + (eps + 0))) = 0) by lra. assert (Y : ln (1 - eps + (eps + (eps + 0))) = ln 1) by (rewrite ln_1; exact X). apply ln_inv in Y; lra.
Qed.
Theorem C123_unsupported eps : deepcopy eps DOther = Err NotImplementedError /\ get_params DOther = Err NotImplementedError /\ (forall n, deepcopy eps (DIndependent DOther n) = Err NotImplementedError).
Proof. repeat split. Qed.

Example C123_ex : discrete_v [1 / 4; 3 / 4] [2; 6] = 5 /\ value_of (evaluator (fun _ : unit => 10) (fun _ a => a) tt 2 [1; 3] 5) = 13 /\
  is_policy [(1, 1 / 2); (3, 1 / 2)] /\ expect [(1, 1 / 2); (3, 1 / 2)] (fun a => expect_draws [(1, 1 / 2); (3, 1 / 2)] 2 (fun s => value_of (evaluator (fun _ : unit => 10) (fun _ a => a) tt 2 s a))) = 10 /\
  exists d', deepcopy (/ 100) (DIndependent (DNormal [1; 2] [3; 4]) 1) = Ok d' /\ get_params d' = Ok [[1; 2]; [3; 4]].
Proof.
  split; [unfold discrete_v; cbn; lra|]. split; [unfold evaluator; cbn; lra|]. assert (P : is_policy [(1, 1 / 2); (3, 1 / 2)]) by (unfold is_policy; cbn; lra). split; [exact P|]. split.
  - exact (proj2 (proj2 (C123_continuous (fun _ : unit => 10) (fun _ a => a) tt _ 2 P ltac:(lia)))).
  - eexists. split; reflexivity.
Qed.

Print Assumptions C123_discrete.
Print Assumptions C123_continuous.
Print Assumptions C123_no_draws.
Print Assumptions C123_copy.
Print Assumptions C123_copy_clamped.
Print Assumptions C123_unsupported.
Print Assumptions C123_params.
