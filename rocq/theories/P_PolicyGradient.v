(** Proofs for C140. *)
From Coq Require Import Reals QArith Qreals Lra.
From Verif Require Import Base P_Base M_Reinforce S_Reinforce P_Reinforce S_ValueIteration S_Unbiased S_PolicyGradient.
Close Scope Q_scope. Open Scope nat_scope.

(** ** Sums *)
Lemma oa_ext l f g : (forall a, In a l -> f a = g a) -> over_actions l f = over_actions l g.
Proof. intros H. induction l as [|a l IH]; cbn [over_actions]; [reflexivity|]. rewrite (H a (or_introl eq_refl)), IH; [reflexivity|]. intros b Hb. apply H. now right. Qed.
Lemma oa_plus l f g : over_actions l (fun a => f a + g a)%R = (over_actions l f + over_actions l g)%R.
Proof. induction l as [|a l IH]; cbn [over_actions]; [ring|]. rewrite IH. ring. Qed.
Lemma oa_scal l k f : over_actions l (fun a => k * f a)%R = (k * over_actions l f)%R.
Proof. induction l as [|a l IH]; cbn [over_actions]; [ring|]. rewrite IH. ring. Qed.
Lemma oo_ext {X} (l : list (Q * X)) f g : Forall (fun o => f (snd o) = g (snd o)) l -> over_outcomes l f = over_outcomes l g.
Proof. intros H. induction H as [|[p x] l Hx H IH]; cbn [over_outcomes]; [reflexivity|]. cbn [snd] in Hx. now rewrite Hx, IH. Qed.
Lemma oo_plus {X} (l : list (Q * X)) f g : over_outcomes l (fun a => f a + g a)%R = (over_outcomes l f + over_outcomes l g)%R.
Proof. induction l as [|[p x] l IH]; cbn [over_outcomes]; [ring|]. rewrite IH. ring. Qed.
Lemma oo_scal {X} (l : list (Q * X)) k f : over_outcomes l (fun a => k * f a)%R = (k * over_outcomes l f)%R.
Proof. induction l as [|[p x] l IH]; cbn [over_outcomes]; [ring|]. rewrite IH. ring. Qed.
Lemma oo_one l : over_outcomes l (fun _ => 1%R) = Q2R (total_probability l).
Proof. induction l as [|[p x] l IH]; cbn [over_outcomes total_probability]; [unfold Q2R; cbn; field|]. rewrite IH, Q2R_plus. ring. Qed.

(** ** Derivatives *)
Lemma dl_ext f g x l : (forall y, f y = g y) -> derivable_pt_lim f x l -> derivable_pt_lim g x l.
Proof. intros E H eps He. destruct (H eps He) as [d Hd]. exists d. intros h h0 hd. rewrite <- !E. now apply Hd. Qed.
Lemma dl_val f x l l' : l = l' -> derivable_pt_lim f x l -> derivable_pt_lim f x l'. Proof. now intros ->. Qed.
Lemma dl_actions l (f : R -> nat -> R) theta df : (forall a, In a l -> derivable_pt_lim (fun th => f th a) theta (df a)) -> derivable_pt_lim (fun th => over_actions l (f th)) theta (over_actions l df).
Proof.
  intros H. induction l as [|a l IH]; cbn [over_actions]; [apply derivable_pt_lim_const|]. apply (derivable_pt_lim_plus (fun th => f th a) (fun th => over_actions l (f th))); [apply H; now left|].
  apply IH. intros b Hb. apply H. now right.
Qed.
Lemma dl_outcomes {X} (l : list (Q * X)) (f : R -> X -> R) theta df : Forall (fun o => derivable_pt_lim (fun th => f th (snd o)) theta (df (snd o))) l -> derivable_pt_lim (fun th => over_outcomes l (f th)) theta (over_outcomes l df).
Proof.
  intros H. induction H as [|[p x] l Hx H IH]; cbn [over_outcomes]; [apply derivable_pt_lim_const|]. cbn [snd] in Hx.
  apply (derivable_pt_lim_plus (fun th => (Q2R p * f th x)%R) (fun th => over_outcomes l (f th))); [|exact IH]. exact (derivable_pt_lim_scal (fun th => f th x) (Q2R p) theta (df x) Hx).
Qed.

(** ** Episodes *)
Lemma ends_cons s x l : at_state x = s -> ended x = false -> ends_with (reached x) l -> ends_with s (x :: l).
Proof. intros E1 E2 H. destruct l as [|y l]; [destruct H|]. cbn [ends_with]. auto. Qed.

Section Expectation.
Context (D : problem) (W : well_formed D) (pi : nat -> nat -> R).
Lemma ep_ext T : forall s f g, (forall l, ends_with s l -> f l = g l) -> episodes D pi T s f = episodes D pi T s g.
Proof.
  induction T as [|T IH]; intros s f g H; [reflexivity|]. cbn [episodes]. apply oa_ext. intros a _. f_equal. apply oo_ext. apply Forall_forall. intros [p [[r s'] [|]]] _; cbn [snd].
  - apply H. cbn. auto.
  - apply IH. intros l Hl. apply H. now apply ends_cons.
Qed.
Lemma ep_plus T : forall s f g, episodes D pi T s (fun l => f l + g l)%R = (episodes D pi T s f + episodes D pi T s g)%R.
Proof.
  induction T as [|T IH]; intros s f g; cbn [episodes]; [ring|]. rewrite <- oa_plus. apply oa_ext. intros a _. rewrite <- Rmult_plus_distr_l, <- oo_plus. f_equal. apply oo_ext. apply Forall_forall.
  intros [p [[r s'] [|]]] _; cbn [snd]; [reflexivity|]. apply IH.
Qed.
Lemma ep_scal T : forall s k f, episodes D pi T s (fun l => k * f l)%R = (k * episodes D pi T s f)%R.
Proof.
  induction T as [|T IH]; intros s k f; cbn [episodes]; [ring|]. rewrite <- oa_scal. apply oa_ext. intros a _. match goal with |- _ = (k * (?p * ?X))%R => replace (k * (p * X))%R with (p * (k * X))%R by ring end. f_equal. rewrite <- oo_scal. apply oo_ext. apply Forall_forall.
  intros [p [[r s'] [|]]] _; cbn [snd]; [reflexivity|]. apply IH.
Qed.
Context (HP : forall s, over_actions (seq 0 (S (last_action D))) (pi s) = 1%R).
Lemma ep_one T : forall s, s < states D -> ends D T s -> episodes D pi T s (fun _ => 1%R) = 1%R.
Proof.
  induction T as [|T IH]; intros s Hs H; cbn [ends] in H; [destruct H|]. cbn [episodes]. transitivity (over_actions (seq 0 (S (last_action D))) (pi s)); [|apply HP]. apply oa_ext. intros a Ha. apply in_seq in Ha. assert (Ha' : a <= last_action D) by lia.
  destruct (W s a Hs Ha') as [W1 W2]. rewrite (oo_ext _ _ (fun _ => 1%R)).
  - rewrite oo_one, (Qeq_eqR _ _ W1). unfold Q2R. cbn. field.
  - specialize (H a Ha'). apply Forall_forall. intros [p [[r s'] [|]]] Hin; cbn [snd]; [reflexivity|]. apply IH.
    + rewrite Forall_forall in W2. apply (W2 _ Hin).
    + rewrite Forall_forall in H. destruct (H _ Hin) as [HH|HH]; [discriminate HH|exact HH].
Qed.
Lemma ep_const T s k : s < states D -> ends D T s -> episodes D pi T s (fun _ => k) = k.
Proof. intros Hs H. transitivity (k * episodes D pi T s (fun _ => 1))%R; [|rewrite (ep_one T s Hs H); ring]. rewrite <- ep_scal. apply ep_ext. intros. ring. Qed.
End Expectation.

Lemma ep_ext_in D (W : well_formed D) pi (P : step -> Prop) T : (forall s a o, s < states D -> a <= last_action D -> In o (outcomes D s a) -> let '(r, s', terminal) := snd o in P (mkStep s a r s' terminal)) ->
  forall s f g, s < states D -> (forall l, ends_with s l -> Forall P l -> f l = g l) -> episodes D pi T s f = episodes D pi T s g.
Proof.
  intros HP. induction T as [|T IH]; intros s f g Hs H; [reflexivity|]. cbn [episodes]. apply oa_ext. intros a Ha. apply in_seq in Ha. assert (Ha' : a <= last_action D) by lia. destruct (W s a Hs Ha') as [_ W2]. rewrite Forall_forall in W2.
  f_equal. apply oo_ext. apply Forall_forall. intros [p [[r s'] [|]]] Hin; pose proof (HP s a _ Hs Ha' Hin) as HPx; cbn [snd] in HPx |- *.
  - apply H; [cbn; auto|auto].
  - apply IH; [apply (W2 _ Hin)|]. intros l Hl HlP. apply H; [now apply ends_cons|auto].
Qed.
Lemma entropy_derivative D (pi : R -> nat -> nat -> R) theta score : (forall th s a, (0 < pi th s a)%R) -> (forall s a, derivable_pt_lim (fun th => ln (pi th s a)) theta (score s a)) ->
  forall s, derivable_pt_lim (fun th => entropy D (pi th) s) theta (- over_actions (seq 0 (S (last_action D))) (fun a => pi theta s a * score s a * (ln (pi theta s a) + 1)))%R.
Proof.
  intros HP HS s. unfold entropy. apply (derivable_pt_lim_opp (fun th => over_actions (seq 0 (S (last_action D))) (fun a => pi th s a * ln (pi th s a))%R)).
  apply (dl_actions _ (fun th a => (pi th s a * ln (pi th s a))%R)). intros a _. apply (dl_val _ _ (pi theta s a * score s a * ln (pi theta s a) + pi theta s a * score s a)%R); [ring|].
  apply (derivable_pt_lim_mult (fun th => pi th s a) (fun th => ln (pi th s a))); [|apply HS].
  apply (dl_ext (fun th => exp (ln (pi th s a)))); [intros y; apply exp_ln, HP|]. rewrite <- (exp_ln (pi theta s a)) at 1 by apply HP. apply (derivable_pt_lim_comp (fun th => ln (pi th s a)) exp); [apply HS|apply derivable_pt_lim_exp].
Qed.

Section Gradient.
Context (D : problem) (W : well_formed D) (pi : R -> nat -> nat -> R) (theta : R) (score : nat -> nat -> R) (dH : nat -> R) (F : policy_family D pi theta score dH).
Lemma dpi s a : derivable_pt_lim (fun th => pi th s a) theta (pi theta s a * score s a)%R.
Proof.
  apply (dl_ext (fun th => exp (ln (pi th s a)))); [intros y; apply exp_ln, (positive _ _ _ _ _ F)|]. rewrite <- (exp_ln (pi theta s a)) by apply (positive _ _ _ _ _ F).
  apply (derivable_pt_lim_comp (fun th => ln (pi th s a)) exp); [apply (score_is _ _ _ _ _ F)|apply derivable_pt_lim_exp].
Qed.
(** A function of episodes computed from the end, where the rewards of all steps but the last have weight [al], and what follows has weight [g] *)
Context (al g : R) (C : list step -> R).
Context (C2 : forall x y l, C (x :: y :: l) = (al * Q2R (earned x) + g * C (y :: l))%R).
Fixpoint weighted (l : list step) : R := match l with [] => 0%R | x :: r => (C l * score (at_state x) (took x) + g * weighted r)%R end.
Lemma C2' s x l : ends_with s l -> C (x :: l) = (al * Q2R (earned x) + g * C l)%R. Proof. destruct l; [intros []|intros _; apply C2]. Qed.
Theorem gradient T : forall s, s < states D -> ends D T s -> derivable_pt_lim (fun th => episodes D (pi th) T s C) theta (episodes D (pi theta) T s weighted).
Proof.
  induction T as [|T IH]; intros s Hs H; cbn [ends] in H; [destruct H|]. cbn [episodes].
  apply (dl_actions _ (fun th a => (pi th s a * over_outcomes (outcomes D s a) (fun o => let '(r, s', terminal) := o in let x := mkStep s a r s' terminal in if terminal : bool then C [x] else episodes D (pi th) T s' (fun rest => C (x :: rest))))%R)).
  intros a Ha. apply in_seq in Ha. assert (Ha' : a <= last_action D) by lia. specialize (H a Ha'). destruct (W s a Hs Ha') as [W1 W2]. rewrite Forall_forall in H, W2.
  set (Qv := fun th => over_outcomes (outcomes D s a) (fun o => let '(r, s', terminal) := o in let x := mkStep s a r s' terminal in if terminal : bool then C [x] else episodes D (pi th) T s' (fun rest => C (x :: rest)))).
  set (dQ := over_outcomes (outcomes D s a) (fun o => let '(r, s', terminal) := o in if terminal : bool then 0%R else (g * episodes D (pi theta) T s' weighted)%R)).
  assert (HQ : derivable_pt_lim Qv theta dQ).
  { unfold Qv, dQ. apply (dl_outcomes _ (fun th o => let '(r, s', terminal) := o in let x := mkStep s a r s' terminal in if terminal : bool then C [x] else episodes D (pi th) T s' (fun rest => C (x :: rest)))).
    apply Forall_forall. intros [p [[r s'] [|]]] Hin; cbn [snd]; [apply derivable_pt_lim_const|].
    destruct (H _ Hin) as [HH|HH]; [discriminate HH|]. cbn [snd] in HH. assert (Hs' : s' < states D) by apply (W2 _ Hin).
    apply (dl_ext (fun th => (al * Q2R r + g * episodes D (pi th) T s' C)%R)).
    - intros th. symmetry. rewrite (ep_ext D (pi th) T s' _ (fun l => al * Q2R r + g * C l)%R) by (intros l Hl; apply (C2' s' (mkStep s a r s' false) l Hl)). rewrite ep_plus.
      rewrite (ep_const D W (pi th) (adds_up _ _ _ _ _ F th) T s' _ Hs' HH), ep_scal. reflexivity.
    - apply (dl_val _ _ (0 + g * episodes D (pi theta) T s' weighted)%R); [ring|]. apply (derivable_pt_lim_plus (fun _ => (al * Q2R r)%R) (fun th => (g * episodes D (pi th) T s' C)%R)); [apply derivable_pt_lim_const|].
      exact (derivable_pt_lim_scal (fun th => episodes D (pi th) T s' C) g theta _ (IH s' Hs' HH)). }
  apply (dl_val _ _ (pi theta s a * score s a * Qv theta + pi theta s a * dQ)%R); [|apply (derivable_pt_lim_mult (fun th => pi th s a) Qv); [apply dpi|exact HQ]].
  rewrite (Rmult_assoc (pi theta s a)), <- Rmult_plus_distr_l. f_equal. unfold Qv, dQ. rewrite <- oo_scal, <- oo_plus. apply oo_ext. apply Forall_forall. intros [p [[r s'] [|]]] Hin; cbn [snd].
  - cbn [weighted at_state took]. ring.
  - rewrite <- !ep_scal, <- ep_plus. apply ep_ext. intros l Hl. cbn [weighted at_state took]. ring.
Qed.
End Gradient.

(** ** The updates *)
Fixpoint ref_steps (l : list step) : list (step * Q) := match l with [] => [] | x :: l => (x, earned x) :: ref_steps l end.
Lemma ref_steps_map l : ref_steps l = map (fun x => (x, earned x)) l. Proof. induction l as [|x l IH]; [reflexivity|]. cbn [ref_steps map]. now rewrite IH. Qed.
Lemma calls_app ls ms : calls (ls ++ ms) = calls ls ++ calls ms.
Proof. unfold calls. now rewrite concat_app, flat_map_app. Qed.
Lemma calls_alternating l : alternating false (flat_map (fun x => [Act true x; Observe true (earned x) (ended x) false]) l).
Proof. induction l as [|x l IH]; [exact I|]. cbn [flat_map app alternating]. auto. Qed.
Lemma ref_episode B fin l : forall s cur, ends_with s l ->
  let '(p, outs) := run (ref_call B) {| acting := None; current := cur; finished := fin |} (flat_map (fun x => [Act true x; Observe true (earned x) (ended x) false]) l) in
  let f := fin ++ [cur ++ ref_steps l] in
  if length f =? B then p = ref_init /\ concat outs = [f] else p = {| acting := None; current := []; finished := f |} /\ concat outs = [].
Proof.
  induction l as [|x l IH]; intros s cur H; [destruct H|]. cbn [flat_map app run ref_call acting current finished].
  destruct l as [|y l].
  - destruct H as [_ ->]. cbn [flat_map app run ref_call acting current finished ref_steps]. destruct (length (fin ++ [cur ++ [(x, earned x)]]) =? B); split; reflexivity.
  - destruct H as (_ & -> & H). specialize (IH (reached x) (cur ++ [(x, earned x)]) H). cbn [run ref_call acting current finished] in IH |- *.
    destruct (run (ref_call B) {| acting := None; current := cur ++ [(x, earned x)]; finished := fin |} _) as [p outs]. cbv zeta in IH |- *. rewrite <- app_assoc in IH. cbn [app] in IH. change (ref_steps (x :: y :: l)) with ((x, earned x) :: ref_steps (y :: l)). cbn [concat app]. exact IH.
Qed.
Lemma ref_batch B ls : forall fin, Forall (fun l => exists s, ends_with s l) ls -> ls <> [] -> length fin + length ls = B ->
  concat (snd (run (ref_call B) {| acting := None; current := []; finished := fin |} (calls ls))) = [fin ++ map ref_steps ls].
Proof.
  induction ls as [|l ls IH]; intros fin H N E; [now destruct N|]. assert (Hl : exists s, ends_with s l) by (inversion H; assumption). assert (Hls : Forall (fun l => exists s, ends_with s l) ls) by (inversion H; assumption). destruct Hl as [s Hl].
  assert (EC : calls (l :: ls) = flat_map (fun x => [Act true x; Observe true (earned x) (ended x) false]) l ++ calls ls) by (unfold calls; cbn [concat]; apply flat_map_app). rewrite EC, run_app.
  pose proof (ref_episode B fin l s [] Hl) as R. destruct (run (ref_call B) {| acting := None; current := []; finished := fin |} (flat_map (fun x => [Act true x; Observe true (earned x) (ended x) false]) l)) as [p outs]. cbv zeta in R. rewrite app_length in R. cbn [length app] in R, E.
  destruct ls as [|l2 ls].
  - cbn [length] in E. rewrite E, Nat.eqb_refl in R. destruct R as [-> R]. cbn [calls concat flat_map run snd map]. now rewrite app_nil_r.
  - cbn [length] in E. destruct (Nat.eqb_spec (length fin + 1) B) as [Q|_]; [lia|]. destruct R as [-> R]. specialize (IH (fin ++ [ref_steps l]) Hls ltac:(discriminate)). rewrite app_length in IH. cbn [length] in IH. specialize (IH ltac:(lia)).
    destruct (run (ref_call B) {| acting := None; current := []; finished := fin ++ [ref_steps l] |} (calls (l2 :: ls))) as [p2 outs2]. cbn [snd] in IH |- *. rewrite concat_app, R, IH, <- app_assoc. reflexivity.
Qed.
(** One update follows the episodes; its terms *)
Lemma one_update B sep ls : 1 <= B -> length ls = B -> Forall (fun l => exists s, ends_with s l) ls -> exists ts, updates B sep ls = [ts] /\ update_of shifted_return (map ref_steps ls) ts.
Proof.
  intros HB HL H. assert (U : Forall2 (update_of shifted_return) (concat (snd (run (ref_call B) ref_init (calls ls)))) (updates B sep ls)).
  { apply updates_spec. apply (run_ok B sep HB (calls ls) false); [apply calls_alternating|]. apply inv_init. exact HB. }
  unfold ref_init in U. rewrite (ref_batch B ls [] H) in U by (try (intros ->; cbn in HL; lia); exact HL). cbn [app] in U. inversion U as [|? ts ? rest U1 U2 E1 E2]. subst. inversion U2. subst. exists ts. auto.
Qed.
(** The coefficient of a step: the rewards after it and the last one again *)
Definition after (l : list step) : R := (all_rewards (tl l) + last_reward l)%R.
Section Direction.
Context (beta : R) (score : nat -> nat -> R) (dH : nat -> R).
Fixpoint episode_direction (l : list step) : R := match l with [] => 0%R | x :: r => (after l * score (at_state x) (took x) + beta * dH (at_state x) + episode_direction r)%R end.
Definition raw (ts : list (Q * step)) : R := fold_right (fun t acc => (Q2R (fst t) * score (at_state (snd t)) (took (snd t)) + beta * dH (at_state (snd t)) + acc)%R) 0%R ts.
Lemma sum_all l : Q2R (sum (map earned l)) = all_rewards l.
Proof. induction l as [|x l IH]; cbn [map all_rewards]; [unfold Q2R; cbn; field|]. change (sum (earned x :: map earned l)) with (earned x + sum (map earned l))%Q. now rewrite Q2R_plus, IH. Qed.
Lemma last_all x l : Q2R (last (map earned (x :: l)) 0%Q) = last_reward (x :: l).
Proof. revert x. induction l as [|y l IH]; intros x; [reflexivity|]. exact (IH y). Qed.
Lemma last_suffix l : forall t x r, skipn t l = x :: r -> last (map earned l) 0%Q = last (map earned (x :: r)) 0%Q.
Proof. induction l as [|y l IH]; intros t x r E; [destruct t; discriminate E|]. destruct t as [|t]; [cbn [skipn] in E; now rewrite E|]. cbn [skipn] in E. rewrite <- (IH t x r E). destruct l as [|z l]; [destruct t; discriminate E|reflexivity]. Qed.
Lemma raw_suffix l ts : map snd ts = l -> (forall t c k, nth_error ts t = Some (c, k) -> Q2R c = after (skipn t l)) -> raw ts = episode_direction l.
Proof.
  revert ts. induction l as [|x l IH]; intros ts E H; destruct ts as [|[c k] ts]; try discriminate E; [reflexivity|]. cbn [map snd] in E. injection E as -> E. cbn [raw fold_right fst snd episode_direction]. fold (raw ts).
  rewrite (IH ts E) by (intros t c' k' N; exact (H (S t) c' k' N)). rewrite (H 0 c x eq_refl). reflexivity.
Qed.
Lemma raw_terms l ts : terms_of shifted_return (ref_steps l) ts -> raw ts = episode_direction l.
Proof.
  intros [E H]. assert (M1 : map fst (ref_steps l) = l) by (rewrite ref_steps_map, map_map; apply map_id). assert (M2 : map snd (ref_steps l) = map earned l) by (rewrite ref_steps_map, map_map; reflexivity).
  rewrite M1 in E. rewrite M2 in H. apply raw_suffix; [exact E|]. intros t c k N. rewrite (Qeq_eqR _ _ (H t c k N)). unfold shifted_return. rewrite Q2R_plus. assert (Ht : t < length l) by (rewrite <- E, map_length; apply nth_error_Some; congruence).
  destruct (skipn t l) as [|x r] eqn:ES; [apply (f_equal (@length step)) in ES; rewrite skipn_length in ES; cbn in ES; lia|]. unfold after. rewrite (last_suffix l t x r ES), last_all, skipn_map, sum_all. f_equal. f_equal.
  cbn [tl]. replace (S t) with (t + 1) by lia. clear -ES. revert l ES. induction t as [|t IH]; intros [|y l] ES; cbn in *; try discriminate; [now injection ES|]. now apply IH.
Qed.
Lemma raw_app a b : raw (a ++ b) = (raw a + raw b)%R.
Proof. induction a as [|t a IH]; cbn [app]; [unfold raw at 2; cbn [fold_right]; ring|]. cbn [raw fold_right]. fold (raw (a ++ b)). fold (raw a). rewrite IH. ring. Qed.
Fixpoint batch_direction (ls : list (list step)) : R := match ls with [] => 0%R | l :: ls => (episode_direction l + batch_direction ls)%R end.
Lemma raw_batch ls ts : update_of shifted_return (map ref_steps ls) ts -> raw ts = batch_direction ls.
Proof.
  intros (tss & -> & H). revert tss H. induction ls as [|l ls IH]; intros tss H; inversion H as [|? t ? tss' H1 H2]; subst; [reflexivity|]. cbn [concat batch_direction]. now rewrite raw_app, (raw_terms l t H1), (IH tss' H2).
Qed.
Lemma move_value B sep ls : 1 <= B -> length ls = B -> Forall (fun l => exists s, ends_with s l) ls -> move B sep beta score dH ls = (batch_direction ls / INR B)%R.
Proof. intros HB HL H. destruct (one_update B sep ls HB HL H) as (ts & E & U). unfold move. rewrite E. unfold direction. fold (raw ts). now rewrite (raw_batch ls ts U). Qed.
End Direction.
Section Batches.
Context (D : problem) (W : well_formed D) (pi : nat -> nat -> R) (HP : forall s, over_actions (seq 0 (S (last_action D))) (pi s) = 1%R).
Lemma ba_ext T s n : forall f g, (forall ls, length ls = n -> Forall (fun l => exists s, ends_with s l) ls -> f ls = g ls) -> batches D pi n T s f = batches D pi n T s g.
Proof. induction n as [|n IH]; intros f g H; cbn [batches]; [now apply H|]. apply ep_ext. intros l Hl. apply IH. intros ls E Hls. apply H; [cbn; now rewrite E|]. constructor; eauto. Qed.
Lemma ba_const T s n k : s < states D -> ends D T s -> batches D pi n T s (fun _ => k) = k.
Proof. intros Hs H. induction n as [|n IH]; cbn [batches]; [reflexivity|]. rewrite IH. now apply ep_const. Qed.
Lemma ba_plus T s n : forall f g, batches D pi n T s (fun ls => f ls + g ls)%R = (batches D pi n T s f + batches D pi n T s g)%R.
Proof. induction n as [|n IH]; intros f g; cbn [batches]; [reflexivity|]. rewrite <- ep_plus. apply ep_ext. intros l _. apply IH. Qed.
Lemma ba_scal T s n : forall k f, batches D pi n T s (fun ls => k * f ls)%R = (k * batches D pi n T s f)%R.
Proof. induction n as [|n IH]; intros k f; cbn [batches]; [reflexivity|]. rewrite <- ep_scal. apply ep_ext. intros l _. apply IH. Qed.
Lemma ba_direction beta score dH T s n : s < states D -> ends D T s -> batches D pi n T s (batch_direction beta score dH) = (INR n * episodes D pi T s (episode_direction beta score dH))%R.
Proof.
  intros Hs H. induction n as [|n IH]; [cbn [batches batch_direction INR]; ring|]. cbn [batches]. rewrite (ep_ext D pi T s _ (fun l => episode_direction beta score dH l + INR n * episodes D pi T s (episode_direction beta score dH))%R).
  - rewrite ep_plus, (ep_const D W pi HP T s _ Hs H). rewrite S_INR. ring.
  - intros l _. cbn [batch_direction]. rewrite ba_plus, (ba_const T s n _ Hs H), IH. reflexivity.
Qed.
Lemma expected_move B sep beta score dH T s : 1 <= B -> s < states D -> ends D T s -> batches D pi B T s (move B sep beta score dH) = episodes D pi T s (episode_direction beta score dH).
Proof.
  intros HB Hs H. rewrite (ba_ext T s B _ (fun ls => / INR B * batch_direction beta score dH ls)%R).
  - rewrite ba_scal, (ba_direction _ _ _ T s B Hs H). field. apply not_0_INR. lia.
  - intros ls E Hls. rewrite (move_value beta score dH B sep ls HB E Hls). unfold Rdiv. ring.
Qed.
End Batches.
Lemma direction_split beta score dH l s : ends_with s l -> episode_direction beta score dH l =
  (weighted score 1 all_rewards l + weighted score 1 last_reward l - over_steps l (fun x => Q2R (earned x) * score (at_state x) (took x)) + beta * over_steps l (fun x => dH (at_state x)))%R.
Proof.
  revert s. induction l as [|x l IH]; intros s H; [destruct H|]. assert (I : l = [] \/ ends_with (reached x) l) by (destruct l; [now left|right; apply H]). cbn [episode_direction weighted over_steps]. unfold after. cbn [tl]. cbn [all_rewards].
  destruct I as [->|I]; [cbn [episode_direction weighted over_steps all_rewards]; ring|]. rewrite (IH _ I). ring.
Qed.
