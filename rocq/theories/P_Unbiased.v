(** Proofs for C137: linearity of the expectation, and the general recursion of which all estimates are instances. *)
From Coq Require Import Setoid Morphisms QArith Lqa.
From Verif Require Import Base P_Base S_ValueIteration S_Unbiased.
Close Scope Q_scope. Open Scope nat_scope.

Lemma mean_ext {X} (l : list (Q * X)) f g : Forall (fun x => (f (snd x) == g (snd x))%Q) l -> (mean l f == mean l g)%Q.
Proof. intros H. induction H as [|[p x] l Hx H IH]; cbn [mean]; [reflexivity|]. cbn [snd] in Hx. rewrite Hx, IH. reflexivity. Qed.
Lemma mean_ext_all {X} (l : list (Q * X)) f g : (forall x, (f x == g x)%Q) -> (mean l f == mean l g)%Q.
Proof. intros H. apply mean_ext. apply Forall_forall. auto. Qed.
Lemma mean_linear {X} (l : list (Q * X)) c k f : (mean l (fun x => c + k * f x) == c * mean l (fun _ => 1) + k * mean l f)%Q.
Proof. induction l as [|[p x] l IH]; cbn [mean]; [ring|]. rewrite IH. ring. Qed.
Lemma mean_plus {X} (l : list (Q * X)) f g : (mean l (fun x => f x + g x) == mean l f + mean l g)%Q.
Proof. induction l as [|[p x] l IH]; cbn [mean]; [ring|]. rewrite IH. ring. Qed.
Lemma mean_one (l : list (Q * (Q * nat * bool))) : (mean l (fun _ => 1) == total_probability l)%Q.
Proof. induction l as [|[p x] l IH]; cbn [mean total_probability]; [reflexivity|]. rewrite IH. ring. Qed.

Section Core.
Context (D : problem) (W : well_formed D) (policy : nat -> list (Q * nat)) (HP : random_policy D policy) (stop : list step -> bool).
Notation expected := (expected D policy stop).
Notation given_action := (given_action D policy stop).

(** Steps that follow one another from state [s] within the problem; only the last may be terminal. *)
Inductive runs : nat -> list step -> Prop :=
| runs_nil s : s < states D -> runs s []
| runs_end s a r s' : s < states D -> s' < states D -> a <= last_action D -> runs s [mkStep s a r s' true]
| runs_cons s a r s' l : s < states D -> a <= last_action D -> runs s' l -> runs s (mkStep s a r s' false :: l).
Lemma runs_state s l : runs s l -> s < states D. Proof. intros H. destruct H; assumption. Qed.

Lemma outcome_states s a : s < states D -> a <= last_action D -> Forall (fun o => let '(_, s', _) := snd o in s' < states D) (outcomes D s a).
Proof. intros Hs Ha. destruct (W s a Hs Ha) as [_ G]. revert G. apply Forall_impl. intros [p [[r s'] t]] [_ H]. exact H. Qed.
Lemma policy_actions s : s < states D -> Forall (fun a => snd a <= last_action D) (policy s). Proof. intros Hs. apply (HP s Hs). Qed.
Lemma outcomes_one s a : s < states D -> a <= last_action D -> (mean (outcomes D s a) (fun _ => 1) == 1)%Q.
Proof. intros Hs Ha. rewrite mean_one. apply (W s a Hs Ha). Qed.

Lemma given_ext_with T : (forall past s f g, s < states D -> (forall l, runs s l -> (f l == g l)%Q) -> (expected T past s f == expected T past s g)%Q) ->
  forall past s a f g, s < states D -> a <= last_action D -> (forall x l, runs s (x :: l) -> took x = a -> (f (x :: l) == g (x :: l))%Q) -> (given_action T past s a f == given_action T past s a g)%Q.
Proof.
  intros IH past s a f g Hs Ha H. unfold S_Unbiased.given_action, given_step. apply mean_ext. pose proof (outcome_states s a Hs Ha) as HO. revert HO. apply Forall_impl. intros [p [[r s'] tm]] Hs'. cbn [snd] in *. destruct tm.
  - apply H; [now constructor|reflexivity].
  - apply IH; [exact Hs'|]. intros l Hl. apply H; [now constructor|reflexivity].
Qed.
Lemma expected_ext T : forall past s f g, s < states D -> (forall l, runs s l -> (f l == g l)%Q) -> (expected T past s f == expected T past s g)%Q.
Proof.
  induction T as [|T IH]; intros past s f g Hs H; cbn [S_Unbiased.expected]; [apply H; now constructor|]. destruct (stop past); [apply H; now constructor|]. apply mean_ext. pose proof (policy_actions s Hs) as HA. revert HA. apply Forall_impl. intros [p a] Ha. cbn [snd] in *.
  apply (given_ext_with T IH past s a f g Hs Ha). intros x l Hl _. now apply H.
Qed.
Lemma given_ext T past s a f g : s < states D -> a <= last_action D -> (forall x l, runs s (x :: l) -> took x = a -> (f (x :: l) == g (x :: l))%Q) -> (given_action T past s a f == given_action T past s a g)%Q.
Proof. apply given_ext_with. apply expected_ext. Qed.

Lemma given_linear_with T : (forall past s c k f, s < states D -> (expected T past s (fun l => c + k * f l) == c + k * expected T past s f)%Q) ->
  forall past s a c k f, s < states D -> a <= last_action D -> (given_action T past s a (fun l => c + k * f l) == c + k * given_action T past s a f)%Q.
Proof.
  intros IH past s a c k f Hs Ha. unfold S_Unbiased.given_action, given_step.
  rewrite (mean_ext _ _ (fun o => c + k * (let '(r, s', terminal) := o in let x := mkStep s a r s' terminal in if terminal : bool then f [x] else expected T (past ++ [x]) s' (fun rest => f (x :: rest))))%Q).
  - rewrite mean_linear. pose proof (outcomes_one s a Hs Ha) as H1. rewrite H1. cbv zeta. ring.
  - pose proof (outcome_states s a Hs Ha) as HO. revert HO. apply Forall_impl. intros [p [[r s'] tm]] Hs'. cbn [snd] in *. destruct tm; [reflexivity|]. apply (IH _ s' c k (fun rest => f (_ :: rest)) Hs').
Qed.
Lemma expected_linear T : forall past s c k f, s < states D -> (expected T past s (fun l => c + k * f l) == c + k * expected T past s f)%Q.
Proof.
  induction T as [|T IH]; intros past s c k f Hs; cbn [S_Unbiased.expected]; [reflexivity|]. destruct (stop past); [reflexivity|].
  rewrite (mean_ext _ _ (fun a => c + k * given_action T past s a f)%Q); [rewrite mean_linear; destruct (HP s Hs) as [H1 _]; rewrite H1; unfold S_Unbiased.given_action; ring|].
  pose proof (policy_actions s Hs) as HA. revert HA. apply Forall_impl. intros [p a] Ha. cbn [snd] in *. now apply (given_linear_with T IH).
Qed.
Lemma given_linear T past s a c k f : s < states D -> a <= last_action D -> (given_action T past s a (fun l => c + k * f l) == c + k * given_action T past s a f)%Q.
Proof. apply given_linear_with. apply expected_linear. Qed.

(** ** The general estimate: [est s rest] estimates the value of [s], [tgt s (x :: rest)] that of the action taken. *)
Context (gamma : Q) (v : nat -> Q).
Notation qv := (action_value D gamma v).
Section General.
Context (lambda : Q) (k j : nat -> nat -> Q) (est tgt : nat -> list step -> Q).
Context (Hnil : forall s, s < states D -> (est s [] == v s)%Q).
Context (Htgt_end : forall s a r s', s < states D -> a <= last_action D -> (tgt s [mkStep s a r s' true] == r)%Q).
Context (Htgt : forall s a r s' l, s < states D -> a <= last_action D -> runs s' l -> (tgt s (mkStep s a r s' false :: l) == r + gamma * ((1 - lambda) * v s' + lambda * est s' l))%Q).
Context (Hest : forall s x l, runs s (x :: l) -> (est s (x :: l) == v s + k s (took x) * (tgt s (x :: l) - qv s (took x)) + j s (took x) * (qv s (took x) - v s))%Q).
Context (Hj : forall s, s < states D -> (mean (policy s) (fun a => j s a * (qv s a - v s)) == 0)%Q).
Lemma target_with T : (forall past s, s < states D -> (expected T past s (est s) == v s)%Q) -> forall past s a, s < states D -> a <= last_action D -> (given_action T past s a (tgt s) == qv s a)%Q.
Proof.
  intros IH past s a Hs Ha. unfold S_Unbiased.given_action, given_step, action_value. apply mean_ext. pose proof (outcome_states s a Hs Ha) as HO. revert HO. apply Forall_impl. intros [p [[r s'] tm]] Hs'. cbn [snd] in *. destruct tm.
  - rewrite (Htgt_end s a r s' Hs Ha). ring.
  - rewrite (expected_ext T _ s' _ (fun l => (r + gamma * (1 - lambda) * v s') + (gamma * lambda) * est s' l)%Q Hs').
    + rewrite (expected_linear T _ s' _ _ (est s') Hs'), (IH _ s' Hs'). ring.
    + intros l Hl. rewrite (Htgt s a r s' l Hs Ha Hl). ring.
Qed.
Lemma est_mean T : forall past s, s < states D -> (expected T past s (est s) == v s)%Q.
Proof.
  induction T as [|T IH]; intros past s Hs; cbn [S_Unbiased.expected]; [now apply Hnil|]. destruct (stop past); [now apply Hnil|].
  rewrite (mean_ext _ _ (fun a => v s + 1 * (j s a * (qv s a - v s)))%Q).
  - rewrite mean_linear. destruct (HP s Hs) as [H1 _]. rewrite H1, (Hj s Hs). ring.
  - pose proof (policy_actions s Hs) as HA. revert HA. apply Forall_impl. intros [p a] Ha. cbn [snd] in *. change (given_step D (S_Unbiased.expected D policy stop T) past s a (est s)) with (given_action T past s a (est s)).
    rewrite (given_ext T past s a (est s) (fun l => (v s - k s a * qv s a + j s a * (qv s a - v s)) + k s a * tgt s l)%Q Hs Ha).
    + rewrite (given_linear T past s a _ _ (tgt s) Hs Ha), (target_with T IH past s a Hs Ha). ring.
    + intros x l Hl Hx. rewrite (Hest s x l Hl), Hx. ring.
Qed.
Lemma tgt_mean T past s a : s < states D -> a <= last_action D -> (given_action T past s a (tgt s) == qv s a)%Q.
Proof. apply target_with. apply est_mean. Qed.
End General.

(** ** Complete episodes *)
Definition complete (l : list step) : Prop := exists l' x, l = l' ++ [x] /\ ended x = true.
Lemma complete_ext T : forall past s f g, s < states D -> always_ends D policy stop T past s -> (forall l, runs s l -> complete l -> (f l == g l)%Q) -> (expected T past s f == expected T past s g)%Q.
Proof.
  induction T as [|T IH]; intros past s f g Hs HE H; cbn [always_ends] in HE; [destruct HE|]. destruct HE as [E HE]. cbn [S_Unbiased.expected]. rewrite E. apply mean_ext.
  pose proof (policy_actions s Hs) as HA. rewrite Forall_forall in *. intros [p a] Hin. specialize (HE _ Hin). specialize (HA _ Hin). cbn [snd] in *. unfold given_step. apply mean_ext. pose proof (outcome_states s a Hs HA) as HO. rewrite Forall_forall in *. intros [p' [[r s'] tm]] Hin'. specialize (HE _ Hin'). specialize (HO _ Hin'). cbn [snd] in *.
  destruct tm.
  - apply H; [now constructor|]. exists [], (mkStep s a r s' true). split; reflexivity.
  - destruct HE as [HE|HE]; [discriminate|]. apply IH; [exact HO|exact HE|]. intros l Hl (l' & x & -> & Hx). apply H; [now constructor|]. exists (mkStep s a r s' false :: l'), x. split; [reflexivity|exact Hx].
Qed.
Lemma complete_given T past s a f g : s < states D -> a <= last_action D ->
  Forall (fun o => let '(r, s', terminal) := snd o in terminal = true \/ always_ends D policy stop T (past ++ [mkStep s a r s' terminal]) s') (outcomes D s a) ->
  (forall x l, runs s (x :: l) -> took x = a -> complete (x :: l) -> (f (x :: l) == g (x :: l))%Q) -> (given_action T past s a f == given_action T past s a g)%Q.
Proof.
  intros Hs Ha HE H. unfold S_Unbiased.given_action, given_step. apply mean_ext. pose proof (outcome_states s a Hs Ha) as HO. rewrite Forall_forall in *. intros [p' [[r s'] tm]] Hin'. specialize (HE _ Hin'). specialize (HO _ Hin'). cbn [snd] in *.
  destruct tm.
  - apply H; [now constructor|reflexivity|]. exists [], (mkStep s a r s' true). split; reflexivity.
  - destruct HE as [HE|HE]; [discriminate|]. apply complete_ext; [exact HO|exact HE|]. intros l Hl (l' & x & -> & Hx). apply H; [now constructor|reflexivity|]. exists (mkStep s a r s' false :: l'), x. split; [reflexivity|exact Hx].
Qed.
(** discounted sum of rewards *)
Fixpoint rewards_sum (l : list step) : Q := match l with [] => 0%Q | x :: l => (earned x + gamma * rewards_sum l)%Q end.
Fixpoint boot (s : nat) (l : list step) : Q := match l with [] => v s | x :: l => (earned x + gamma * (if ended x then 0 else boot (reached x) l))%Q end.
Lemma boot_complete s l : runs s l -> complete l -> (boot s l == rewards_sum l)%Q.
Proof.
  intros H. induction H as [s Hs|s a r s' Hs Hs' Ha|s a r s' l Hs Ha H IH]; intros C; cbn [boot rewards_sum earned ended reached].
  - destruct C as ([|y l'] & x & E & _); discriminate.
  - reflexivity.
  - rewrite IH; [reflexivity|]. destruct C as (l' & x & E & Hx). destruct l' as [|y l']; cbn [app] in E; injection E as E1 E2; [subst x; discriminate Hx|]. subst l. exists l', x. auto.
Qed.
Context (HV : exact_values D gamma policy v).
Lemma on_policy s : s < states D -> (mean (policy s) (fun a => 1 * (qv s a - v s)) == 0)%Q.
Proof.
  intros Hs. rewrite (mean_ext_all _ _ (fun a => (- v s) + 1 * qv s a)%Q) by (intros a; ring). rewrite mean_linear. destruct (HP s Hs) as [H1 _]. rewrite H1. change (mean (policy s) (fun x => qv s x)) with (mean (policy s) (qv s)). rewrite <- (HV s Hs). ring.
Qed.
Lemma boot_mean T past s a : s < states D -> a <= last_action D -> (given_action T past s a (boot s) == qv s a)%Q.
Proof.
  intros Hs Ha. apply (tgt_mean 1%Q (fun _ _ => 1%Q) (fun _ _ => 1%Q) boot boot); [reflexivity| | |intros; ring|apply on_policy|exact Hs|exact Ha].
  - intros. cbn [boot earned ended reached]. ring.
  - intros. cbn [boot earned ended reached]. ring.
Qed.
Lemma rewards_mean T past s a : s < states D -> a <= last_action D ->
  Forall (fun o => let '(r, s', terminal) := snd o in terminal = true \/ always_ends D policy stop T (past ++ [mkStep s a r s' terminal]) s') (outcomes D s a) -> (given_action T past s a rewards_sum == qv s a)%Q.
Proof.
  intros Hs Ha HE. rewrite <- (boot_mean T past s a Hs Ha). symmetry. apply complete_given; [exact Hs|exact Ha|exact HE|]. intros x l Hl _ C. now apply boot_complete.
Qed.
End Core.
