(** C72: truncated importance weighting with bias correction is unbiased. *)
From Coq Require Import QArith Qminmax Qabs Qfield Lqa.
From Verif Require Import Base P_Base M_AcerLoss S_AcerLoss P_AcerLoss.
Open Scope Q_scope.

(** Probabilities of the same actions, all positive, summing up to 1. *)
Definition distribution (n : nat) (p : list Q) : Prop := length p = n /\ (forall a, (a < n)%nat -> 0 < nth a p 0) /\ expect p (fun _ => 1) == 1.

Section U.
  Variables (n : nat) (pi mu logits q : list Q) (v : Q).
  Hypothesis Hpi : distribution n pi.
  Hypothesis Hmu : distribution n mu.
  Variable adv : nat -> Q.   (* the advantage estimate used when the action is a *)
  (** What on-policy learning minimises on average: - log pi(a) times advantage, a from pi. *)
  Definition on_policy (f : nat -> Q) : Q := expect pi (fun a => - nth a logits 0 * f a).

  Lemma corr_sum c : full_correction pi mu logits q v c == on_policy (fun a => relu (1 - c * (nth a mu 0 / nth a pi 0)) * (nth a q 0 - v)).
  Proof.
    unfold full_correction, on_policy, expect, qsum, importance, qget. destruct Hpi as (L & _).
    induction (seq 0 (length pi)) as [|a l IH]; cbn [map fold_right]; [reflexivity|]. rewrite Qopp_plus, IH. ring.
  Qed.
  Lemma truncated_part c :
    expect mu (fun a => 0 - Qmin c (importance pi mu a) * nth a logits 0 * adv a) == on_policy (fun a => Qmin 1 (c * (nth a mu 0 / nth a pi 0)) * adv a).
  Proof.
    destruct Hpi as (L & Hp & _), Hmu as (L' & Hm & _). unfold on_policy. apply expect_change; [congruence|]. intros a Ha. rewrite L' in Ha.
    destruct (split_weight (nth a pi 0) (nth a mu 0) c (Hp a Ha) (Hm a Ha)) as [E _]. unfold importance, qget.
    setoid_replace (nth a mu 0 * (0 - Qmin c (nth a pi 0 / nth a mu 0) * nth a logits 0 * adv a))
      with (- (nth a mu 0 * Qmin c (nth a pi 0 / nth a mu 0)) * nth a logits 0 * adv a) by ring. rewrite E. ring.
  Qed.
  Lemma combine_parts c :
    on_policy (fun a => Qmin 1 (c * (nth a mu 0 / nth a pi 0)) * adv a) + on_policy (fun a => relu (1 - c * (nth a mu 0 / nth a pi 0)) * (nth a q 0 - v)) ==
    on_policy (fun a => let w := relu (1 - c * (nth a mu 0 / nth a pi 0)) in (1 - w) * adv a + w * (nth a q 0 - v)).
  Proof.
    destruct Hpi as (L & Hp & _), Hmu as (L' & Hm & _). unfold on_policy. rewrite <- expect_plus. apply expect_ext. intros a Ha. rewrite L in Ha.
    destruct (split_weight (nth a pi 0) (nth a mu 0) c (Hp a Ha) (Hm a Ha)) as [_ E]. cbv zeta.
    setoid_replace (1 - relu (1 - c * (nth a mu 0 / nth a pi 0))) with (Qmin 1 (c * (nth a mu 0 / nth a pi 0))) by lra. ring.
  Qed.

  (** Discrete actions.  The loss, averaged over actions taken from mu, is the average over pi of - log pi(a) times a mixture of the advantage estimate
      and Q(a) - v, with the weight [w] of the latter between 0 and 1 (for a threshold >= 0) and positive only where pi(a) / mu(a) exceeds the threshold. *)
Theorem C72_mixture (c : Q) (b : nat) : exists loss, (forall a, policy_gradient_loss true a (adv a) pi (Some mu) logits q v (Some c) b = Ok (loss a)) /\
    let w a := relu (1 - c * (nth a mu 0 / nth a pi 0)) in
    expect mu loss == on_policy (fun a => (1 - w a) * adv a + w a * (nth a q 0 - v)) /\
    forall a, (a < n)%nat -> 0 <= w a /\ (0 <= c -> w a <= 1) /\ (0 < w a -> c < nth a pi 0 / nth a mu 0).
  Proof.
    exists (fun a => 0 - Qmin c (importance pi mu a) * qget logits a * adv a + full_correction pi mu logits q v c). split; [reflexivity|]. cbv zeta. split.
    - rewrite expect_plus. rewrite (expect_ext mu (fun _ => full_correction pi mu logits q v c) (fun _ => full_correction pi mu logits q v c * 1)) by (intros; ring).
      rewrite expect_scale. destruct Hmu as (_ & _ & S1). rewrite S1, Qmult_1_r. unfold qget at 1. rewrite truncated_part, corr_sum. rewrite combine_parts. reflexivity.
    - intros a Ha. destruct Hpi as (_ & Hp & _), Hmu as (_ & Hm & _). specialize (Hp a Ha). specialize (Hm a Ha).
      assert (Hinv : 0 < nth a mu 0 / nth a pi 0) by (apply Qlt_shift_div_l; lra). unfold relu.
      split; [apply Q.le_max_l|]. split; [intros Hc; apply Q.max_lub; nra|].
      intros Hw. assert (H1 : c * (nth a mu 0 / nth a pi 0) < 1).
      { destruct (Qlt_le_dec (c * (nth a mu 0 / nth a pi 0)) 1) as [l|l]; [exact l|]. rewrite Q.max_l in Hw by lra. lra. }
      apply Qlt_shift_div_l; [exact Hm|]. setoid_replace (c * nth a mu 0) with (c * (nth a mu 0 / nth a pi 0) * nth a pi 0) by (field; lra). nra.
  Qed.

  (** With correct action values it is the on-policy loss, whatever the behaviour policy and the threshold. *)
Theorem C72_unbiased (c : Q) (b : nat) : (forall a, (a < n)%nat -> adv a == nth a q 0 - v) ->
    exists loss on, (forall a, policy_gradient_loss true a (adv a) pi (Some mu) logits q v (Some c) b = Ok (loss a)) /\
      (forall a, policy_gradient_loss true a (adv a) pi None logits q v (Some c) b = Ok (on a)) /\ expect mu loss == expect pi on.
  Proof.
    intros Ha. destruct (C72_mixture c b) as (loss & H1 & H2 & _). exists loss, (fun a => - qget logits a * adv a). split; [exact H1|]. split; [reflexivity|].
    rewrite H2. unfold on_policy. destruct Hpi as (L & _). apply expect_ext. intros a Hlt. rewrite L in Hlt. unfold qget. rewrite (Ha a Hlt). ring.
  Qed.

  (** Without truncation it is unbiased for any advantage estimate. *)
Theorem C72_untruncated (discrete : bool) (b : nat) :
    exists loss, (forall a, policy_gradient_loss discrete a (adv a) pi (Some mu) logits q v None b = Ok (loss a)) /\ expect mu loss == on_policy adv.
  Proof.
    exists (fun a => 0 - importance pi mu a * qget logits a * adv a). split; [reflexivity|]. destruct Hpi as (L & Hp & _), Hmu as (L' & Hm & _).
    unfold on_policy. apply expect_change; [congruence|]. intros a Ha. rewrite L' in Ha. specialize (Hp a Ha). specialize (Hm a Ha). unfold importance, qget. field. lra.
  Qed.

  (** Continuous actions (over finitely many points): the same average if the second action is sampled from pi; never an assertion failure. *)
Theorem C72_sampled (c : Q) : 0 <= c ->
    exists loss, (forall a b, (b < n)%nat -> policy_gradient_loss false a (adv a) pi (Some mu) logits q v (Some c) b = Ok (loss a b)) /\
      let w a := relu (1 - c * (nth a mu 0 / nth a pi 0)) in
      expect mu (fun a => expect pi (loss a)) == on_policy (fun a => (1 - w a) * adv a + w a * (nth a q 0 - v)).
  Proof.
    intros Hc. set (w := fun a => relu (1 - c * (nth a mu 0 / nth a pi 0))). pose proof Hpi as (L & Hp & S1). pose proof Hmu as (L' & Hm & S2).
    set (corr := fun b => if negb (Qle_bool c 0) && Qle_bool (1 / c) (importance mu pi b) then 0 else - (w b * qget logits b * (qget q b - v))).
    exists (fun a b => 0 - Qmin c (importance pi mu a) * qget logits a * adv a + corr b). split.
    - intros a b Hb. cbn [policy_gradient_loss]. unfold sample_correction, corr. destruct (negb (Qle_bool c 0) && _); cbn [rbind]; [reflexivity|].
      assert (E : Qle_bool (Qmax 0 (1 - c * importance mu pi b)) 1 = true).
      { apply Qle_bool_iff. specialize (Hp b Hb). specialize (Hm b Hb). assert (Hinv : 0 < nth b mu 0 / nth b pi 0) by (apply Qlt_shift_div_l; lra).
        unfold importance, qget. apply Q.max_lub; nra. }
      rewrite E. reflexivity.
    - cbv zeta. fold w. assert (Ecorr : forall b, (b < n)%nat -> corr b == - nth b logits 0 * (w b * (nth b q 0 - v))).
      { intros b Hb. unfold corr. destruct (negb (Qle_bool c 0) && Qle_bool (1 / c) (importance mu pi b)) eqn:E; [|unfold qget; ring].
        apply andb_true_iff in E. destruct E as [E1 E2]. apply negb_true_iff in E1. apply Qle_bool_iff in E2.
        assert (Hc0 : 0 < c) by (destruct (Qlt_le_dec 0 c) as [l|l]; [exact l|apply Qle_bool_iff in l; congruence]).
        assert (Hw : w b == 0).
        { unfold w, relu. apply Q.max_l. unfold importance, qget in E2. assert (1 <= c * (nth b mu 0 / nth b pi 0)); [|lra].
          apply (Qmult_le_l _ _ c Hc0) in E2. setoid_replace (c * (1 / c)) with 1 in E2 by (field; lra). exact E2. }
        rewrite Hw. ring. }
      rewrite (expect_ext mu (fun a => expect pi (fun b => 0 - Qmin c (importance pi mu a) * qget logits a * adv a + corr b))
                 (fun a => (0 - Qmin c (importance pi mu a) * qget logits a * adv a) + expect pi corr * 1)).
      2:{ intros a _. rewrite expect_plus.
          rewrite (expect_ext pi (fun _ => 0 - Qmin c (importance pi mu a) * qget logits a * adv a) (fun _ => (0 - Qmin c (importance pi mu a) * qget logits a * adv a) * 1)) by (intros; ring).
          rewrite expect_scale, S1. ring. }
      rewrite expect_plus, expect_scale, S2. unfold qget at 1. rewrite truncated_part.
      rewrite (expect_ext pi corr (fun a => - nth a logits 0 * (w a * (nth a q 0 - v)))) by (intros a Ha; apply Ecorr; lia).
      rewrite Qmult_1_r. apply combine_parts.
  Qed.
End U.

(** The effective weight of the action taken never exceeds the threshold: the loss without correction is linear in log pi(a) with this factor. *)
Theorem C72_truncated (discrete : bool) a adv pi mu logits q v c b loss corr : 0 <= c ->
  policy_gradient_loss discrete a adv pi (Some mu) logits q v (Some c) b = Ok loss ->
  (if discrete then Ok (full_correction pi mu logits q v c) else sample_correction pi mu logits q v c b) = Ok corr ->
  exists w, w <= c /\ w <= nth a pi 0 / nth a mu 0 /\ loss == - (w * nth a logits 0 * adv) + corr.
Proof.
  intros Hc H Hcorr. cbn [policy_gradient_loss] in H. rewrite Hcorr in H. cbn [rbind] in H. injection H as <-.
  exists (Qmin c (importance pi mu a)). split; [apply Q.le_min_l|]. split; [apply Q.le_min_r|]. unfold qget. ring.
Qed.

(** Two actions, pi = (1/4, 3/4), mu = (3/4, 1/4), threshold 1: the second action's weight 3 is cut to 1. *)
Example C72_ex_hyp : distribution 2 [1#4; 3#4] /\ distribution 2 [3#4; 1#4].
Proof. split; (split; [reflexivity|]; split; [|vm_compute; reflexivity]; intros [|[|a]] Ha; [cbn; lra|cbn; lra|lia]). Qed.
Example C72_ex : exists x, policy_gradient_loss true 1 2 [1#4; 3#4] (Some [3#4; 1#4]) [-(2#1); -(1#1)] [1; 5] 3 (Some 1) 0 = Ok x /\ x == 2 + (2#3) * (3#4) * 1 * 2.
Proof. eexists. split; [reflexivity|]. vm_compute. reflexivity. Qed.

Print Assumptions C72_mixture.
Print Assumptions C72_unbiased.
Print Assumptions C72_untruncated.
Print Assumptions C72_sampled.
Print Assumptions C72_truncated.
