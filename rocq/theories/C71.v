(** C71: ACER's targets are Retrace targets. *)
From Coq Require Import QArith Qminmax Qabs Qfield Lqa.
From Verif Require Import Base P_Base S_PPO P_PPO M_AcerLoss S_AcerLoss P_AcerLoss.
Open Scope Q_scope.

(** For steps in the order of time: the target of the action value of step i is
      Q_i + sum_m gamma^m c_(i+1) ... c_(i+m) (r_(i+m) + gamma V_(i+m+1) - Q_(i+m)),
    V after the last step being R, with trace coefficients c = min(1, rho) for discrete actions and min(1, rho^(1/d)) otherwise; the advantage is that
    target, or the one with all coefficients 1 if use_Q_opc, minus V_i; for continuous actions V_i moves towards
    V_i + min(1, rho_i) (target - Q_i). *)
Theorem C71_targets (c : lcfg) (R : Q) (steps : list lstep) i x : nth_error steps i = Some x ->
  let step f k := f (nth k steps x) in
  let coef x := if l_discrete c then Qmin 1 (l_rho x) else Qmin 1 (l_root x) in
  let target := retrace (l_gamma c) R (length steps) (step l_r) (step l_v) (step l_q) (step coef) i in
  let target1 := retrace (l_gamma c) R (length steps) (step l_r) (step l_v) (step l_q) (fun _ => 1) i in
  exists qt adv vt, nth_error (snd (compute_loss c R steps)) i = Some (qt, adv, vt) /\ qt == target /\
    adv == (if use_Q_opc c then target1 else target) - l_v x /\
    if l_discrete c then vt = None else exists t, vt = Some t /\ t == l_v x + Qmin 1 (l_rho x) * (target - l_q x).
Proof.
  intros H step coef target target1. unfold compute_loss. fold (l_init R). rewrite lrun_fold. cbn [snd].
  destruct (lrun_out c R steps i x H) as (rest & E & ->). rewrite E. unfold lbody. cbn [l_out hd].
  assert (Hlt : (i < length steps)%nat) by (apply nth_error_Some; congruence).
  (* the specification's step function and the proofs' *)
  assert (EXT : forall f, (forall k, (k < length steps)%nat -> step f k == at_ f steps k)).
  { intros f k Hk. unfold step, at_. rewrite (nth_indep steps x dummy Hk). reflexivity. }
  assert (K : forall r v q cc r' v' q' cc', (forall k, (k < length steps)%nat -> r k == r' k) -> (forall k, (k < length steps)%nat -> v k == v' k) ->
     (forall k, (k < length steps)%nat -> q k == q' k) -> (forall k, (k < length steps)%nat -> cc k == cc' k) ->
     retrace (l_gamma c) R (length steps) r v q cc i == retrace (l_gamma c) R (length steps) r' v' q' cc' i).
  { intros r v q cc r' v' q' cc' Hr Hv Hq Hc. unfold retrace. rewrite (Hq i Hlt). apply Qplus_comp; [reflexivity|]. apply dsum_ext. intros m Hm. apply Qmult_comp.
    - unfold trace. assert (G : forall k, In k (seq (S i) m) -> cc k == cc' k) by (intros k Hk; apply in_seq in Hk; apply Hc; lia).
      induction (seq (S i) m) as [|k l IH]; cbn [fold_right]; [reflexivity|]. rewrite (G k) by (left; reflexivity). rewrite IH by (intros j Hj; apply G; right; exact Hj). reflexivity.
    - unfold td. rewrite (Hr (i + m)%nat), (Hq (i + m)%nat) by lia. destruct (Nat.eqb_spec (S (i + m)) (length steps)); [reflexivity|]. rewrite (Hv (S (i + m))) by lia. reflexivity. }
  assert (Eret : l_r x + l_gamma c * Q_ret (lrun c R (skipn (S i) steps)) == target).
  { rewrite lrun_ret. rewrite (tgt_nth (l_gamma c) R _ steps i x H). unfold ret, target. apply K; intros k Hk; symmetry; apply EXT; exact Hk. }
  assert (Eopc : l_r x + l_gamma c * Q_opc (lrun c R (skipn (S i) steps)) == target1).
  { rewrite lrun_opc. rewrite (tgt_nth (l_gamma c) R _ steps i x H). unfold ret, target1. apply K; intros k Hk; [symmetry; apply EXT; exact Hk| | |reflexivity]; symmetry; apply EXT; exact Hk. }
  eexists _, _, _. split; [reflexivity|]. split; [exact Eret|]. split.
  - destruct (use_Q_opc c); [rewrite Eopc|rewrite Eret]; reflexivity.
  - destruct (l_discrete c); [reflexivity|]. eexists. split; [reflexivity|]. rewrite Eret. ring.
Qed.

(** The loss: the policy terms for these advantages and half the squared distances to these targets, weighted, divided by the number of steps if so
    configured. *)
Theorem C71_loss (c : lcfg) (R : Q) (steps : list lstep) :
  let outs := snd (compute_loss c R steps) in
  let pi_part := fold_right (fun p acc => l_pi (fst p) (snd (fst (snd p))) + acc) 0 (combine steps outs) in
  let q_part := fold_right (fun p acc => (fst (fst (snd p)) - l_q (fst p)) ^ 2 / 2 +
                               match snd (snd p) with Some t => (t - l_v (fst p)) ^ 2 / 2 | None => 0 end + acc) 0 (combine steps outs) in
  length outs = length steps /\
  fst (compute_loss c R steps) ==
    (l_pi_coef c * pi_part + l_Q_coef c * q_part) / (if normalize_loss_by_steps c then inject_Z (Z.of_nat (length steps)) else 1).
Proof.
  cbv zeta. unfold compute_loss. fold (l_init R). rewrite lrun_fold. cbn [fst snd]. split; [apply lrun_len|].
  destruct (lrun_losses c R steps) as [A B]. unfold lsum in A.
  set (P := fold_right (fun (p : lstep * (Q * Q * option Q)) acc => l_pi (fst p) (snd (fst (snd p))) + acc) 0 (combine steps (l_out (lrun c R steps)))) in *.
  match goal with |- _ == (_ + _ * ?Z) / _ => set (QP := Z) end.
  assert (B' : Q_loss (lrun c R steps) == QP).
  { rewrite B. unfold QP, lsum. clear. induction (combine steps (l_out (lrun c R steps))) as [|p l IH]; cbn [fold_right]; [reflexivity|]. rewrite IH. unfold mse.
    destruct (snd (snd p)); simpl Qpower; field. }
  destruct (normalize_loss_by_steps c); rewrite A, B'; unfold Qdiv; [ring|field].
Qed.

(** Whatever policy collected the data, a target differs from the current estimate by at most the discounted temporal differences; in particular estimates
    without temporal differences are left alone. *)
Theorem C71_bounded (c : lcfg) (R : Q) (steps : list lstep) i x qt adv vt : nth_error steps i = Some x ->
  nth_error (snd (compute_loss c R steps)) i = Some (qt, adv, vt) -> 0 <= l_gamma c -> (forall y, In y steps -> 0 <= l_rho y /\ 0 <= l_root y) ->
  let step f k := f (nth k steps x) in
  Qabs (qt - l_q x) <= discounted_sum (l_gamma c) (fun m => Qabs (td (l_gamma c) R (length steps) (step l_r) (step l_v) (step l_q) (i + m))) (length steps - i).
Proof.
  intros H H2 Hg Hs step. destruct (C71_targets c R steps i x H) as (qt' & adv' & vt' & E & Et & _). rewrite H2 in E. injection E as <- _ _. rewrite Et.
  assert (Ex : l_q x = step l_q i) by (unfold step; rewrite (nth_error_nth steps i x H); reflexivity). rewrite Ex. apply retrace_bound; [exact Hg|].
  intros k. assert (In (nth k steps x) steps).
  { destruct (Nat.lt_ge_cases k (length steps)); [apply nth_In; assumption|]. rewrite nth_overflow by assumption. apply (nth_error_In _ _ H). }
  destruct (Hs _ H0) as [A B]. destruct (l_discrete c); (split; [apply Q.min_glb; lra|apply Q.le_min_l]).
Qed.

(** On-policy (weights 1) both estimates coincide. *)
Theorem C71_on_policy (c : lcfg) (R : Q) (steps : list lstep) : (forall y, In y steps -> l_rho y == 1 /\ l_root y == 1) ->
  forall i x qt adv vt, nth_error steps i = Some x -> nth_error (snd (compute_loss c R steps)) i = Some (qt, adv, vt) -> adv == qt - l_v x.
Proof.
  intros Hs i x qt adv vt H H2. destruct (C71_targets c R steps i x H) as (qt' & adv' & vt' & E & Et & Ea & _). rewrite H2 in E. injection E as <- <- _. rewrite Ea, Et.
  destruct (use_Q_opc c); [|reflexivity]. apply Qplus_comp; [|reflexivity]. apply retrace_ext. intros k.
  assert (In (nth k steps x) steps).
  { destruct (Nat.lt_ge_cases k (length steps)); [apply nth_In; assumption|]. rewrite nth_overflow by assumption. apply (nth_error_In _ _ H). }
  destruct (Hs _ H0) as [A B]. destruct (l_discrete c); [rewrite A|rewrite B]; reflexivity.
Qed.

(** Two steps, the second with importance weight 1/2. *)
Definition ex_c : lcfg := {| l_gamma := 1#2; use_Q_opc := true; l_discrete := true; l_pi_coef := 1; l_Q_coef := 1#2; normalize_loss_by_steps := true |}.
Definition ex_steps : list lstep :=
  [{| l_r := 1; l_v := 2; l_q := 3; l_rho := 4; l_root := 2; l_pi := fun a => 10 * a |}; {| l_r := 2; l_v := 4; l_q := 8; l_rho := 1#2; l_root := 1#2; l_pi := fun a => a |}].
(** targets: 2 + 5 = 7 and 1 + 1/2 (4 + 1/2 (7 - 8)); without the weight: 1 + 1/2 (4 + (7 - 8)) *)
Example C71_ex : Forall2 (fun x y => fst (fst x) == fst (fst y) /\ snd (fst x) == snd (fst y) /\ snd x = snd y)
    (snd (compute_loss ex_c 10 ex_steps)) [(11#4, 1#2, None); (7, 3, None)] /\
  fst (compute_loss ex_c 10 ex_steps) == (5 + 3 + (1#2) * ((1#16) / 2 + 1 / 2)) / 2.
Proof. split; [repeat constructor|]; vm_compute; reflexivity. Qed.
Example C71_ex_hyp : forall y, In y ex_steps -> 0 <= l_rho y /\ 0 <= l_root y.
Proof. intros y [<-|[<-|[]]]; cbn; lra. Qed.

Print Assumptions C71_targets.
Print Assumptions C71_loss.
Print Assumptions C71_bounded.
Print Assumptions C71_on_policy.
