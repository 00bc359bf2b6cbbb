(** C130: workers updating the shared parameters at the same time is not like updating them one after the other: steps
    are lost, one step can be far larger than any step of the optimizer, the mean of squared gradients can grow without
    bound, and with centering the parameter becomes nan for good. *)
From Coq Require Import Reals Lra Lia Psatz.
From Verif Require Import Base M_RMSprop S_RMSprop C88 M_Hogwild S_Hogwild P_Hogwild C129.
Open Scope R_scope.

(** Options without centering, momentum, weight decay. *)
Definition basic (c : group_cfg) : Prop := good c /\ centered c = false /\ momentum c = 0 /\ weight_decay c = 0 /\ 0 < lr c.
Lemma step_code_basic c g : basic c ->
  step_code c g = MulTo CSq (Some (alpha c)) (AddTo CSq (Some ((1 - alpha c) * (g * g)))
    (Load CSq (fun v => AddTo CP (nmul (Some (- lr c)) (nover_sqrt (Some g) (nadd v (Some (eps c))))) Done))).
Proof.
  intros (_ & Hc & Hm & Hw & _). unfold step_code, average_code, move_code. rewrite Hc, Hm, Hw.
  destruct (Req_EM_T 0 0) as [_|N]; [|contradiction]. destruct (Rlt_dec 0 0) as [N|_]; [lra|]. reflexivity.
Qed.

Ltac accesses Ek := cbn [repeat app]; repeat (rewrite hogwild_cons; cbn [sched start s_mem s_ws s_moves repeat nth_error w_code w_read idle list_set access
  mget mset m_p m_sq m_ga m_buf nadd nmul app]; try rewrite Ek); unfold hogwild; cbn [fold_left s_mem s_ws s_moves m_p m_sq m_ga m_buf].

(** * A step is lost: two workers make a step each with the same gradient, both add a nonzero amount to the parameter, and
    the parameter has moved by one of them only. *)
Notation lost_schedule g := (Begin 0 g :: Begin 1 g :: repeat (Access 0) 6 ++ repeat (Access 1) 7 ++ [Access 0%nat]).
Theorem C130_lost_refuted : forall c x g, basic c -> g <> 0 ->
  exists d0 d1, d0 <> 0 /\ d1 <> 0
    /\ s_moves (hogwild c (start 2 x) (lost_schedule g)) = [Some d1; Some d0]
    /\ m_p (s_mem (hogwild c (start 2 x) (lost_schedule g))) = Some (x + d0)
    /\ Forall (fun w => w_code w = Done) (s_ws (hogwild c (start 2 x) (lost_schedule g))).
Proof.
  intros c x g Hb Hg. pose proof (step_code_basic c g Hb) as Ek. destruct Hb as ([Ha He] & _ & _ & _ & Hl).
  accesses Ek. cbn [nover_sqrt].
  set (q0 := 0 * alpha c + (1 - alpha c) * (g * g)). set (q1 := q0 * alpha c + (1 - alpha c) * (g * g)).
  assert (H0 : 0 <= q0) by (unfold q0; pose proof (Rle_0_sqr g); unfold Rsqr in *; nra).
  assert (H1 : 0 <= q1) by (unfold q1; pose proof (Rle_0_sqr g); unfold Rsqr in *; nra).
  destruct (Rle_dec (q0 + eps c) 0) as [N|_]; [lra|]. destruct (Rle_dec (q1 + eps c) 0) as [N|_]; [lra|].
  cbn [nmul nadd].
  assert (Nz : forall v, 0 < v -> - lr c * (g / sqrt v) <> 0).
  { intros v Hv. assert (0 < sqrt v) by now apply sqrt_lt_R0. apply Rmult_integral_contrapositive_currified; [lra|].
    apply Rmult_integral_contrapositive_currified; [exact Hg|]. apply Rinv_neq_0_compat. lra. }
  exists (- lr c * (g / sqrt (q0 + eps c))), (- lr c * (g / sqrt (q1 + eps c))).
  split; [apply Nz; lra|]. split; [apply Nz; lra|]. split; [reflexivity|]. split; [reflexivity|]. repeat constructor.
Qed.

(** * A step larger than any step of the optimizer: a worker that has read the mean square before another's step
    overwrites it, and the step divides by sqrt eps alone.  The optimizer's own steps are at most lr / sqrt (1 - alpha)
    (C88_bounded). *)
Notation spike_schedule g := (Begin 0 g :: Begin 1 g :: Access 1%nat :: repeat (Access 0) 4 ++ [Access 1%nat] ++ repeat (Access 0) 3).
Theorem C130_spike_refuted : forall c x g, basic c ->
  m_p (s_mem (hogwild c (start 2 x) (spike_schedule g))) = Some (x - lr c * g / sqrt (eps c))
  /\ (eps c < (1 - alpha c) * (g * g) -> 0 < g -> lr c / sqrt (1 - alpha c) < lr c * g / sqrt (eps c)).
Proof.
  intros c x g Hb. pose proof (step_code_basic c g Hb) as Ek. destruct Hb as ([Ha He] & _ & _ & _ & Hl). split.
  - accesses Ek. cbn [nover_sqrt].
    replace (0 * alpha c + eps c) with (eps c) by ring. destruct (Rle_dec (eps c) 0) as [N|_]; [lra|]. cbn [nmul nadd]. f_equal. lra.
  - intros H Hg. assert (S1 : 0 < sqrt (eps c)) by now apply sqrt_lt_R0. assert (S2 : 0 < sqrt (1 - alpha c)) by (apply sqrt_lt_R0; lra).
    unfold Rdiv. rewrite Rmult_assoc. apply Rmult_lt_compat_l; [exact Hl|].
    assert (K : sqrt (eps c) < g * sqrt (1 - alpha c)).
    { rewrite <- (sqrt_square g) at 1 by lra. rewrite <- sqrt_mult by nra. apply sqrt_lt_1; nra. }
    apply (Rmult_lt_reg_r (sqrt (eps c))); [exact S1|]. apply (Rmult_lt_reg_r (sqrt (1 - alpha c))); [exact S2|].
    replace (/ sqrt (1 - alpha c) * sqrt (eps c) * sqrt (1 - alpha c)) with (sqrt (eps c)) by (field; lra).
    replace (g * / sqrt (eps c) * sqrt (eps c) * sqrt (1 - alpha c)) with (g * sqrt (1 - alpha c)) by (field; lra). exact K.
Qed.

(** * The mean square grows without bound, although all gradients are 1 *)
Definition pending (c : group_cfg) (v : R) : worker :=
  {| w_code := AddTo CSq (Some ((1 - alpha c) * (1 * 1)))
       (Load CSq (fun v => AddTo CP (nmul (Some (- lr c)) (nover_sqrt (Some 1) (nadd v (Some (eps c))))) Done)); w_read := Some (Some v) |}.
(** Worker i is about to write; worker j reads, and its multiplication is overwritten by i's addition. *)
Definition grow (i j : nat) : list event := [Begin j 1; Access j; Access j; Access i; Access j; Access i; Access i; Access i].
Fixpoint growing (i j : nat) (n : nat) : list event := match n with O => [] | S n => grow i j ++ growing j i n end.

Lemma growing_spec c : basic c -> forall n i j, (i = 0 /\ j = 1 \/ i = 1 /\ j = 0)%nat -> forall s v,
  m_sq (s_mem s) = Some v -> s_ws s = list_set (list_set [idle; idle] j idle) i (pending c v) ->
  m_sq (s_mem (hogwild c s (growing i j n))) = Some (v + INR n * (1 - alpha c)).
Proof.
  intros Hb. pose proof (step_code_basic c 1 Hb) as Ek. induction n as [|n IH]; intros i j Hij s v Hv Hs.
  - cbn [growing hogwild fold_left INR]. rewrite Hv. f_equal. lra.
  - cbn [growing]. rewrite hogwild_app. rewrite (IH j i) with (v := v + (1 - alpha c)).
    + rewrite S_INR. f_equal. lra.
    + tauto.
    + destruct s as [[p sq ga buf] ws l]. cbn [s_mem m_sq s_ws] in Hv, Hs. subst sq ws.
      destruct Hij as [[-> ->]|[-> ->]]; unfold grow, pending; accesses Ek; f_equal; lra.
    + destruct s as [[p sq ga buf] ws l]. cbn [s_mem m_sq s_ws] in Hv, Hs. subst sq ws.
      destruct Hij as [[-> ->]|[-> ->]]; unfold grow, pending; accesses Ek; unfold idle; do 5 f_equal; lra.
Qed.

Lemma INR_exceeds a K : 0 < a -> exists n, K < INR n * a.
Proof.
  intros Ha. destruct (archimed (Rabs (K / a))) as [H _]. exists (Z.to_nat (up (Rabs (K / a)))).
  rewrite INR_IZR_INZ, Z2Nat.id.
  - apply Rle_lt_trans with (Rabs (K / a) * a); [|apply Rmult_lt_compat_r; [exact Ha|exact H]].
    apply Rle_trans with (K / a * a); [right; field; lra|]. apply Rmult_le_compat_r; [lra|apply Rle_abs].
  - apply le_IZR. pose proof (Rabs_pos (K / a)). lra.
Qed.

Theorem C130_unbounded_refuted : forall c x K, basic c ->
  exists es sq, gradients_within 1 es /\ m_sq (s_mem (hogwild c (start 2 x) es)) = Some sq /\ K < sq.
Proof.
  intros c x K Hb. pose proof (step_code_basic c 1 Hb) as Ek. pose proof Hb as ([Ha He] & _).
  destruct (INR_exceeds (1 - alpha c) K ltac:(lra)) as [n Hn].
  set (pre := [Begin 0 1; Access 0%nat; Access 0%nat; Access 0%nat]).
  exists (pre ++ growing 0 1 n), (0 * alpha c + INR n * (1 - alpha c)). split; [|split].
  - assert (W : forall n i j, gradients_within 1 (growing i j n)).
    { clear. induction n as [|n IH]; intros i j i' g H; [contradiction|]. cbn [growing] in H. apply in_app_or in H. destruct H as [H|H]; [|eapply IH; exact H].
      cbn [grow In] in H. repeat (destruct H as [H|H]; [try discriminate H|]); try contradiction. injection H as _ <-. rewrite Rabs_R1. lra. }
    intros i g H. apply in_app_or in H. destruct H as [H|H]; [|eapply W; exact H].
    cbn [pre In] in H. repeat (destruct H as [H|H]; [try discriminate H|]); try contradiction. injection H as _ <-. rewrite Rabs_R1. lra.
  - rewrite hogwild_app. apply (growing_spec c Hb n 0 1); [left; split; reflexivity| |]; unfold pre, pending; accesses Ek; reflexivity.
  - lra.
Qed.

(** * With centering: nan, for good *)
Definition stuck (s : sys) : Prop :=
  m_p (s_mem s) = None
  /\ Forall (fun w => match w_code w, w_read w with (MulTo CP _ _ | AddTo CP _ _), Some (Some _) => False | _, _ => True end) (s_ws s).
Lemma stuck_sched c s e : stuck s -> stuck (sched c s e).
Proof.
  intros [Hp Hw]. destruct e as [i g|i]; cbn [sched]; destruct (nth_error (s_ws s) i) as [w|] eqn:Ei; try (split; assumption).
  - destruct (w_code w); try (split; assumption). split; [exact Hp|]. cbn [s_ws]. apply Forall_list_set; [exact Hw|]. cbn [w_code w_read].
    destruct (step_code c g) as [|[] ?|[] ? ?|[] ? ?]; exact I.
  - pose proof (proj1 (Forall_forall _ _) Hw w (nth_error_In _ _ Ei)) as K. destruct w as [k r]. unfold access. cbn [w_code w_read] in *.
    destruct s as [[p sq ga buf] ws l]. cbn [s_mem s_ws s_moves m_p] in *. subst p.
    destruct k as [|a f|a z k|a z k].
    + split; [reflexivity|]. cbn [s_ws]. apply Forall_list_set; [exact Hw|exact I].
    + split; [reflexivity|]. cbn [s_ws]. apply Forall_list_set; [exact Hw|]. cbn [w_code w_read]. destruct (f _) as [|[] ?|[] ? ?|[] ? ?]; exact I.
    + destruct r as [r|]; (split; [|cbn [s_ws]; apply Forall_list_set; [exact Hw|]]).
      * cbn [s_mem]. destruct a; cbn [mset m_p]; try reflexivity. destruct r; [contradiction|reflexivity].
      * cbn [w_code w_read]. destruct k as [|[] ?|[] ? ?|[] ? ?]; exact I.
      * reflexivity.
      * cbn [w_code w_read]. destruct a; cbn [mget m_p]; exact I.
    + destruct r as [r|]; (split; [|cbn [s_ws]; apply Forall_list_set; [exact Hw|]]).
      * cbn [s_mem]. destruct a; cbn [mset m_p]; try reflexivity. destruct r; [contradiction|reflexivity].
      * cbn [w_code w_read]. destruct k as [|[] ?|[] ? ?|[] ? ?]; exact I.
      * reflexivity.
      * cbn [w_code w_read]. destruct a; cbn [mget m_p]; exact I.
Qed.
Lemma stuck_run c es : forall s, stuck s -> m_p (s_mem (hogwild c s es)) = None.
Proof. induction es as [|e es IH]; intros s H; [exact (proj1 H)|]. rewrite hogwild_cons. apply IH. apply stuck_sched. exact H. Qed.

(** Worker 1 has read the mean square of squares (0) when worker 0 updates both means; it writes its 0 before worker 0
    reads: 0 - mean^2 + eps is under the root. *)
Notation nan_schedule g := (Begin 0 g :: Begin 1 g :: Access 1%nat :: repeat (Access 0) 8 ++ [Access 1%nat] ++ repeat (Access 0) 4).
Theorem C130_nan_refuted : forall c x g, good c -> centered c = true -> momentum c = 0 -> weight_decay c = 0 ->
  eps c <= ((1 - alpha c) * g) * ((1 - alpha c) * g) ->
  forall later, m_p (s_mem (hogwild c (start 2 x) (nan_schedule g ++ later))) = None.
Proof.
  intros c x g [Ha He] Hc Hm Hw Hg later. rewrite hogwild_app. apply stuck_run.
  assert (Ek : step_code c g = MulTo CSq (Some (alpha c)) (AddTo CSq (Some ((1 - alpha c) * (g * g)))
    (MulTo CGa (Some (alpha c)) (AddTo CGa (Some ((1 - alpha c) * g))
       (Load CSq (fun v => Load CGa (fun a => AddTo CP (nmul (Some (- lr c)) (nover_sqrt (Some g) (nadd (nadd v (nmul (Some (-1)) (nmul a a))) (Some (eps c))))) Done))))))).
  { unfold step_code, average_code, move_code. rewrite Hc, Hm, Hw. destruct (Req_EM_T 0 0) as [_|N]; [|contradiction]. destruct (Rlt_dec 0 0) as [N|_]; [lra|]. reflexivity. }
  accesses Ek. cbn [nover_sqrt].
  match goal with |- context [Rle_dec ?v 0] => assert (Hv : v <= 0) by (set (t := (1 - alpha c) * g) in *; nra); destruct (Rle_dec v 0) as [_|N]; [|contradiction] end.
  cbn [nmul nadd]. split; [reflexivity|]. cbn [s_ws]. repeat constructor.
Qed.

(** The options of torch's RMSprop by default (alpha = 0.99, eps = 1e-8) meet the hypotheses with gradient 1. *)
Notation default centered := {| alpha := 99 / 100; eps := 1 / 100000000; lr := 1 / 100; momentum := 0; centered := centered; weight_decay := 0 |}.
Example default_basic : basic (default false) /\ eps (default false) < (1 - alpha (default false)) * (1 * 1).
Proof. repeat split; cbn; lra. Qed.
Example default_centered : good (default true) /\ eps (default true) <= ((1 - alpha (default true)) * 1) * ((1 - alpha (default true)) * 1).
Proof. repeat split; cbn; lra. Qed.
(** One step of 1 by the optimizer moves the parameter by at most 0.1; the step above by 100. *)
Example default_spike : m_p (s_mem (hogwild (default false) (start 2 0) (spike_schedule 1))) = Some (- (100)).
Proof.
  destruct (C130_spike_refuted (default false) 0 1 (proj1 default_basic)) as [-> _]. cbn [lr eps]. f_equal.
  replace (1 / 100000000) with ((1 / 10000) * (1 / 10000)) by lra. rewrite sqrt_square by lra. lra.
Qed.

Print Assumptions C130_lost_refuted.
Print Assumptions C130_spike_refuted.
Print Assumptions C130_unbounded_refuted.
Print Assumptions C130_nan_refuted.
