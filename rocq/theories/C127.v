(** C127: the priority tree computed in floating point. *)
From Coq Require Import Reals Lra ZArith.
From Flocq Require Import Core BinarySingleNaN.
From Verif Require Import Base M_Prioritized S_Prioritized M_FloatTree S_FloatTree P_FloatTree P_FloatB64.
Open Scope R_scope.

(** For any arithmetic with relative error u: after any history of appends, pops and overwrites, the reported sum is within
    (1 + u)^D - 1, relatively, of the exact sum of the priorities held now, where D only depends on the greatest number of
    elements ever held: errors do not accumulate over the history. *)
Theorem C127_sum_no_drift : forall V (A : arith V) val ok unit01 u eta M, rounded A val ok unit01 u eta M ->
  forall ops, Forall ok (held ops) ->
  total val (held ops) * (1 + u) ^ depth (longest [] ops) <= M ->
  exists s, ftq_sum A (queue_after A ops) = Ok s /\ ok s /\
    Rabs (val s - total val (held ops)) <= ((1 + u) ^ depth (longest [] ops) - 1) * total val (held ops).
Proof. intros V A val ok unit01 u eta M HA ops. exact (sum_after A val ok unit01 u eta M HA ops). Qed.
Print Assumptions C127_sum_no_drift.

(** ... and the draws of one call pick, up to that error, by cumulative priority; they fail only if the generator's outcome
    lies within the error of its upper end.  Removal leaves exactly the drawn priorities zero; otherwise distinct draws
    leave all priorities bit for bit as they were. *)
Theorem C127_draws : forall V (A : arith V) val ok unit01 u eta M, rounded A val ok unit01 u eta M ->
  forall ops fs remove, held ops <> [] -> Forall ok (held ops) ->
  total val (held ops) * (1 + u) ^ depth (longest [] ops) <= M -> Forall unit01 fs ->
  draws_near A val (draw_error u eta (depth (longest [] ops))) (held ops) fs
    (rmap (fun '(_, ixs, vs) => (ixs, vs)) (fprioritized_sample A (queue_after A ops) fs remove)) /\
  forall q' ixs vs, fprioritized_sample A (queue_after A ops) fs remove = Ok (q', ixs, vs) ->
    (remove = true -> drain (length (held ops)) (fsum A) q' = zeroed A (held ops) ixs) /\
    (remove = false -> NoDup ixs -> drain (length (held ops)) (fsum A) q' = held ops).
Proof. intros V A val ok unit01 u eta M HA ops. exact (sample_after A val ok unit01 u eta M HA ops). Qed.
Print Assumptions C127_draws.

(** Enlarging the error. *)
Lemma draws_near_mono {V} (A : arith V) val (E E' : R -> R) (P : list V -> Prop) : 
  (forall ws, P ws -> E (total val ws) <= E' (total val ws)) ->
  (forall ws k, P ws -> P (list_set ws k (a_zero A))) ->
  forall ws fs r, P ws -> draws_near A val E ws fs r -> draws_near A val E' ws fs r.
Proof.
  intros HE HP ws fs r Hws H. induction H as [ws|ws f fs k w r Hk Hb H IH|ws f fs e He Hb].
  - constructor.
  - pose proof (HE ws Hws). constructor; [exact Hk|lra|]. apply IH. apply HP. exact Hws.
  - pose proof (HE ws Hws). apply dn_fail; [exact He|lra].
Qed.

Lemma growth21 D : (D <= 21)%nat -> (1 + / 2 ^ 53) ^ D <= 1 + 3 / 10 ^ 15.
Proof.
  intros H. apply Rle_trans with ((1 + / 2 ^ 53) ^ 21); [apply Rle_pow; [|exact H]; assert (0 < / 2 ^ 53) by (apply Rinv_0_lt_compat, pow_lt; lra); lra|].
  assert (H1 : forall x n, 0 <= x -> INR n * x <= 1 / 2 -> (1 + x) ^ n <= 1 + INR n * x + (INR n * x) * (INR n * x)).
  { intros x n Hx. induction n as [|n IH]; intros Hn; [cbn [pow INR]; lra|]. rewrite S_INR in *. rewrite Rmult_plus_distr_r, Rmult_1_l in Hn.
    assert (0 <= INR n) by apply pos_INR. assert (0 <= INR n * x) by (apply Rmult_le_pos; lra).
    specialize (IH ltac:(lra)). cbn [pow].
    apply Rle_trans with ((1 + x) * (1 + INR n * x + INR n * x * (INR n * x))); [apply Rmult_le_compat_l; lra|].
    set (y := INR n * x) in *. replace ((INR n + 1) * x) with (y + x) by (unfold y; ring).
    assert (0 <= x * (1 / 2 - y)) by (apply Rmult_le_pos; lra).
    assert (0 <= x * (y * (1 - y))) by (apply Rmult_le_pos; [lra|apply Rmult_le_pos; lra]).
    replace (x * (y * (1 - y))) with (x * y - x * (y * y)) in * by ring.
    assert (0 <= x * x) by (apply Rmult_le_pos; lra).
    replace ((1 + x) * (1 + y + y * y)) with (1 + y + y * y + x + x * y + x * (y * y)) by ring.
    replace (1 + (y + x) + (y + x) * (y + x)) with (1 + y + x + y * y + 2 * (x * y) + x * x) by ring. lra. }
  assert (Ev : / 2 ^ 53 = / 9007199254740992) by (f_equal; simpl; lra). rewrite Ev.
  eapply Rle_trans; [apply H1|]; [lra| |]; simpl INR; lra.
Qed.

(** IEEE binary64, queues that never held more than 2^20 elements: the sum is within 3e-15 of the exact one, relatively. *)
Theorem C127_binary64_sum : forall ops : list (tq_op binary64), (longest [] ops <= 2 ^ 20)%nat ->
  Forall b64_ok (held ops) -> total b64_val (held ops) <= 2 ^ 1022 ->
  exists s, ftq_sum b64 (queue_after b64 ops) = Ok s /\ is_finite s = true /\
    Rabs (B2R s - total b64_val (held ops)) <= 3 / 10 ^ 15 * total b64_val (held ops).
Proof.
  intros ops HN Hok HT.
  assert (HD : (depth (longest [] ops) <= 21)%nat).
  { unfold depth. apply le_n_S. apply Nat.log2_up_le_mono in HN. rewrite Nat.log2_up_pow2 in HN by lia. exact HN. }
  pose proof (growth21 _ HD) as Hg. assert (H0 : 0 <= total b64_val (held ops)).
  { apply (rsum_ok b64 b64_val b64_ok b64_unit _ _ _ b64_rounded). exact Hok. }
  destruct (C127_sum_no_drift _ _ _ _ _ _ _ _ b64_rounded ops Hok) as (s & E & [F _] & B).
  { apply Rle_trans with (2 ^ 1022 * 2); [|rewrite Rmult_comm, tech_pow_Rmult; apply Rle_refl].
    apply Rmult_le_compat; [exact H0| |exact HT|lra]. apply pow_le. assert (0 < / 2 ^ 53) by (apply Rinv_0_lt_compat, pow_lt; lra). lra. }
  exists s. split; [exact E|]. split; [exact F|]. eapply Rle_trans; [exact B|]. apply Rmult_le_compat_r; lra.
Qed.
Print Assumptions C127_binary64_sum.

Lemma zero_keeps_ok ws k : Forall b64_ok ws -> Forall b64_ok (list_set ws k (a_zero b64)).
Proof. apply (Forall_list_set_ok b64 b64_val b64_ok b64_unit _ _ _ b64_rounded). Qed.

(** ... and each draw is by cumulative priority up to 1e-14 of the total (and half the smallest number, if the product with
    the generator's outcome underflows). *)
Theorem C127_binary64_draws : forall (ops : list (tq_op binary64)) fs remove, (longest [] ops <= 2 ^ 20)%nat ->
  held ops <> [] -> Forall b64_ok (held ops) -> total b64_val (held ops) <= 2 ^ 1022 -> Forall b64_unit fs ->
  draws_near b64 b64_val (fun T => / 10 ^ 14 * T + / 2 ^ 1075) (held ops) fs
    (rmap (fun '(_, ixs, vs) => (ixs, vs)) (fprioritized_sample b64 (queue_after b64 ops) fs remove)).
Proof.
  intros ops fs remove HN Hne Hok HT Hfs.
  assert (HD : (depth (longest [] ops) <= 21)%nat).
  { unfold depth. apply le_n_S. apply Nat.log2_up_le_mono in HN. rewrite Nat.log2_up_pow2 in HN by lia. exact HN. }
  pose proof (growth21 _ HD) as Hg.
  assert (Hu : 0 < / 2 ^ 53) by (apply Rinv_0_lt_compat, pow_lt; lra).
  assert (Hg1 : 1 <= (1 + / 2 ^ 53) ^ depth (longest [] ops)) by (apply pow_R1_Rle; lra).
  assert (Hnn : forall ws, Forall b64_ok ws -> 0 <= total b64_val ws).
  { intros ws. apply (rsum_ok b64 b64_val b64_ok b64_unit _ _ _ b64_rounded). }
  apply (draws_near_mono b64 b64_val (draw_error (/ 2 ^ 53) (/ 2 ^ 1075) (depth (longest [] ops))) _ (Forall b64_ok)).
  - intros ws Hws. unfold draw_error. apply Rplus_le_compat_r. apply Rmult_le_compat_r; [auto|].
    assert (HI : INR (depth (longest [] ops)) <= 21) by (apply le_INR in HD; simpl (INR 21) in HD; lra).
    pose proof (pos_INR (depth (longest [] ops))) as HI0.
    assert (Hm : (INR (depth (longest [] ops)) + 1) * / 2 ^ 53 * (1 + / 2 ^ 53) ^ depth (longest [] ops) <= 22 * / 2 ^ 53 * (1 + 3 / 10 ^ 15)).
    { apply Rmult_le_compat; [apply Rmult_le_pos; lra|lra|apply Rmult_le_compat_r; lra|lra]. }
    assert (Ev : / 2 ^ 53 = / 9007199254740992) by (f_equal; simpl; lra). rewrite Ev in Hm at 3.
    assert (22 * / 9007199254740992 * (1 + 3 / 10 ^ 15) + 6 / 10 ^ 15 <= / 10 ^ 14) by lra. lra.
  - intros ws k. apply zero_keeps_ok.
  - exact Hok.
  - apply (C127_draws _ _ _ _ _ _ _ _ b64_rounded ops fs remove Hne Hok); [|exact Hfs].
    apply Rle_trans with (2 ^ 1022 * 2); [|rewrite Rmult_comm, tech_pow_Rmult; apply Rle_refl].
    apply Rmult_le_compat; [auto|lra|exact HT|lra].
Qed.
Print Assumptions C127_binary64_draws.

(** A case: the float nearest to 0.1 twice, and 3; draws with the generator yielding 0.5 and 0.5 pick the third element, then
    the second. *)
Definition c127_tenth : binary64 := @B754_finite 53 1024 false 7205759403792794 (-56) eq_refl.
Definition c127_three : binary64 := @B754_finite 53 1024 false 6755399441055744 (-51) eq_refl.
Definition c127_half : binary64 := @B754_finite 53 1024 false 4503599627370496 (-53) eq_refl.
Definition c127_ops := [TAppend c127_three; TAppend c127_half; TAppend c127_tenth; TPopleft; TAppend c127_three; TSet 0 c127_tenth].

Example C127_case_history : held c127_ops = [c127_tenth; c127_tenth; c127_three] /\ longest [] c127_ops = 3%nat.
Proof. split; reflexivity. Qed.

Example C127_case_hyps : Forall b64_ok (held c127_ops) /\ total b64_val (held c127_ops) <= 2 ^ 1022 /\
  Forall b64_unit [c127_half; c127_half].
Proof.
  rewrite (proj1 C127_case_history).
  assert (Ht : 0 <= B2R c127_tenth <= 1) by (unfold c127_tenth, B2R, F2R; simpl; lra).
  assert (H3 : 0 <= B2R c127_three <= 3) by (unfold c127_three, B2R, F2R; simpl; lra).
  assert (Hh : 0 <= B2R c127_half < 1) by (unfold c127_half, B2R, F2R; simpl; lra).
  split; [|split].
  - repeat (apply Forall_cons; [split; [reflexivity|apply Ht || apply H3]|]). apply Forall_nil.
  - unfold total, b64_val. cbn [map rsum]. apply Rle_trans with (2 ^ 3); [cbn [pow]; lra|]. apply Rle_pow; [lra|]. apply Nat.leb_le. vm_compute. reflexivity.
  - repeat (apply Forall_cons; [split; [reflexivity|exact Hh]|]). apply Forall_nil.
Qed.

Example C127_case_draws : exists q', fprioritized_sample b64 (queue_after b64 c127_ops) [c127_half; c127_half] true
  = Ok (q', [2%Z; 1%Z], [c127_three; c127_tenth]).
Proof. eexists. vm_compute. reflexivity. Qed.
