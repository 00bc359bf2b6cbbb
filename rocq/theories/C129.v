(** C129: workers that update the shared parameters at the same time, without a lock, whatever the interleaving of their
    accesses: the numbers stay finite, the parameter is its initial value plus some of the steps, and it does not move
    further than the steps allow; steps that do not overlap are those of the optimizer. *)
From Coq Require Import Reals Lra Lia Psatz.
From Verif Require Import Base M_RMSprop S_RMSprop C88 M_Hogwild S_Hogwild P_Hogwild.
Open Scope R_scope.

(** For all options without centering, numbers of workers and schedules: parameter, mean square and momentum buffer are
    finite, the mean square is not negative, every addition to the parameter was of a finite amount, and the parameter
    is the initial value plus the amounts of some of the steps, none counted twice (those left out were overwritten). *)
Theorem C129_finite : forall c n x es, 0 <= alpha c <= 1 -> 0 < eps c -> centered c = false ->
  let s := hogwild c (start n x) es in
  exists p sq buf moves, m_p (s_mem s) = Some p /\ m_sq (s_mem s) = Some sq /\ m_buf (s_mem s) = Some buf /\ 0 <= sq
    /\ s_moves s = map Some moves /\ exists kept, subseq kept moves /\ p = x + sumR kept.
Proof.
  intros c n x es Ha He Hc s.
  destruct (inv_run c x (fun _ => True) es (start n x) (fun i g _ => step_safe_any c g Ha He Hc) (inv_start x _ n))
    as (p & sq & ga & buf & moves & Em & Hsq & El & _ & Hp & _).
  fold s in Em, El. exists p, sq, buf, moves. rewrite Em. cbn [m_p m_sq m_buf]. repeat split; try assumption.
Qed.

(** Without momentum and weight decay, for gradients within [-G, G]: every step moves the parameter by at most
    lr G / sqrt eps, a step moves it at most once, and so the parameter stays within that times the number of steps
    begun. *)
Theorem C129_bound : forall c n x es G, 0 <= alpha c <= 1 -> 0 < eps c -> centered c = false -> momentum c <= 0 -> weight_decay c = 0 -> 0 <= lr c ->
  gradients_within G es -> 0 <= G ->
  let s := hogwild c (start n x) es in
  (length (s_moves s) <= begins es)%nat
  /\ (forall d, In (Some d) (s_moves s) -> Rabs d <= lr c * G / sqrt (eps c))
  /\ exists p, m_p (s_mem s) = Some p /\ Rabs (p - x) <= INR (begins es) * (lr c * G / sqrt (eps c)).
Proof.
  intros c n x es G Ha He Hc Hm Hw Hl Hg HG s.
  destruct (inv_run c x (fun d => Rabs d <= lr c * G / sqrt (eps c)) es (start n x)
    (fun i g Hi => step_safe_bound c G g Ha He Hc Hm Hw Hl (Hg i g Hi)) (inv_start x _ n))
    as (p & sq & ga & buf & moves & Em & Hsq & El & HB & (l & Hsub & Ep) & _).
  destruct (counted_run c es 0 (start n x) (counted_start n x)) as [_ Hn].
  fold s in Em, El, Hn. rewrite Nat.add_0_r in Hn.
  assert (L : (length (s_moves s) <= begins es)%nat) by lia. split; [exact L|]. rewrite Forall_forall in HB.
  split.
  - intros d Hd. rewrite El in Hd. apply in_map_iff in Hd. destruct Hd as (d' & E & Hd). injection E as ->. apply HB. exact Hd.
  - exists p. rewrite Em. split; [reflexivity|]. replace (p - x) with (sumR l) by lra.
    assert (D : 0 <= lr c * G / sqrt (eps c)).
    { assert (S1 : 0 < sqrt (eps c)) by now apply sqrt_lt_R0. apply Rmult_le_pos; [apply Rmult_le_pos; assumption|]. left. apply Rinv_0_lt_compat. exact S1. }
    eapply Rle_trans; [apply sumR_bound; intros d Hd; apply HB; eapply subseq_in; eassumption|].
    apply Rmult_le_compat_r; [exact D|]. apply le_INR. apply subseq_length in Hsub. rewrite El, map_length in L. lia.
Qed.

(** If the steps do not overlap, whoever makes them and with all options (centering and momentum included), the shared
    memory holds what the sequential optimizer computes from the same gradients, and no step is lost. *)
Theorem C129_serial : forall c n x (steps : list (nat * R)), good c -> Forall (fun ig => fst ig < n)%nat steps ->
  let s := hogwild c (start n x) (one_by_one steps) in
  exists p, run c (new_shared c x) (map (fun ig => Some (snd ig)) steps) = Ok p
    /\ entry_is (s_mem s) p /\ length (s_moves s) = length steps.
Proof.
  intros c n x steps Hc Hi s.
  destruct (serial_run c steps Hc _ (new_shared c x) (start n x) (proj2 (tracks_new c x))) as (p & E & Hm & Hl & _).
  - discriminate.
  - cbn [start s_mem]. split; [reflexivity|]. eexists. split; [reflexivity|]. cbn [init_state square_avg grad_avg momentum_buffer m_sq m_ga m_buf].
    split; [reflexivity|]. split; [intros a; destruct (centered c); congruence|intros b; destruct (Rlt_dec 0 (momentum c)); congruence].
  - apply Forall_forall. intros w Hw. apply repeat_spec in Hw. exact Hw.
  - cbn [start s_ws]. rewrite repeat_length. exact Hi.
  - exists p. split; [exact E|]. split; [exact Hm|]. cbn [start s_moves length] in Hl. exact Hl.
Qed.

(** A case: two workers, alpha = 1/2, eps = 1/2, lr = 1, gradients 1 and 1, steps one after the other: mean squares 1/2
    and 3/4. *)
Notation plain := {| alpha := 1 / 2; eps := 1 / 2; lr := 1; momentum := 0; centered := false; weight_decay := 0 |}.
Example plain_good : good plain /\ Forall (fun ig => fst ig < 2)%nat [(0%nat, 1); (1%nat, 1)].
Proof. split; [split; cbn; lra|repeat constructor]. Qed.
Example plain_run : exists p, run plain (new_shared plain 0) [Some 1; Some 1] = Ok p
  /\ p_data p = - (1 / sqrt (0 * (1 / 2) + (1 - 1 / 2) * (1 * 1) + 1 / 2)) - 1 / sqrt ((0 * (1 / 2) + (1 - 1 / 2) * (1 * 1)) * (1 / 2) + (1 - 1 / 2) * (1 * 1) + 1 / 2).
Proof.
  eexists. split.
  - cbn [run step new_shared p_state p_data init_state square_avg momentum_buffer grad_avg momentum centered]. unfold decayed. cbn [weight_decay].
    destruct (Req_EM_T 0 0) as [_|N]; [|contradiction]. destruct (Rlt_dec 0 0) as [N|_]; [lra|]. cbn [rbind alpha eps lr p_state p_data square_avg grad_avg momentum_buffer st_step].
    reflexivity.
  - cbn [p_data]. ring.
Qed.

Print Assumptions C129_finite.
Print Assumptions C129_bound.
Print Assumptions C129_serial.
