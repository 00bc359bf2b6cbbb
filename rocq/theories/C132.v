(** C132: in binary64, the linear decay undershoots its end value, and beta has not reached 1 after betasteps samples. *)
From Coq Require Import Reals Lra Lia Psatz ZArith.
From Flocq Require Import Core BinarySingleNaN.
From Verif Require Import Base M_FloatTree P_FloatB64 M_FloatSchedule P_FloatSchedule C131.
Open Scope R_scope.

(** Decaying from 1.0 to 0.1, over whatever number of steps: at the last step of the decay epsilon is below 0.1, and at the
    step after it goes up to 0.1. *)
Theorem C132_undershoot_refuted : forall n, (0 < n <= 2 ^ 53)%Z ->
  exists v, linear64 f1_0 f0_1 n n = Ok v /\ B2R v < B2R f0_1 /\ linear64 f1_0 f0_1 n (n + 1) = Ok f0_1.
Proof.
  intros n Hn. destruct prob_1_0 as [F1 H1]. destruct prob_0_1 as [F0 H0].
  destruct (linear64_val f1_0 f0_1 n F1 F0 H1 H0 Hn n ltac:(lia)) as (v & E & Fv & Ev).
  destruct (linear64_val f1_0 f0_1 1 F1 F0 H1 H0 ltac:(lia) 1 ltac:(lia)) as (v1 & E1 & Fv1 & Ev1).
  exists v. split; [exact E|]. split.
  - assert (Q : quo n n = quo 1 1). { unfold quo. f_equal. assert (0 < IZR n) by (apply IZR_lt; lia). field. lra. }
    rewrite Ev. unfold val. rewrite Q.
    fold (val f1_0 f0_1 1 1). rewrite <- Ev1.
    assert (B : rmap (fun v => fltb v f0_1) (linear64 f1_0 f0_1 1 1) = Ok true) by (vm_compute; reflexivity).
    rewrite E1 in B. cbn [rmap rbind] in B. injection B as B. rewrite (Bltb_correct 53 1024 v1 f0_1 Fv1 F0) in B.
    destruct (Rlt_bool_spec (B2R v1) (B2R f0_1)) as [L|L]; [exact L|discriminate].
  - unfold linear64. replace (n <? n + 1)%Z with true by (symmetry; apply Z.ltb_lt; lia). reflexivity.
Qed.

(** Beta from the default 0.4 in 3 (or 6) steps: after them it is below 1. *)
Theorem C132_beta_refuted :
  rmap (fun b => fltb b f1_0) (beta64 f0_4 (Some 3%Z) 3) = Ok true
  /\ rmap (fun b => fltb b f1_0) (beta64 f0_4 (Some 6%Z) 6) = Ok true
  /\ rmap (fun b => fltb b f1_0) (beta64 f0_4 (Some 6%Z) 7) = Ok false.
Proof. repeat split; vm_compute; reflexivity. Qed.

Print Assumptions C132_undershoot_refuted.
Print Assumptions C132_beta_refuted.
