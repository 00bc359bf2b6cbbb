(** C47: the values LinearInterpolationHook sets. *)
From Verif Require Import Base M_Hooks.
From Coq Require Import ZifyBool ZifyNat Lqa Lia Qminmax.
Open Scope nat_scope.

Definition q (n : nat) : Q := inject_Z (Z.of_nat n).
Lemma q_le a b : (q a <= q b)%Q <-> a <= b.
Proof. unfold q. rewrite <- Zle_Qle. lia. Qed.
Lemma q_lt a b : (q a < q b)%Q <-> a < b.
Proof. unfold q. rewrite <- Zlt_Qlt. lia. Qed.
Lemma q_eq a b : (q a == q b)%Q <-> a = b.
Proof. unfold q. rewrite inject_Z_injective. lia. Qed.

Lemma hook_cases h step : 1 <= step ->
  (hook_value h step == if total_steps h <=? step then stop_value h else
     start_value h + (q step - 1) / (q (total_steps h) - 1) * (stop_value h - start_value h))%Q.
Proof.
  intros Hs. unfold hook_value, interp. cbn [last hd tl length nth]. fold (q step) (q (total_steps h)). change 1%Q with (q 1). unfold qltb.
  destruct (total_steps h <=? step) eqn:E.
  - assert (Hle : total_steps h <= step) by lia. destruct (Qle_bool (q step) (q (total_steps h))) eqn:E1; cbn [negb]; [|reflexivity].
    apply Qle_bool_iff, q_le in E1. assert (EQ : step = total_steps h) by lia.
    assert (E2 : Qle_bool (q 1) (q step) = true) by (apply Qle_bool_iff, q_le; lia). rewrite E2. cbn [negb scan]. rewrite EQ. assert (E3 : Qle_bool (q (total_steps h)) (q (total_steps h)) = true) by (apply Qle_bool_iff, Qle_refl). rewrite E3. reflexivity.
  - assert (Hlt : step < total_steps h) by lia. assert (E1 : Qle_bool (q step) (q (total_steps h)) = true) by (apply Qle_bool_iff, q_le; lia). rewrite E1. cbn [negb].
    assert (E2 : Qle_bool (q 1) (q step) = true) by (apply Qle_bool_iff, q_le; lia). rewrite E2. cbn [negb scan].
    assert (E3 : Qle_bool (q (total_steps h)) (q step) = false) by (apply not_true_iff_false; intros C; apply Qle_bool_iff, q_le in C; lia). rewrite E3.
    change ((1 - 1) =? (2 - 1)) with false. cbn [nth Nat.sub]. assert (P : (0 < q (total_steps h) - q 1)%Q) by (assert (q 1 < q (total_steps h))%Q by (apply q_lt; lia); lra).
    destruct (Qeq_bool (q 1) (q step)) eqn:E4.
    + apply Qeq_bool_iff in E4. apply (q_eq 1 step) in E4. subst step. field. lra.
    + field. lra.
Qed.

(** With at least two steps in all: the start value at step 1, the stop value from the last step on, on the straight line between
    (1, start) and (total_steps, stop) before, and never outside the two values. *)
Theorem C47_linear h step : 2 <= total_steps h -> 1 <= step ->
  (hook_value h 1 == start_value h)%Q /\
  (total_steps h <= step -> (hook_value h step == stop_value h)%Q) /\
  (step <= total_steps h -> ((hook_value h step - start_value h) * (q (total_steps h) - 1) == (q step - 1) * (stop_value h - start_value h))%Q) /\
  (Qmin (start_value h) (stop_value h) <= hook_value h step <= Qmax (start_value h) (stop_value h))%Q.
Proof.
  intros Ht Hs. assert (P : (0 < q (total_steps h) - 1)%Q) by (assert (q 1 < q (total_steps h))%Q by (apply q_lt; lia); change (q 1) with 1%Q in *; lra).
  pose proof (hook_cases h step Hs) as H. pose proof (hook_cases h 1 (le_n 1)) as H1.
  assert (LIN : step <= total_steps h -> ((hook_value h step - start_value h) * (q (total_steps h) - 1) == (q step - 1) * (stop_value h - start_value h))%Q).
  { intros L. rewrite H. destruct (total_steps h <=? step) eqn:E; [|field; lra]. assert (step = total_steps h) as -> by lia. ring. }
  split; [|split; [|split; [exact LIN|]]].
  - rewrite H1. replace (total_steps h <=? 1) with false by lia. change (q 1) with 1%Q. field. lra.
  - intros L. rewrite H. replace (total_steps h <=? step) with true by lia. reflexivity.
  - destruct (Nat.le_gt_cases step (total_steps h)) as [L|L].
    + specialize (LIN L). assert (S0 : (0 <= q step - 1)%Q) by (assert (q 1 <= q step)%Q by (apply q_le; lia); change (q 1) with 1%Q in *; lra).
      assert (S1 : (q step - 1 <= q (total_steps h) - 1)%Q) by (assert (q step <= q (total_steps h))%Q by (apply q_le; lia); lra).
      set (v := hook_value h step) in *. set (a := start_value h) in *. set (b := stop_value h) in *. set (n := (q (total_steps h) - 1)%Q) in *. set (s := (q step - 1)%Q) in *.
      destruct (Qlt_le_dec a b) as [C|C].
      * rewrite Q.min_l, Q.max_r by lra. split; [destruct (Qlt_le_dec v a); [exfalso; nra|assumption]|destruct (Qlt_le_dec b v); [exfalso; nra|assumption]].
      * rewrite Q.min_r, Q.max_l by lra. split; [destruct (Qlt_le_dec v b); [exfalso; nra|assumption]|destruct (Qlt_le_dec a v); [exfalso; nra|assumption]].
    + rewrite H. replace (total_steps h <=? step) with true by lia. split; [apply Q.le_min_r|apply Q.le_max_r].
Qed.
Print Assumptions C47_linear.

(** With one step in all (the two points coincide) it is the stop value from the first step on. *)
Theorem C47_one_step h step : total_steps h <= 1 -> 1 <= step -> (hook_value h step == stop_value h)%Q.
Proof. intros Ht Hs. rewrite (hook_cases h step Hs). replace (total_steps h <=? step) with true by lia. reflexivity. Qed.
Print Assumptions C47_one_step.

(** Decaying from 1 to 0 over five steps, run for seven. *)
Example C47_case : map Qred (hook_run (mkHook 5 1 0) 7) = [1; 3 # 4; 1 # 2; 1 # 4; 0; 0; 0]%Q.
Proof. vm_compute. reflexivity. Qed.
