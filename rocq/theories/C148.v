(** C148: freshly initialised linear layers keep the size of what passes through them. *)
From Coq Require Import Reals Lra Lia.
From Verif Require Import Base M_NoisyLinear M_Initializers S_Initializers.
Open Scope R_scope.

(** ** Sums *)
Fixpoint sumto (n : nat) (f : nat -> R) : R := match n with O => 0 | S n => sumto n f + f n end.
Lemma sumto_ext n f g : (forall j, (j < n)%nat -> f j = g j) -> sumto n f = sumto n g.
Proof. induction n as [|n IH]; intros H; cbn; [reflexivity|]. rewrite IH by (intros; apply H; lia). now rewrite H by lia. Qed.
Lemma sumto_shift n f : sumto (S n) f = f O + sumto n (fun j => f (S j)).
Proof. induction n as [|n IH]; [cbn; ring|]. change (sumto (S (S n)) f) with (sumto (S n) f + f (S n)). rewrite IH. cbn [sumto]. ring. Qed.
Lemma sumto_scale n a f : sumto n (fun j => a * f j) = a * sumto n f.
Proof. induction n as [|n IH]; cbn; [ring|]. rewrite IH. ring. Qed.
Lemma sumto_zero n : sumto n (fun _ => 0) = 0. Proof. induction n; cbn; lra. Qed.
Lemma sumto_one n j a : (j < n)%nat -> sumto n (fun k => if Nat.eqb j k then a else 0) = a.
Proof.
  induction n as [|n IH]; intros H; [lia|]. cbn [sumto]. destruct (Nat.eqb_spec j n) as [->|N]; [|rewrite IH by lia; ring].
  rewrite (sumto_ext n _ (fun _ => 0)); [rewrite sumto_zero; ring|]. intros k Hk. destruct (Nat.eqb_spec n k); [lia|reflexivity].
Qed.
Lemma squares_sum x : squares x = sumto (length x) (fun j => nth j x 0 * nth j x 0).
Proof. induction x as [|a x IH]; [reflexivity|]. cbn [squares length]. rewrite sumto_shift, IH. reflexivity. Qed.
Lemma dot_sum c : forall r x, length r = length x -> dotR (map (fun d => 0 + c * d) r) x = sumto (length x) (fun j => (c * nth j x 0) * nth j r 0).
Proof. induction r as [|a r IH]; intros [|b x] L; try discriminate; [reflexivity|]. cbn [map dotR length]. rewrite sumto_shift, IH by (cbn in L; lia). cbn [nth]. ring. Qed.

Section Average.
  Context (n_out n_in : nat) (E : (list (list R) -> R) -> R) (A : average_over n_out n_in E) (S : standard n_out n_in E).
  Lemma E_ext f g : (forall z, shaped n_out n_in z -> f z = g z) -> E f = E g. Proof. apply A. Qed.
  Lemma E_zero : E (fun _ => 0) = 0.
  Proof. rewrite (E_ext (fun _ => 0) (fun z => 0 * 0)) by (intros; ring). rewrite (proj2 (proj2 A) 0 (fun _ => 0)). ring. Qed.
  Lemma E_sum n (a : nat -> R) g : E (fun z => sumto n (fun j => a j * g j z)) = sumto n (fun j => a j * E (g j)).
  Proof. induction n as [|n IH]; cbn [sumto]; [apply E_zero|]. rewrite (proj1 (proj2 A)), IH, (proj2 (proj2 A)). reflexivity. Qed.
  Lemma E_row i (a : nat -> R) : (i < n_out)%nat -> E (fun z => sumto n_in (fun j => a j * draw i j z)) = 0.
  Proof. intros Hi. rewrite E_sum, (sumto_ext n_in _ (fun _ => 0)); [apply sumto_zero|]. intros j Hj. rewrite (proj1 S) by assumption. ring. Qed.
  Lemma E_rows i i' (a : nat -> R) : (i < n_out)%nat -> (i' < n_out)%nat ->
    E (fun z => sumto n_in (fun j => a j * draw i j z) * sumto n_in (fun j => a j * draw i' j z)) = if Nat.eqb i i' then sumto n_in (fun j => a j * a j) else 0.
  Proof.
    intros Hi Hi'. rewrite (E_ext _ (fun z => sumto n_in (fun j => a j * (sumto n_in (fun k => a k * (draw i j z * draw i' k z)))))).
    - rewrite E_sum. rewrite (sumto_ext n_in _ (fun j => if Nat.eqb i i' then a j * a j else 0)); [destruct (Nat.eqb i i'); [reflexivity|apply sumto_zero]|].
      intros j Hj. rewrite E_sum. rewrite (sumto_ext n_in _ (fun k => if Nat.eqb j k then (if Nat.eqb i i' then a j else 0) else 0)).
      + rewrite sumto_one by exact Hj. destruct (Nat.eqb i i'); ring.
      + intros k Hk. rewrite (proj2 S) by assumption. destruct (Nat.eqb i i'), (Nat.eqb_spec j k) as [->|]; cbn [andb]; ring.
    - intros z _. rewrite (Rmult_comm (sumto _ _)), <- sumto_scale. apply sumto_ext. intros j _. rewrite (Rmult_comm (sumto _ _)), <- sumto_scale, <- sumto_scale. apply sumto_ext. intros k _. ring.
  Qed.
End Average.

(** Output [i] of the layer. *)
Definition output (layer : list (list R) * option (list R)) (x : list R) (i : nat) : R := nth i (linear_row (fst layer) (snd layer) x) 0.
Definition out_of (n_in : nat) (scale : R) (has_bias : bool) (x : list R) (i : nat) (z : list (list R)) : R :=
  output (init_lecun_normal n_in scale z, if has_bias then Some (repeat 0 (length z)) else None) x i.
Lemma out_sum n_out x scale has_bias i z : shaped n_out (length x) z -> (i < n_out)%nat ->
  out_of (length x) scale has_bias x i z = sumto (length x) (fun j => (scale * sqrt (1 / INR (length x)) * nth j x 0) * draw i j z).
Proof.
  intros [L F] Hi. unfold out_of, output, init_lecun_normal, draw. cbn [fst snd]. set (c := scale * sqrt (1 / INR (length x))). subst n_out.
  assert (G : forall i z, (i < length z)%nat -> Forall (fun r => length r = length x) z -> nth i (linear_row (map (map (fun d => 0 + c * d)) z) (if has_bias then Some (repeat 0 (length z)) else None) x) 0 = dotR (map (fun d => 0 + c * d) (nth i z [])) x).
  { clear. intros i z. destruct has_bias; cbn [linear_row].
    - revert i. induction z as [|r z IH]; intros i Hi F; [cbn in Hi; lia|]. inversion F; subst. destruct i as [|i]; [cbn; ring|]. cbn [map length repeat combine nth]. apply IH; [cbn in Hi; lia|assumption].
    - revert i. induction z as [|r z IH]; intros i Hi F; [cbn in Hi; lia|]. inversion F; subst. destruct i as [|i]; [cbn; ring|]. cbn [map nth]. apply IH; [cbn in Hi; lia|assumption]. }
  rewrite (G i z Hi F). apply dot_sum. rewrite Forall_forall in F. apply F, nth_In, Hi.
Qed.

(** Over the draws, every output has mean zero and mean square scale^2 times the mean square of the inputs, and two outputs are not correlated. *)
Theorem C148_lecun : forall n_out E scale has_bias x i i', average_over n_out (length x) E -> standard n_out (length x) E -> x <> [] -> (i < n_out)%nat -> (i' < n_out)%nat ->
  E (out_of (length x) scale has_bias x i) = 0 /\
  E (fun z => out_of (length x) scale has_bias x i z * out_of (length x) scale has_bias x i z) = scale * scale * (squares x / INR (length x)) /\
  (i <> i' -> E (fun z => out_of (length x) scale has_bias x i z * out_of (length x) scale has_bias x i' z) = 0).
Proof.
  intros n_out E scale has_bias x i i' A S Hx Hi Hi'. assert (N : 0 < INR (length x)) by (apply lt_0_INR; destruct x; [congruence|cbn; lia]).
  set (a := fun j => scale * sqrt (1 / INR (length x)) * nth j x 0).
  assert (O : forall k z, (k < n_out)%nat -> shaped n_out (length x) z -> out_of (length x) scale has_bias x k z = sumto (length x) (fun j => a j * draw k j z)) by (intros; now apply (out_sum n_out)).
  split; [rewrite (E_ext _ _ _ A _ _ (fun z Hz => O i z Hi Hz)); now apply (E_row n_out (length x) E A S)|]. split.
  - rewrite (E_ext _ _ _ A _ (fun z => sumto (length x) (fun j => a j * draw i j z) * sumto (length x) (fun j => a j * draw i j z))) by (intros z Hz; now rewrite (O i z Hi Hz)).
    rewrite (E_rows n_out (length x) E A S i i a Hi Hi), Nat.eqb_refl, squares_sum. rewrite (sumto_ext _ _ (fun j => (scale * scale / INR (length x)) * (nth j x 0 * nth j x 0))).
    + rewrite sumto_scale. field. lra.
    + intros j _. unfold a. assert (Q : sqrt (1 / INR (length x)) * sqrt (1 / INR (length x)) = 1 / INR (length x)) by (apply sqrt_sqrt; left; apply Rdiv_lt_0_compat; lra).
      transitivity (scale * scale * (sqrt (1 / INR (length x)) * sqrt (1 / INR (length x))) * (nth j x 0 * nth j x 0)); [ring|]. rewrite Q. field. lra.
  - intros Hn. rewrite (E_ext _ _ _ A _ (fun z => sumto (length x) (fun j => a j * draw i j z) * sumto (length x) (fun j => a j * draw i' j z))) by (intros z Hz; now rewrite (O i z Hi Hz), (O i' z Hi' Hz)).
    rewrite (E_rows n_out (length x) E A S i i' a Hi Hi'). destruct (Nat.eqb_spec i i'); [contradiction|reflexivity].
Qed.
Print Assumptions C148_lecun.

(** The default initialisation of the library's networks: the mean square is kept, with or without bias. *)
Theorem C148_default : forall n_out E has_bias x i, average_over n_out (length x) E -> standard n_out (length x) E -> x <> [] -> (i < n_out)%nat ->
  E (fun z => output (init_chainer_default (length x) has_bias z) x i) = 0 /\
  E (fun z => output (init_chainer_default (length x) has_bias z) x i * output (init_chainer_default (length x) has_bias z) x i) = squares x / INR (length x).
Proof.
  intros n_out E has_bias x i A S Hx Hi. destruct (C148_lecun n_out E 1 has_bias x i i A S Hx Hi Hi) as (M & V & _). split; [exact M|]. etransitivity; [exact V|]. ring.
Qed.
Print Assumptions C148_default.

(** Two inputs, one output, the draws being the four pairs of signs, equally likely. *)
Definition signs (f : list (list R) -> R) : R := / 4 * (f [[1; 1]] + f [[1; -1]] + f [[-1; 1]] + f [[-1; -1]]).
Example C148_hyps : average_over 1 2 signs /\ standard 1 2 signs.
Proof.
  split.
  - split; [|split; intros; unfold signs; ring]. intros f g H. unfold signs. rewrite !H by (split; [reflexivity|repeat constructor]). reflexivity.
  - split.
    + intros i j Hi Hj. destruct i as [|i]; [|lia]. destruct j as [|[|j]]; [| |lia]; unfold signs, draw; cbn; lra.
    + intros i j i' j' Hi Hj Hi' Hj'. destruct i as [|i]; [|lia]. destruct i' as [|i']; [|lia]. destruct j as [|[|j]]; [| |lia]; (destruct j' as [|[|j']]; [| |lia]); unfold signs, draw; cbn; lra.
Qed.
Example C148_case : signs (fun z => output (init_chainer_default 2 true z) [3; 5] 0 * output (init_chainer_default 2 true z) [3; 5] 0) = 17.
Proof. destruct C148_hyps as [A S]. destruct (C148_default 1 signs true [3; 5] 0 A S) as [_ V]; [discriminate|lia|]. etransitivity; [exact V|]. cbn. lra. Qed.
