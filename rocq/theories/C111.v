(** C111: bounded deterministic policies. *)
From Coq Require Import Reals Lra.
From Verif Require Import Base M_Bounded.
Open Scope R_scope.

(** ** tanh *)
Lemma tanh_exp x : tanh x = 1 - 2 / (exp (2 * x) + 1).
Proof.
  unfold tanh, sinh, cosh. pose proof (exp_pos x) as P. pose proof (exp_pos (- x)) as Q. pose proof (exp_pos (2 * x)) as S. assert (E : exp (2 * x) = exp x * exp x) by (rewrite <- exp_plus; f_equal; ring). assert (I : exp (- x) = / exp x) by apply exp_Ropp.
  rewrite E, I in *. field. split; [|lra]. assert (0 < exp x * exp x) by (apply Rmult_lt_0_compat; assumption). lra.
Qed.
Lemma tanh_zero : tanh 0 = 0.
Proof. rewrite tanh_exp, Rmult_0_r, exp_0. lra. Qed.
Lemma tanh_increasing x y : x < y -> tanh x < tanh y.
Proof.
  intros H. rewrite !tanh_exp. assert (E : exp (2 * x) < exp (2 * y)) by (apply exp_increasing; lra). pose proof (exp_pos (2 * x)) as P. pose proof (exp_pos (2 * y)) as Q.
  assert (/ (exp (2 * y) + 1) < / (exp (2 * x) + 1)). { apply Rinv_lt_contravar; [apply Rmult_lt_0_compat; lra|lra]. } unfold Rdiv. lra.
Qed.
Lemma tanh_bound x : -1 < tanh x < 1.
Proof.
  rewrite tanh_exp. pose proof (exp_pos (2 * x)) as P. assert (D : 0 < exp (2 * x) + 1) by lra. assert (I : 0 < / (exp (2 * x) + 1)) by now apply Rinv_0_lt_compat. assert (J : / (exp (2 * x) + 1) < 1). { rewrite <- Rinv_1. apply Rinv_lt_contravar; lra. } unfold Rdiv. lra.
Qed.
Lemma tanh_onto y : -1 < y < 1 -> exists x, tanh x = y.
Proof.
  intros H. exists (ln ((1 + y) / (1 - y)) / 2). rewrite tanh_exp. replace (2 * (ln ((1 + y) / (1 - y)) / 2)) with (ln ((1 + y) / (1 - y))) by field.
  rewrite exp_ln; [|apply Rdiv_lt_0_compat; lra]. field. split; lra.
Qed.

(** Every element is strictly between its bounds, grows with the input, is the middle for 0, and every value strictly between the bounds is reached, once. *)
Theorem C111_bound low high : low < high ->
  (forall x, low < bound1 x low high < high) /\ (forall x y, x < y -> bound1 x low high < bound1 y low high) /\ bound1 0 low high = (low + high) / 2 /\
  forall a, low < a < high -> exists! x, bound1 x low high = a.
Proof.
  intros H. unfold bound1. assert (I : forall x y, x < y -> tanh x * ((high - low) / 2) + (high + low) / 2 < tanh y * ((high - low) / 2) + (high + low) / 2).
  { intros x y L. pose proof (tanh_increasing x y L) as T. assert (tanh x * ((high - low) / 2) < tanh y * ((high - low) / 2)) by (apply Rmult_lt_compat_r; lra). lra. }
  split; [|split; [exact I|split]].
  - intros x. pose proof (tanh_bound x) as [T1 T2]. assert (U1 : -1 * ((high - low) / 2) < tanh x * ((high - low) / 2)) by (apply Rmult_lt_compat_r; lra). assert (U2 : tanh x * ((high - low) / 2) < 1 * ((high - low) / 2)) by (apply Rmult_lt_compat_r; lra). lra.
  - rewrite tanh_zero. lra.
  - intros a [A1 A2]. destruct (tanh_onto ((a - (high + low) / 2) / ((high - low) / 2))) as [x X].
    + split; [apply Rmult_lt_reg_r with ((high - low) / 2)|apply Rmult_lt_reg_r with ((high - low) / 2)]; try lra; (replace ((a - (high + low) / 2) / ((high - low) / 2) * ((high - low) / 2)) with (a - (high + low) / 2) by (field; lra)); lra.
    + exists x. split; [rewrite X; field; lra|]. intros y Y. destruct (Rtotal_order x y) as [L | [L | L]]; [|exact L|]; apply I in L; rewrite X in L; exfalso; replace ((a - (high + low) / 2) / ((high - low) / 2) * ((high - low) / 2) + (high + low) / 2) with a in L by (field; lra); lra.
Qed.

Lemma bound_row_ok x : forall low high r, bound_row x low high = Ok r -> length r = length x /\ forall i a l h, nth_error r i = Some a -> nth_error low i = Some l -> nth_error high i = Some h -> exists y, nth_error x i = Some y /\ a = bound1 y l h.
Proof.
  induction x as [|y x IH]; intros [|l low] [|h high] r E; try discriminate; cbn [bound_row] in E.
  - injection E as <-. split; [reflexivity|]. intros [|i]; discriminate.
  - destruct (bound_row x low high) as [r'|] eqn:R; [|discriminate]. cbn in E. injection E as <-. destruct (IH _ _ _ R) as [L H]. split; [cbn; congruence|]. intros [|i] a l' h' A B C; cbn in *; [injection A as <-; injection B as <-; injection C as <-; eauto|eauto].
Qed.
Lemma bound_row_total x : forall low high, length x = length low -> length x = length high -> exists r, bound_row x low high = Ok r.
Proof. induction x as [|y x IH]; intros [|l low] [|h high] A B; try discriminate; [now exists []|]. cbn [bound_row]. destruct (IH low high) as [r ->]; [now injection A|now injection B|]. cbn. eauto. Qed.
Lemma bound_rows_ok x : forall low high r, bound_rows x low high = Ok r -> Forall2 (fun a b => bound_row a low high = Ok b) x r.
Proof.
  induction x as [|y x IH]; intros low high r E; cbn [bound_rows] in E; [injection E as <-; constructor|]. destruct (bound_row y low high) as [b|] eqn:R; [|discriminate]. cbn in E. destruct (bound_rows x low high) as [bs|] eqn:S; [|discriminate]. cbn in E. injection E as <-. constructor; auto.
Qed.
(** All samples of a bounded deterministic policy for the same observations are equal, and each of their elements is within its bounds, whatever the network computes. *)
Theorem C111_actions net low high obs n : Forall (fun r => length r = length low /\ length r = length high) (net obs) ->
  exists samples, bounded_policy net low high obs n = Ok samples /\ length samples = n /\ (forall s t, In s samples -> In t samples -> s = t) /\
  forall s, In s samples -> length s = length (net obs) /\ Forall (fun row => length row = length low) s /\
    forall row i a l h, In row s -> nth_error row i = Some a -> nth_error low i = Some l -> nth_error high i = Some h -> (l < h -> l < a < h) /\ (l = h -> a = l).
Proof.
  intros F. assert (T : exists loc, bound_rows (net obs) low high = Ok loc).
  { induction F as [|r x [F1 F2] F [loc IH]]; [now exists []|]. cbn [bound_rows]. destruct (bound_row_total r low high F1 F2) as [b ->]. cbn. rewrite IH. cbn. eauto. }
  destruct T as [loc T]. exists (repeat loc n). unfold bounded_policy, bound_by_tanh. rewrite T. cbn. split; [reflexivity|]. split; [apply repeat_length|]. split; [intros s t S1 S2; apply repeat_spec in S1, S2; congruence|].
  intros s S. apply repeat_spec in S. subst s. apply bound_rows_ok in T. split; [clear F; induction T; cbn; congruence|]. split.
  - clear n. induction T as [|r b x loc R T IH]; [constructor|]. apply Forall_cons_iff in F. destruct F as [[F1 _] F]. constructor; [|now apply IH]. apply bound_row_ok in R. destruct R as [R _]. congruence.
  - intros row i a l h I A L H. assert (R : exists r, bound_row r low high = Ok row). { clear - T I. induction T as [|r b x loc R T IH]; [destruct I|]. destruct I as [<- | I]; eauto. }
    destruct R as [r R]. apply bound_row_ok in R. destruct R as [_ R]. destruct (R i a l h A L H) as (y & _ & ->). split; [intros LH; now apply C111_bound|]. intros <-. unfold bound1. lra.
Qed.
(** A bound that is not given, or does not fit, is refused; the point distribution has its location as mean and no deviation, and refuses densities and entropies. *)
Theorem C111_rest : (forall x low, bound_by_tanh x None low = Err AssertionError /\ bound_by_tanh x low None = Err AssertionError) /\
  (forall d n s, In s (delta_sample d n) -> s = delta_mean d) /\ (forall d n e, In e (delta_expand d n) -> delta_mean e = delta_mean d) /\ (forall d row x, In row (delta_stddev d) -> In x row -> x = 0) /\
  (forall d v, delta_log_prob d v = Err RuntimeError /\ delta_entropy d = Err RuntimeError).
Proof.
  split; [intros x [l|]; split; reflexivity|]. split; [intros d n s; apply repeat_spec|]. split; [intros d n e H; apply repeat_spec in H; now subst|]. split; [|split; reflexivity].
  intros d row x I J. unfold delta_stddev in I. apply in_map_iff in I. destruct I as (r & <- & _). apply in_map_iff in J. now destruct J as (y & <- & _).
Qed.

(** Two actions in [-1, 3] and [0, 0]: with preactivation 0 they are 1 and 0. *)
Example C111_ex : exists samples, bounded_policy (fun o => o) [-1; 0] [3; 0] [[0; 5]] 2 = Ok samples /\ samples = [[[1; 0]]; [[1; 0]]].
Proof.
  eexists. split; [reflexivity|]. unfold delta_sample, deterministic_head, bound1. cbn [repeat]. rewrite tanh_zero. repeat f_equal; lra.
Qed.
Example C111_ex_hyp : Forall (fun r : list R => length r = length [-1; 0] /\ length r = length [3; 0]) [[0; 5]] /\ -1 < 3.
Proof. split; [repeat constructor|lra]. Qed.

Print Assumptions C111_bound.
Print Assumptions C111_actions.
Print Assumptions C111_rest.
