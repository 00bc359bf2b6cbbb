(** C85: clipping the gradient's L2 norm. *)
From Coq Require Import Reals Lra Lia Psatz.
From Verif Require Import Base M_ClipGrad.
Open Scope R_scope.

(** The L2 norm of all gradients taken together, as one long vector. *)
Definition all_entries (ps : list (option (list R))) : list R :=
  flat_map (fun p => match p with Some g => g | None => [] end) ps.
Fixpoint squares (l : list R) : R := match l with [] => 0 | x :: t => x ^ 2 + squares t end.
Definition l2 (l : list R) : R := sqrt (squares l).

Lemma sum_sq_squares l : sum_sq l = squares l.
Proof. induction l; cbn; [reflexivity|]. rewrite IHl. ring. Qed.
Lemma squares_nonneg l : 0 <= squares l.
Proof. induction l; cbn [squares]; [lra|]. pose proof (pow2_ge_0 a). lra. Qed.
Lemma squares_app a b : squares (a ++ b) = squares a + squares b.
Proof. induction a; cbn [app squares]; [ring|]. rewrite IHa. ring. Qed.
Lemma squares_scale c l : squares (map (fun x => x * c) l) = c ^ 2 * squares l.
Proof. induction l; cbn [map squares]; [ring|]. rewrite IHl. ring. Qed.

Lemma norm_all ps : norm (map norm (grads ps)) = l2 (all_entries ps).
Proof.
  unfold norm at 1, l2. f_equal. unfold all_entries. induction ps as [|[g|] ps IH]; cbn [grads map flat_map sum_sq]; [reflexivity| |exact IH].
  rewrite IH, squares_app. unfold norm. rewrite sqrt_sqrt; [|rewrite sum_sq_squares; apply squares_nonneg]. rewrite sum_sq_squares. reflexivity.
Qed.

Lemma all_scaled c ps : all_entries (map (option_map (map (fun x => x * c))) ps) = map (fun x => x * c) (all_entries ps).
Proof. unfold all_entries. induction ps as [|[g|] ps IH]; cbn [map flat_map option_map]; [reflexivity| |exact IH]. rewrite IH, map_app. reflexivity. Qed.

Lemma l2_nonneg l : 0 <= l2 l. Proof. apply sqrt_pos. Qed.
Lemma l2_scale c l : 0 <= c -> l2 (map (fun x => x * c) l) = c * l2 l.
Proof.
  intros H. unfold l2. rewrite squares_scale, sqrt_mult_alt by (apply pow2_ge_0). rewrite sqrt_pow2 by exact H. reflexivity.
Qed.

Lemma scale_one ps : map (option_map (map (fun x => x * 1))) ps = ps.
Proof.
  rewrite <- (map_id ps) at 2. apply map_ext. intros [g|]; [|reflexivity]. cbn. f_equal. rewrite <- (map_id g) at 2. apply map_ext. intros x. ring.
Qed.

(** For all gradients (missing ones included) and every non-negative limit: the returned number is the norm before
    clipping; the gradients are all multiplied by one number between 0 and 1 (positive if the limit is) and missing
    ones stay missing; afterwards the norm is at most the limit; nothing changes if the norm was below the limit by
    10^-6 or more; and a norm above the limit is reduced to the limit up to a relative error of 10^-6 / norm. *)
Theorem C85_clip : forall ps max_norm, 0 <= max_norm ->
  let out := clip_l2_grad_norm ps max_norm in
  let before := l2 (all_entries ps) in
  let after := l2 (all_entries (fst out)) in
  snd out = before
  /\ (exists c, 0 <= c <= 1 /\ (0 < max_norm -> 0 < c)
        /\ fst out = map (option_map (map (fun x => x * c))) ps /\ after = c * before)
  /\ after <= max_norm
  /\ (before + / 1000000 <= max_norm -> fst out = ps)
  /\ (max_norm <= before -> max_norm * before = after * (before + / 1000000)).
Proof.
  intros ps max_norm Hm. cbn zeta. unfold clip_l2_grad_norm. destruct ps as [|p ps].
  { cbn [fst snd all_entries flat_map]. assert (E : l2 [] = 0) by (unfold l2; cbn; apply sqrt_0). rewrite E.
    split; [reflexivity|]. split; [exists 1; repeat split; try lra; reflexivity|]. split; [exact Hm|]. split; [reflexivity|]. intros H. lra. }
  set (l := p :: ps). rewrite norm_all. set (t := l2 (all_entries l)). assert (Ht : 0 <= t) by apply l2_nonneg.
  assert (Hp : 0 < t + / 1000000) by lra.
  set (c := max_norm / (t + / 1000000)). assert (Ec : c * (t + / 1000000) = max_norm) by (unfold c; field; lra).
  assert (Hc : 0 <= c) by (unfold c; apply Rmult_le_pos; [exact Hm|left; now apply Rinv_0_lt_compat]).
  cbn [fst snd]. destruct (Rlt_dec c 1) as [L|L].
  - rewrite all_scaled, l2_scale by exact Hc. fold t. split; [reflexivity|]. split.
    { exists c. split; [lra|]. split; [|split; reflexivity]. intros P. unfold c. apply Rmult_lt_0_compat; [exact P|now apply Rinv_0_lt_compat]. }
    split; [nra|]. split; [intros H; exfalso; nra|]. intros H. rewrite <- Ec. ring.
  - fold t. assert (Hge : t + / 1000000 <= max_norm) by (rewrite <- Ec; nra).
    split; [reflexivity|]. split.
    { exists 1. split; [lra|]. split; [lra|]. split; [symmetry; apply scale_one|ring]. }
    split; [lra|]. split; [reflexivity|]. intros H. lra.
Qed.

(** Non-trivial instance: gradients (3), missing, (0, 4) have norm 5; the limit 1 reduces it. *)
Example C85_example : l2 (all_entries [Some [3]; None; Some [0; 4]]) = 5
  /\ exists c, fst (clip_l2_grad_norm [Some [3]; None; Some [0; 4]] 1) = [Some [3 * c]; None; Some [0 * c; 4 * c]] /\ c * (5 + / 1000000) = 1.
Proof.
  assert (E : l2 (all_entries [Some [3]; None; Some [0; 4]]) = 5).
  { unfold l2, all_entries. cbn [flat_map app squares]. replace (3 ^ 2 + (0 ^ 2 + (4 ^ 2 + 0))) with (5 ^ 2) by ring. apply sqrt_pow2. lra. }
  split; [exact E|]. exists (1 / (5 + / 1000000)). split; [|field; lra].
  unfold clip_l2_grad_norm. rewrite norm_all, E. cbn [fst]. destruct (Rlt_dec _ 1) as [L|L]; [reflexivity|].
  exfalso. apply L. apply (Rmult_lt_reg_r (5 + / 1000000)); [lra|]. unfold Rdiv. rewrite Rmult_assoc, Rinv_l by lra. lra.
Qed.

Print Assumptions C85_clip.
