(** C79: PPO's loss. *)
From Coq Require Import Reals Lra Lia Psatz.
From Verif Require Import Base M_PPOLoss S_PPOLoss P_PPOLoss.
Open Scope R_scope.

Definition loss_of (c : ppo_cfg) (xs : list sample) : R :=
  lossfun c (map x_entropy xs) (map x_v xs) (map x_logp xs) (map x_v_old xs) (map x_logp_old xs) (map x_adv xs) (map x_target xs).

(** The loss is the mean of the clipped surrogate, of the worse of the plain and the clipped squared value error, and of the entropy. *)
Theorem C79_loss (c : ppo_cfg) (xs : list sample) : 0 <= clip_eps c -> match clip_eps_vf c with Some e => 0 <= e | None => True end ->
  exists clipped : sample -> R,
    loss_of c xs = - average (fun x => surrogate (clip_eps c) (exp (x_logp x - x_logp_old x)) (x_adv x)) xs
                   + value_func_coef c * average (fun x => match clip_eps_vf c with
                                                           | None => (x_v x - x_target x) ^ 2
                                                           | Some _ => Rmax ((x_v x - x_target x) ^ 2) ((clipped x - x_target x) ^ 2) end) xs
                   - entropy_coef c * average x_entropy xs /\
    forall x e, clip_eps_vf c = Some e -> nearest (x_v_old x - e) (x_v_old x + e) (x_v x) (clipped x).
Proof.
  intros H1 H2. exists (fun x => match clip_eps_vf c with Some e => elementwise_clip (x_v x) (x_v_old x - e) (x_v_old x + e) | None => 0 end). split.
  - unfold loss_of, lossfun. rewrite !map3_map, !rmean_average.
    rewrite (average_ext (fun x => policy_term c (x_logp x) (x_logp_old x) (x_adv x)) (fun x => surrogate (clip_eps c) (exp (x_logp x - x_logp_old x)) (x_adv x))) by (intros; apply policy_term_surrogate, H1).
    rewrite (average_ext (fun x => value_term c (x_v x) (x_v_old x) (x_target x))
      (fun x => match clip_eps_vf c with None => (x_v x - x_target x) ^ 2
        | Some _ => Rmax ((x_v x - x_target x) ^ 2) ((match clip_eps_vf c with Some e => elementwise_clip (x_v x) (x_v_old x - e) (x_v_old x + e) | None => 0 end - x_target x) ^ 2) end)).
    + ring.
    + intros x _. unfold value_term, sqerr. destruct (clip_eps_vf c); [f_equal|]; ring.
  - intros x e E. rewrite E in *. apply clip_nearest. lra.
Qed.

(** The loss never falls below the loss without clipping, and equals it where neither the ratio nor the value has moved out of its interval. *)
Definition unclipped_loss (c : ppo_cfg) (xs : list sample) : R :=
  - average (fun x => exp (x_logp x - x_logp_old x) * x_adv x) xs + value_func_coef c * average (fun x => (x_v x - x_target x) ^ 2) xs - entropy_coef c * average x_entropy xs.
Theorem C79_pessimistic (c : ppo_cfg) (xs : list sample) :
  0 <= clip_eps c -> match clip_eps_vf c with Some e => 0 <= e | None => True end -> 0 <= value_func_coef c ->
  unclipped_loss c xs <= loss_of c xs /\
  ((forall x, In x xs -> 1 - clip_eps c <= exp (x_logp x - x_logp_old x) <= 1 + clip_eps c /\ match clip_eps_vf c with Some e => Rabs (x_v x - x_v_old x) <= e | None => True end) ->
   loss_of c xs = unclipped_loss c xs).
Proof.
  intros H1 H2 H3. unfold unclipped_loss, loss_of, lossfun. rewrite !map3_map, !rmean_average. split.
  - assert (A : average (fun x => policy_term c (x_logp x) (x_logp_old x) (x_adv x)) xs <= average (fun x => exp (x_logp x - x_logp_old x) * x_adv x) xs).
    { apply average_le. intros x _. rewrite policy_term_surrogate by exact H1. apply surrogate_le. }
    assert (B : average (fun x => (x_v x - x_target x) ^ 2) xs <= average (fun x => value_term c (x_v x) (x_v_old x) (x_target x)) xs).
    { apply average_le. intros x _. unfold value_term, sqerr. destruct (clip_eps_vf c); [eapply Rle_trans; [|apply Rmax_l]|]; right; ring. }
    nra.
  - intros H.
    rewrite (average_ext (fun x => policy_term c (x_logp x) (x_logp_old x) (x_adv x)) (fun x => exp (x_logp x - x_logp_old x) * x_adv x)).
    2:{ intros x Hx. destruct (H x Hx) as (R1 & _). rewrite policy_term_surrogate by exact H1. unfold surrogate, Rmin, Rmax. repeat destruct (Rle_dec _ _); nra. }
    rewrite (average_ext (fun x => value_term c (x_v x) (x_v_old x) (x_target x)) (fun x => (x_v x - x_target x) ^ 2)).
    2:{ intros x Hx. destruct (H x Hx) as (_ & R2). unfold value_term, sqerr. destruct (clip_eps_vf c) as [e|]; [|ring].
        assert (E : elementwise_clip (x_v x) (x_v_old x - e) (x_v_old x + e) = x_v x).
        { unfold elementwise_clip, Rmin, Rmax. unfold Rabs in R2. repeat destruct (Rle_dec _ _); destruct (Rcase_abs _); lra. }
        rewrite E. unfold Rmax. destruct (Rle_dec _ _); ring. }
    ring.
Qed.

(** No gain from moving a sample further once it is out of its interval in the direction its advantage rewards; or the value prediction once it has moved
    out of its interval towards the target without passing it. *)
Definition moved (x y : sample) : Prop := x_entropy y = x_entropy x /\ x_v_old y = x_v_old x /\ x_logp_old y = x_logp_old x /\ x_adv y = x_adv x /\ x_target y = x_target x.
Definition saturated (c : ppo_cfg) (x : sample) : Prop :=
  (0 <= x_adv x /\ 1 + clip_eps c <= exp (x_logp x - x_logp_old x)) \/ (x_adv x <= 0 /\ exp (x_logp x - x_logp_old x) <= 1 - clip_eps c).
Definition v_saturated (c : ppo_cfg) (x : sample) : Prop :=
  exists e, clip_eps_vf c = Some e /\ (x_v_old x + e <= x_v x <= x_target x \/ x_target x <= x_v x <= x_v_old x - e).
Theorem C79_no_gain (c : ppo_cfg) (xs : list sample) (x y : sample) (zs : list sample) :
  0 <= clip_eps c -> match clip_eps_vf c with Some e => 0 <= e | None => True end -> moved x y ->
  (saturated c x /\ saturated c y \/ x_logp y = x_logp x) -> (v_saturated c x /\ v_saturated c y \/ x_v y = x_v x) ->
  loss_of c (xs ++ y :: zs) = loss_of c (xs ++ x :: zs).
Proof.
  intros H1 H2 (M1 & M2 & M3 & M4 & M5) HP HV. unfold loss_of, lossfun. rewrite !map3_map, !rmean_average. unfold average. rewrite !app_length. cbn [length].
  assert (T : forall f : sample -> R, f y = f x -> total f (xs ++ y :: zs) = total f (xs ++ x :: zs)).
  { intros f E. induction xs as [|a l IH]; cbn [app total]; [rewrite E; reflexivity|]. rewrite IH. reflexivity. }
  rewrite (T x_entropy M1).
  rewrite (T (fun x => policy_term c (x_logp x) (x_logp_old x) (x_adv x))).
  2:{ rewrite !policy_term_surrogate by exact H1. destruct HP as [(S1 & S2)| ->]; [|rewrite M3, M4; reflexivity]. unfold saturated in *. rewrite M3, M4 in *.
      unfold surrogate, Rmin, Rmax. repeat destruct (Rle_dec _ _); nra. }
  rewrite (T (fun x => value_term c (x_v x) (x_v_old x) (x_target x))); [reflexivity|].
  destruct HV as [(S1 & S2)| ->]; [|rewrite M2, M5; reflexivity]. destruct S1 as (e & E & S1), S2 as (e' & E' & S2). assert (e' = e) by congruence. subst e'. rewrite M2, M5 in *.
  unfold value_term, sqerr. rewrite E in *. set (v := x_v x) in *. set (w := x_v y) in *. set (o := x_v_old x) in *. set (t := x_target x) in *. clearbody v w o t.
  assert (G : forall u, (o + e <= u <= t \/ t <= u <= o - e) -> Rmax ((u - t) * (u - t)) ((elementwise_clip u (o - e) (o + e) - t) * (elementwise_clip u (o - e) (o + e) - t)) =
     (if Rle_dec (o + e) t then (t - (o + e)) * (t - (o + e)) else (o - e - t) * (o - e - t))).
  { intros u Hu. assert (EC : elementwise_clip u (o - e) (o + e) = if Rle_dec (o + e) u then o + e else o - e).
    { unfold elementwise_clip, Rmin, Rmax. repeat destruct (Rle_dec _ _); lra. }
    rewrite EC. destruct (Rle_dec (o + e) u), (Rle_dec (o + e) t); unfold Rmax; destruct (Rle_dec _ _); nra. }
  rewrite (G w S2), (G v S1). reflexivity.
Qed.

(** Right after the data were collected (unchanged policy) the policy part is minus the mean advantage. *)
Theorem C79_first_step (c : ppo_cfg) (xs : list sample) : 0 <= clip_eps c -> value_func_coef c = 0 -> entropy_coef c = 0 ->
  (forall x, In x xs -> x_logp x = x_logp_old x) -> loss_of c xs = - average x_adv xs.
Proof.
  intros H1 H2 H3 H. unfold loss_of, lossfun. rewrite !map3_map, !rmean_average, H2, H3.
  rewrite (average_ext (fun x => policy_term c (x_logp x) (x_logp_old x) (x_adv x)) x_adv); [ring|].
  intros x Hx. rewrite policy_term_surrogate, (H x Hx) by exact H1. unfold surrogate. rewrite Rminus_diag_eq, exp_0 by reflexivity. unfold Rmin, Rmax. repeat destruct (Rle_dec _ _); nra.
Qed.

(** A case: eps = 1/5; a transition with advantage 2 whose probability has doubled, beside one with advantage -1 and unchanged probability. *)
Definition ex_c : ppo_cfg := {| clip_eps := / 5; clip_eps_vf := Some 1; value_func_coef := 1; entropy_coef := 0 |}.
Definition ex_x (lp v : R) : sample := {| x_entropy := 0; x_v := v; x_logp := lp; x_v_old := 0; x_logp_old := 0; x_adv := 2; x_target := 5 |}.
Definition ex_y : sample := {| x_entropy := 0; x_v := 0; x_logp := 0; x_v_old := 0; x_logp_old := 0; x_adv := -1; x_target := 0 |}.
Example C79_case : saturated ex_c (ex_x (ln 2) 2) /\ saturated ex_c (ex_x (ln 3) 3) /\ v_saturated ex_c (ex_x (ln 2) 2) /\ v_saturated ex_c (ex_x (ln 3) 3) /\
  loss_of ex_c [ex_x (ln 2) 2; ex_y] = 73 / 10.
Proof.
  assert (E2 : exp (ln 2 - 0) = 2) by (rewrite Rminus_0_r; apply exp_ln; lra). assert (E3 : exp (ln 3 - 0) = 3) by (rewrite Rminus_0_r; apply exp_ln; lra).
  split; [left; cbn; rewrite E2; lra|]. split; [left; cbn; rewrite E3; lra|]. split; [exists 1; split; [reflexivity|left; cbn; lra]|]. split; [exists 1; split; [reflexivity|left; cbn; lra]|].
  unfold loss_of, lossfun. cbn [map map3 ex_x ex_y x_entropy x_v x_logp x_v_old x_logp_old x_adv x_target]. rewrite !policy_term_surrogate by (cbn; lra).
  rewrite E2, Rminus_diag_eq, exp_0 by reflexivity. unfold rmean, surrogate, value_term, sqerr, elementwise_clip. cbn [rsum length INR ex_c clip_eps clip_eps_vf value_func_coef entropy_coef].
  unfold Rmin, Rmax. repeat (destruct (Rle_dec _ _); try lra).
Qed.

Print Assumptions C79_loss.
Print Assumptions C79_pessimistic.
Print Assumptions C79_no_gain.
Print Assumptions C79_first_step.
