(** C97: factorised noisy layers. *)
From Coq Require Import Reals Lra Lia.
From Verif Require Import Base M_NoisyLinear.
Open Scope R_scope.

(** Specification: the noise of the paper, f(r) = sgn(r) sqrt|r|, and output [i] for one input row. *)
Definition f_noise (r : R) : R := if Rlt_dec r 0 then - sqrt (- r) else sqrt r.
Fixpoint row_out (ei : R) (m s ej x : list R) : R :=
  match m, s, ej, x with
  | m1 :: m, s1 :: s, e1 :: ej, x1 :: x => (m1 + s1 * (ei * e1)) * x1 + row_out ei m s ej x
  | _, _, _, _ => 0
  end.
Definition unit_out (ei : R) (m s : list R) (bias : option (R * R)) (ej x : list R) : R :=
  row_out ei m s ej x + match bias with Some (mb, sb) => mb + sb * ei | None => 0 end.
(** sizes of a layer with [n_in] inputs and [n_out] outputs *)
Definition sized (n_out n_in : nat) (l : layer) : Prop :=
  length (mu_w l) = n_out /\ length (sigma_w l) = n_out /\ Forall (fun r => length r = n_in) (mu_w l) /\ Forall (fun r => length r = n_in) (sigma_w l) /\
  match mu_b l, sigma_b l with Some m, Some s => length m = n_out /\ length s = n_out | None, None => True | _, _ => False end.
Definition bias_at (l : layer) (i : nat) : option (R * R) := match mu_b l, sigma_b l with Some m, Some s => Some (nth i m 0, nth i s 0) | _, _ => None end.
(** the plain linear layer of the means *)
Definition mean_out (m x : list R) (bias : option R) : R := dotR m x + match bias with Some b => b | None => 0 end.

Lemma eps1_spec r : eps1 r = f_noise r.
Proof.
  unfold eps1, f_noise, sgn. destruct (Rlt_dec r 0) as [H|H].
  - rewrite (Rabs_left r H), Rabs_right by (apply Rle_ge, sqrt_pos). ring.
  - rewrite (Rabs_right r) by lra. rewrite Rabs_right by (apply Rle_ge, sqrt_pos). destruct (Rlt_dec 0 r); [ring|]. replace r with 0 by lra. rewrite sqrt_0. ring.
Qed.
Lemma f_noise_odd r : f_noise (- r) = - f_noise r.
Proof.
  unfold f_noise. destruct (Rlt_dec (- r) 0), (Rlt_dec r 0); try lra; rewrite ?Ropp_involutive; try reflexivity; try lra.
  replace r with 0 by lra. rewrite Ropp_0, sqrt_0. lra.
Qed.
Lemma row_dot ei : forall m s ej x, length m = length x -> length s = length x -> length ej = length x ->
  dotR (addcmul1 m s (map (fun y => ei * y) ej)) x = row_out ei m s ej x.
Proof.
  induction m as [|a m IH]; intros [|b s] [|e ej] [|y x] M S E; try discriminate; [reflexivity|].
  change (dotR (addcmul1 (a :: m) (b :: s) (map (fun y => ei * y) (e :: ej))) (y :: x)) with ((a + b * (ei * e)) * y + dotR (addcmul1 m s (map (fun y => ei * y) ej)) x).
  cbn [row_out]. rewrite IH by (cbn in *; lia). reflexivity.
Qed.
Lemma nth_addcmul2 (t a b : list (list R)) i : length a = length t -> length b = length t -> nth i (addcmul2 t a b) [] = addcmul1 (nth i t []) (nth i a []) (nth i b []).
Proof.
  revert a b i. induction t as [|x t IH]; intros [|y a] [|z b] i A B; try discriminate; [destruct i; reflexivity|].
  destruct i; [reflexivity|]. cbn [nth]. rewrite <- IH by (cbn in *; lia). reflexivity.
Qed.
Lemma nth_addcmul1 (t a b : list R) i : length a = length t -> length b = length t -> (i < length t)%nat -> nth i (addcmul1 t a b) 0 = nth i t 0 + nth i a 0 * nth i b 0.
Proof.
  revert a b i. induction t as [|x t IH]; intros [|y a] [|z b] i A B I; try discriminate; [cbn in I; lia|].
  destruct i; [reflexivity|]. cbn [nth]. rewrite <- IH by (cbn in *; lia). reflexivity.
Qed.
Lemma len_addcmul1 (t a b : list R) : length a = length t -> length b = length t -> length (addcmul1 t a b) = length t.
Proof. intros. unfold addcmul1. rewrite map_length, !combine_length. lia. Qed.
Lemma len_addcmul2 (t a b : list (list R)) : length a = length t -> length b = length t -> length (addcmul2 t a b) = length t.
Proof. intros. unfold addcmul2. rewrite map_length, !combine_length. lia. Qed.
Lemma nth_linear (W : list (list R)) b x i : (i < length W)%nat -> match b with Some b => length b = length W | None => True end ->
  nth i (linear_row W b x) 0 = dotR (nth i W []) x + match b with Some b => nth i b 0 | None => 0 end.
Proof.
  intros I B. destruct b as [b|]; cbn [linear_row].
  - revert b i I B. induction W as [|w W IH]; intros [|c b] i I B; try discriminate; [cbn in I; lia|]. destruct i; [reflexivity|]. cbn [combine map nth]. apply IH; cbn in *; lia.
  - revert i I. induction W as [|w W IH]; intros i I; [cbn in I; lia|]. destruct i; [cbn; ring|]. cbn [map nth]. apply IH. cbn in I; lia.
Qed.
Lemma nth_Forall_len (l : list (list R)) n i : Forall (fun r => length r = n) l -> (i < length l)%nat -> length (nth i l []) = n.
Proof. intros F I. rewrite Forall_forall in F. apply F. now apply nth_In. Qed.

(** Output [i] for every row of the batch: the weights and biases are the means plus the scales times the factorised noise
    f(r_i) f(r'_j) resp. f(r_i), with one set of samples, shared by all rows. *)
Theorem C97_forward (l : layer) n_out n_in (r_in r_out : list R) (xs : list (list R)) k x i :
  sized n_out n_in l -> length r_in = n_in -> length r_out = n_out -> nth_error xs k = Some x -> length x = n_in -> (i < n_out)%nat ->
  exists row, nth_error (noisy_forward l n_in (r_in ++ r_out) xs) k = Some row /\ length row = n_out /\
    nth i row 0 = unit_out (f_noise (nth i r_out 0)) (nth i (mu_w l) []) (nth i (sigma_w l) []) (bias_at l i) (map f_noise r_in) x.
Proof.
  intros (LM & LS & FM & FS & LB) RI RO X LX I. unfold noisy_forward. rewrite nth_error_map, X. cbn [option_map]. eexists. split; [reflexivity|].
  rewrite map_app. assert (L1 : length (map eps1 r_in) = n_in) by now rewrite map_length.
  assert (FX : firstn n_in (map eps1 r_in ++ map eps1 r_out) = map eps1 r_in) by (rewrite firstn_app, L1, Nat.sub_diag, <- L1, firstn_all; cbn; apply app_nil_r).
  assert (FY : skipn n_in (map eps1 r_in ++ map eps1 r_out) = map eps1 r_out) by (rewrite skipn_app, L1, Nat.sub_diag, <- L1, skipn_all; reflexivity).
  rewrite FX, FY. clear FX FY.
  rewrite (map_ext _ _ eps1_spec r_in), (map_ext _ _ eps1_spec r_out).
  set (ey := map f_noise r_out). set (ex := map f_noise r_in).
  assert (LY : length ey = n_out) by (unfold ey; now rewrite map_length). assert (LXX : length ex = n_in) by (unfold ex; now rewrite map_length).
  assert (LG : length (ger ey ex) = length (mu_w l)) by (unfold ger; rewrite map_length; congruence).
  assert (LW : length (addcmul2 (mu_w l) (sigma_w l) (ger ey ex)) = n_out) by (rewrite len_addcmul2; congruence).
  assert (NY : nth i ey 0 = f_noise (nth i r_out 0)).
  { unfold ey. rewrite (nth_indep _ 0 (f_noise 0)) by (rewrite map_length; lia). apply map_nth. }
  assert (LBB : match (match mu_b l, sigma_b l with Some m, Some s => Some (addcmul1 m s ey) | _, _ => None end) with Some b => length b = length (addcmul2 (mu_w l) (sigma_w l) (ger ey ex)) | None => True end).
  { destruct (mu_b l), (sigma_b l); try exact Logic.I. destruct LB. rewrite len_addcmul1; congruence. }
  split.
  - destruct (mu_b l), (sigma_b l); cbn [linear_row]; rewrite map_length; try exact LW. rewrite combine_length, LBB. lia.
  - rewrite nth_linear; [|now rewrite LW|exact LBB]. rewrite nth_addcmul2 by congruence.
    assert (NG : nth i (ger ey ex) [] = map (fun y => nth i ey 0 * y) ex).
    { unfold ger. rewrite (nth_indep _ [] ((fun x => map (fun y => x * y) ex) 0)) by (rewrite map_length; lia). apply (map_nth (fun x => map (fun y => x * y) ex)). }
    rewrite NG, row_dot; [|rewrite LX; apply nth_Forall_len; [assumption|lia]|rewrite LX; apply nth_Forall_len; [assumption|lia]|congruence].
    rewrite NY. unfold unit_out, bias_at. f_equal. destruct (mu_b l) as [m|], (sigma_b l) as [s|]; try reflexivity. destruct LB. rewrite nth_addcmul1 by (congruence || lia). now rewrite NY.
Qed.

Lemma row_out_lin m s : forall ej x, length m = length x -> length s = length x -> length ej = length x -> forall e, row_out e m s ej x + row_out (- e) m s ej x = 2 * dotR m x.
Proof.
  revert s. induction m as [|a m IH]; intros [|b s] [|e1 ej] [|y x] M S E e; try discriminate; cbn [row_out dotR]; [ring|].
  assert (H : row_out e m s ej x + row_out (- e) m s ej x = 2 * dotR m x) by (apply IH; cbn in *; lia). lra.
Qed.
(** Unbiased: the normal samples [r] and [-r] of the output side are equally likely, and the outputs for the two average to the output of the
    plain linear layer of the means - for every sample and every input, so also in expectation. *)
Theorem C97_unbiased (l : layer) n_out n_in (r_in r_out : list R) (x : list R) i :
  sized n_out n_in l -> length r_in = n_in -> length r_out = n_out -> length x = n_in -> (i < n_out)%nat ->
  exists row row', noisy_forward l n_in (r_in ++ r_out) [x] = [row] /\ noisy_forward l n_in (r_in ++ map Ropp r_out) [x] = [row'] /\
    (nth i row 0 + nth i row' 0) / 2 = mean_out (nth i (mu_w l) []) x (match mu_b l with Some b => Some (nth i b 0) | None => None end).
Proof.
  intros S RI RO LX I.
  destruct (C97_forward l n_out n_in r_in r_out [x] 0 x i S RI RO eq_refl LX I) as (row & R1 & L1 & E1).
  destruct (C97_forward l n_out n_in r_in (map Ropp r_out) [x] 0 x i S RI ltac:(now rewrite map_length) eq_refl LX I) as (row' & R2 & L2 & E2).
  exists row, row'. split; [unfold noisy_forward in *; cbn [map nth_error] in *; congruence|]. split; [unfold noisy_forward in *; cbn [map nth_error] in *; congruence|].
  rewrite E1, E2. replace (nth i (map Ropp r_out) 0) with (- nth i r_out 0) by (rewrite <- (map_nth Ropp), Ropp_0; reflexivity).
  rewrite f_noise_odd. unfold unit_out, mean_out, bias_at. destruct S as (LM & LS & FM & FS & LB).
  pose proof (row_out_lin (nth i (mu_w l) []) (nth i (sigma_w l) []) (map f_noise r_in) x ltac:(rewrite LX; apply nth_Forall_len; [assumption|lia]) ltac:(rewrite LX; apply nth_Forall_len; [assumption|lia])
    ltac:(rewrite map_length; congruence) (f_noise (nth i r_out 0))) as H.
  destruct (mu_b l), (sigma_b l); try contradiction; lra.
Qed.

(** Initialisation: the mean weights are uniform within 1 / sqrt(inputs), and every scale of a weight is sigma_scale / sqrt(inputs). *)
Theorem C97_initial_weights_partial n_out n_in bias sigma_scale us : (0 < n_in)%nat -> Forall (Forall (fun u => -1 <= u <= 1)) us ->
  let l := noisy_init n_out n_in bias sigma_scale us in
  Forall (Forall (fun w => Rabs w <= 1 / sqrt (INR n_in))) (mu_w l) /\
  (forall i j, (i < n_out)%nat -> (j < n_in)%nat -> nth j (nth i (sigma_w l) []) 0 = sigma_scale / sqrt (INR n_in)) /\
  (n_out = n_in -> forall s, sigma_b l = Some s -> forall i, (i < n_out)%nat -> nth i s 0 = sigma_scale / sqrt (INR n_in)).
Proof.
  intros P U. cbn zeta. assert (LN : 0 < INR n_in) by (apply lt_0_INR; lia). assert (NR : forall {A} (a d : A) n i, (i < n)%nat -> nth i (repeat a n) d = a).
  { intros A a d. induction n; intros [|i] H; cbn; try lia; [reflexivity|]. apply IHn. lia. }
  split; [|split].
  - cbn [mu_w noisy_init]. unfold init_lecun_uniform. apply Forall_map. eapply Forall_impl; [|exact U]. intros row F. apply Forall_map. eapply Forall_impl; [|exact F]. cbn beta. intros u B.
    assert (Q : 1 / sqrt 3 * sqrt (3 / INR n_in) = 1 / sqrt (INR n_in)).
    { rewrite sqrt_div_alt by lra. assert (0 < sqrt 3) by (apply sqrt_lt_R0; lra). assert (0 < sqrt (INR n_in)) by (now apply sqrt_lt_R0). field. split; lra. }
    rewrite Q, Rabs_mult. assert (0 < 1 / sqrt (INR n_in)) by (apply Rdiv_lt_0_compat; [lra|now apply sqrt_lt_R0]). rewrite (Rabs_right (1 / _)) by lra.
    rewrite <- (Rmult_1_r (1 / sqrt (INR n_in))) at 2. apply Rmult_le_compat_l; [lra|]. apply Rabs_le. lra.
  - intros i j I J. cbn [sigma_w noisy_init]. unfold init_variance_scaling_weight. rewrite (NR _ (repeat (sigma_scale / sqrt (INR n_in)) n_in) [] n_out i I). now apply NR.
  - intros -> s. cbn [sigma_b noisy_init]. destruct bias; [|discriminate]. injection 1 as <-. intros i I. now apply NR.
Qed.

(** The scales of the biases are not sigma_scale / sqrt(inputs), as the paper has it for every noise parameter, but
    sigma_scale / sqrt(outputs). *)
Theorem C97_initial_scales_refuted : exists n_out n_in bias sigma_scale us s, length bias = n_out /\ (0 < n_out)%nat /\ (0 < n_in)%nat /\
  sigma_b (noisy_init n_out n_in (Some bias) sigma_scale us) = Some s /\ nth 0 s 0 <> sigma_scale / sqrt (INR n_in).
Proof.
  exists 1%nat, 4%nat, [0], 1, [[0; 0; 0; 0]], (init_variance_scaling_bias 1 1). repeat split; try (cbn; lia).
  cbn [init_variance_scaling_bias repeat nth]. cbn [INR]. rewrite sqrt_1. replace (1 + 1 + 1 + 1) with (2 * 2) by ring. rewrite sqrt_square by lra. lra.
Qed.

(** One output, two inputs. *)
Example C97_ex : noisy_forward {| mu_w := [[1; 2]]; mu_b := Some [3]; sigma_w := [[1; 1]]; sigma_b := Some [1] |} 2 ([4; 9] ++ [-(1)]) [[1; 1]; [2; 0]] = [[0]; [0]].
Proof.
  assert (E : forall r s, 0 < r -> r * r = s -> eps1 s = r). { intros r s H <-. rewrite eps1_spec. unfold f_noise. destruct (Rlt_dec (r * r) 0); [nra|]. apply sqrt_square. lra. }
  assert (E1 : eps1 (-(1)) = - 1). { rewrite eps1_spec, f_noise_odd, <- eps1_spec. rewrite (E 1 1) by lra. reflexivity. }
  unfold noisy_forward. cbn [map app]. rewrite (E 2 4), (E 3 9), E1 by lra. cbn. repeat f_equal; ring.
Qed.
Print Assumptions C97_forward.
Print Assumptions C97_unbiased.
Print Assumptions C97_initial_weights_partial.
Print Assumptions C97_initial_scales_refuted.
