(** Proofs about schedules in binary64. *)
From Coq Require Import Reals Lra Lia Psatz ZArith.
From Flocq Require Import Core BinarySingleNaN Relative Plus_error.
From Verif Require Import Base M_Prioritized M_FloatTree S_FloatTree P_FloatB64 M_FloatSchedule.
Open Scope R_scope.

Notation u64v := (/ 2 ^ 53).
Lemma u64_small : 0 < u64v <= 1 / 1000000000000000.
Proof. split; [apply Rinv_0_lt_compat, pow_lt; lra|]. apply (Rmult_le_reg_l (2 ^ 53)); [apply pow_lt; lra|]. rewrite Rinv_r by (apply pow_nonzero; lra). simpl; lra. Qed.

Global Instance fexp64_valid : Valid_exp fexp64 := FLT_exp_valid (-1074) 53.
Lemma rnd_le x y : x <= y -> rnd64 x <= rnd64 y.
Proof. apply round_le; [exact fexp64_valid|apply valid_rnd_N]. Qed.
Lemma rnd_format x : generic_format radix2 fexp64 (rnd64 x).
Proof. apply generic_format_round; [exact fexp64_valid|apply valid_rnd_N]. Qed.
Lemma rnd_id x : generic_format radix2 fexp64 x -> rnd64 x = x.
Proof. apply round_generic, valid_rnd_N. Qed.
Lemma rnd_ge x y : generic_format radix2 fexp64 x -> x <= y -> x <= rnd64 y.
Proof. intros F H. rewrite <- (rnd_id x F). apply rnd_le. exact H. Qed.

Lemma format_int z : (Z.abs z <= 2 ^ 53)%Z -> generic_format radix2 fexp64 (IZR z).
Proof.
  intros H. destruct (Z.eq_dec (Z.abs z) (2 ^ 53)) as [E|N].
  - assert (Hz : (z = 2 ^ 53 \/ z = - 2 ^ 53)%Z) by lia.
    assert (G : generic_format radix2 fexp64 (bpow radix2 53)) by (apply generic_format_bpow; unfold FLT_exp; lia).
    rewrite <- (IZR_Zpower radix2) in G by lia.
    destruct Hz as [->| ->]; [exact G|]. rewrite opp_IZR. apply generic_format_opp. exact G.
  - apply generic_format_FLT. exists (Float radix2 z 0); [unfold F2R; cbn [Fnum Fexp bpow]; lra|cbn [Fnum]; change (radix_val radix2) with 2%Z; lia|cbn [Fexp]; lia].
Qed.

Lemma rnd_error x : Rabs x <= 1 -> Rabs (rnd64 x - x) <= u64v.
Proof.
  intros H. destruct (error_N_FLT radix2 (-1074) 53 ltac:(lia) (fun z => negb (Z.even z)) x) as (e & t & He & Ht & Hp & E).
  rewrite E. rewrite u64 in He. pose proof u64_small as Hu. replace (x * (1 + e) + t - x) with (x * e + t) by ring.
  apply Rmult_integral in Hp. destruct Hp as [->| ->].
  - rewrite Rmult_0_r, Rplus_0_l. eapply Rle_trans; [exact Ht|]. rewrite <- u64. apply Rmult_le_compat_l; [lra|]. apply bpow_le. lia.
  - rewrite Rplus_0_r, Rabs_mult. replace u64v with (1 * u64v) by lra. apply Rmult_le_compat; try apply Rabs_pos; assumption.
Qed.

Lemma big4 x : Rabs x <= 4 -> Rlt_bool (Rabs (rnd64 x)) (bpow radix2 1024) = true.
Proof.
  intros H. apply Rlt_bool_true. apply Rle_lt_trans with 4; [|apply Rlt_le_trans with (bpow radix2 3); [simpl; lra|apply bpow_le; lia]].
  assert (F4 : generic_format radix2 fexp64 4) by (apply (format_int 4); lia).
  apply Rabs_le_inv in H. apply Rabs_le. split; [apply rnd_ge; [apply generic_format_opp; exact F4|lra]|rewrite <- (rnd_id 4 F4); apply rnd_le; lra].
Qed.

Definition fin (x : binary64) : Prop := is_finite x = true.
Lemma add_ok x y : fin x -> fin y -> Rabs (B2R x + B2R y) <= 4 -> fin (fadd x y) /\ B2R (fadd x y) = rnd64 (B2R x + B2R y).
Proof.
  intros Fx Fy H. pose proof (Bplus_correct 53 1024 b64_prec b64_emax mode_NE x y Fx Fy) as C.
  cbn [round_mode] in C. change (SpecFloat.fexp 53 1024) with fexp64 in C. rewrite (big4 _ H) in C. destruct C as (E & F & _). split; assumption.
Qed.
Lemma sub_ok x y : fin x -> fin y -> Rabs (B2R x - B2R y) <= 4 -> fin (fsub x y) /\ B2R (fsub x y) = rnd64 (B2R x - B2R y).
Proof.
  intros Fx Fy H. pose proof (Bminus_correct 53 1024 b64_prec b64_emax mode_NE x y Fx Fy) as C.
  cbn [round_mode] in C. change (SpecFloat.fexp 53 1024) with fexp64 in C. rewrite (big4 _ H) in C. destruct C as (E & F & _). split; assumption.
Qed.
Lemma mul_ok x y : fin x -> fin y -> Rabs (B2R x * B2R y) <= 4 -> fin (fmul x y) /\ B2R (fmul x y) = rnd64 (B2R x * B2R y).
Proof.
  intros Fx Fy H. pose proof (Bmult_correct 53 1024 b64_prec b64_emax mode_NE x y) as C.
  cbn [round_mode] in C. change (SpecFloat.fexp 53 1024) with fexp64 in C. rewrite (big4 _ H) in C. destruct C as (E & F & _).
  unfold fin in *. rewrite Fx, Fy in F. split; assumption.
Qed.
Lemma div_ok x y : fin x -> B2R y <> 0 -> Rabs (B2R x / B2R y) <= 4 -> fin (fdiv x y) /\ B2R (fdiv x y) = rnd64 (B2R x / B2R y).
Proof.
  intros Fx Fy H. pose proof (Bdiv_correct 53 1024 b64_prec b64_emax mode_NE x y Fy) as C.
  cbn [round_mode] in C. change (SpecFloat.fexp 53 1024) with fexp64 in C. rewrite (big4 _ H) in C. destruct C as (E & F & _).
  unfold fin in *. rewrite Fx in F. split; assumption.
Qed.
Lemma of_Z_ok z : (Z.abs z <= 2 ^ 53)%Z -> fin (of_Z z) /\ B2R (of_Z z) = IZR z.
Proof.
  intros H. unfold of_Z. pose proof (binary_normalize_correct 53 1024 b64_prec b64_emax mode_NE z 0 false) as C. cbn zeta in C.
  cbn [round_mode] in C. change (SpecFloat.fexp 53 1024) with fexp64 in C.
  replace (F2R {| Fnum := z; Fexp := 0 |} : R) with (IZR z) in C by (unfold F2R; cbn [Fnum Fexp bpow]; lra).
  rewrite (rnd_id (IZR z) (format_int z H)) in C. rewrite Rlt_bool_true in C.
  - destruct C as (E & F & _). split; assumption.
  - rewrite <- abs_IZR. apply Rle_lt_trans with (IZR (2 ^ 53)); [apply IZR_le; exact H|]. change (IZR (2 ^ 53)) with (IZR (Zpower radix2 53)).
    rewrite IZR_Zpower by lia. apply bpow_lt. lia.
Qed.

Lemma below_one z : z < 1 + u64v -> rnd64 z <= 1.
Proof.
  intros H. apply round_N_le_midp; [exact fexp64_valid|apply (format_int 1); lia|].
  rewrite succ_eq_pos by lra. replace (ulp radix2 fexp64 1) with (bpow radix2 (- (52))) by (symmetry; apply (ulp_bpow radix2 fexp64 0)).
  assert (E : bpow radix2 (- (52)) = 2 * u64v) by (rewrite <- u64; change (- (53) + 1)%Z with (- (52))%Z; lra). rewrite E. lra.
Qed.
Lemma Rabs_le4 z : -4 <= z <= 4 -> Rabs z <= 4.
Proof. intros H. apply Rabs_le. exact H. Qed.

(** * The decay of epsilon *)
Section Linear.
  Context (s e : binary64) (n : Z).
  Hypothesis Fs : fin s. Hypothesis Fe : fin e.
  Hypothesis Hs : 0 <= B2R s <= 1. Hypothesis He : 0 <= B2R e <= 1.
  Hypothesis Hn : (0 < n <= 2 ^ 53)%Z.

  Definition dif := rnd64 (B2R e - B2R s).
  Definition quo (t : Z) := rnd64 (IZR t / IZR n).
  Definition val (t : Z) := rnd64 (B2R s + rnd64 (dif * quo t)).

  Lemma n_pos : 0 < IZR n. Proof. apply IZR_lt. lia. Qed.
  Lemma frac t : (0 <= t <= n)%Z -> 0 <= IZR t / IZR n <= 1.
  Proof.
    intros Ht. pose proof n_pos as P. assert (0 <= IZR t <= IZR n) by (split; apply IZR_le; lia). split.
    - apply Rmult_le_pos; [lra|]. apply Rlt_le, Rinv_0_lt_compat. exact P.
    - apply (Rmult_le_reg_r (IZR n)); [exact P|]. unfold Rdiv. rewrite Rmult_assoc, Rinv_l by lra. lra.
  Qed.
  Lemma quo_range t : (0 <= t <= n)%Z -> 0 <= quo t <= 1.
  Proof.
    intros Ht. pose proof (frac t Ht) as F. unfold quo. split; [apply round_nonneg; lra|].
    apply round_upto; [apply (format_int 1); lia|lra].
  Qed.
  Lemma quo_mono t t' : (0 <= t <= t')%Z -> (t' <= n)%Z -> quo t <= quo t'.
  Proof.
    intros Ht Hn'. apply rnd_le. pose proof n_pos. apply Rmult_le_compat_r; [apply Rlt_le, Rinv_0_lt_compat; assumption|apply IZR_le; lia].
  Qed.
  Lemma dif_down : B2R e <= B2R s -> - B2R s <= dif <= 0.
  Proof.
    intros H. unfold dif. split; [apply rnd_ge; [apply generic_format_opp, format64|lra]|].
    apply round_upto; [apply generic_format_0|lra].
  Qed.
  Lemma dif_up : B2R s <= B2R e -> 0 <= dif <= rnd64 (1 - B2R s).
  Proof. intros H. unfold dif. split; [apply round_nonneg; lra|apply rnd_le; lra]. Qed.
  Lemma dif_range : -1 <= dif <= 1.
  Proof.
    destruct (Rle_or_lt (B2R e) (B2R s)) as [H|H]; [pose proof (dif_down H); lra|].
    split; [pose proof (dif_up (Rlt_le _ _ H)); lra|]. apply round_upto; [apply (format_int 1); lia|lra].
  Qed.
  Lemma dif_format : generic_format radix2 fexp64 dif. Proof. apply rnd_format. Qed.
  Lemma prod_down t : (0 <= t <= n)%Z -> dif <= 0 -> dif <= rnd64 (dif * quo t) <= 0.
  Proof.
    intros Ht H. pose proof (quo_range t Ht). split; [apply rnd_ge; [apply dif_format|nra]|apply round_upto; [apply generic_format_0|nra]].
  Qed.
  Lemma prod_up t : (0 <= t <= n)%Z -> 0 <= dif -> 0 <= rnd64 (dif * quo t) <= dif.
  Proof.
    intros Ht H. pose proof (quo_range t Ht). split; [apply round_nonneg; nra|apply round_upto; [apply dif_format|nra]].
  Qed.

  Lemma linear64_val t : (0 <= t <= n)%Z -> exists v, linear64 s e n t = Ok v /\ fin v /\ B2R v = val t.
  Proof.
    intros Ht. unfold linear64. replace (n <? t)%Z with false by (symmetry; apply Z.ltb_ge; lia). replace (n =? 0)%Z with false by (symmetry; apply Z.eqb_neq; lia).
    destruct (sub_ok e s Fe Fs) as [Fd Ed]; [apply Rabs_le4; lra|].
    destruct (of_Z_ok t) as [Ft Et]; [lia|]. destruct (of_Z_ok n) as [Fn En]; [lia|].
    pose proof (frac t Ht) as Fr. pose proof n_pos as P.
    destruct (div_ok (of_Z t) (of_Z n) Ft) as [Fq Eq]; [rewrite En; lra|rewrite Et, En; apply Rabs_le4; lra|].
    rewrite Et, En in Eq. fold (quo t) in Eq. fold dif in Ed. pose proof (quo_range t Ht) as Q. pose proof dif_range as D.
    destruct (mul_ok (fsub e s) (fdiv (of_Z t) (of_Z n)) Fd Fq) as [Fm Em]; [rewrite Ed, Eq; apply Rabs_le4; nra|].
    rewrite Ed, Eq in Em.
    assert (M : -1 <= rnd64 (dif * quo t) <= 1).
    { destruct (Rle_or_lt dif 0) as [H|H]; [pose proof (prod_down t Ht H); lra|pose proof (prod_up t Ht (Rlt_le _ _ H)); lra]. }
    destruct (add_ok s (fmul (fsub e s) (fdiv (of_Z t) (of_Z n))) Fs Fm) as [Fa Ea]; [rewrite Em; apply Rabs_le4; lra|].
    rewrite Em in Ea. eexists. split; [reflexivity|]. split; [exact Fa|exact Ea].
  Qed.

  Lemma val_down t : (0 <= t <= n)%Z -> B2R e <= B2R s -> 0 <= val t <= B2R s.
  Proof.
    intros Ht H. pose proof (dif_down H) as D. pose proof (prod_down t Ht (proj2 D)) as P. unfold val.
    split; [apply round_nonneg; lra|apply round_upto; [apply format64|lra]].
  Qed.
  Lemma val_up t : (0 <= t <= n)%Z -> B2R s <= B2R e -> B2R s <= val t <= 1.
  Proof.
    intros Ht H. pose proof (dif_up H) as D. pose proof (prod_up t Ht (proj1 D)) as P. unfold val.
    split; [apply rnd_ge; [apply format64|lra]|].
    destruct (Req_dec (B2R s) 0) as [Z|Z].
    - apply round_upto; [apply (format_int 1); lia|]. rewrite Z in D. pose proof dif_range. lra.
    - apply below_one. assert (F1 : generic_format radix2 fexp64 1) by (apply (format_int 1); lia).
      pose proof (plus_error64 1 (- B2R s) F1 (generic_format_opp _ _ _ (format64 s))) as Er. change (1 + - B2R s) with (1 - B2R s) in Er.
      rewrite (Rabs_pos_eq (1 - B2R s)) in Er by lra. apply Rabs_le_inv in Er. pose proof u64_small. nra.
  Qed.
  Lemma val_mono_down t t' : (0 <= t <= t')%Z -> (t' <= n)%Z -> B2R e <= B2R s -> val t' <= val t.
  Proof.
    intros Ht Hn' H. unfold val. apply rnd_le. apply Rplus_le_compat_l. apply rnd_le. pose proof (quo_mono t t' Ht Hn'). pose proof (dif_down H). nra.
  Qed.
  Lemma val_mono_up t t' : (0 <= t <= t')%Z -> (t' <= n)%Z -> B2R s <= B2R e -> val t <= val t'.
  Proof.
    intros Ht Hn' H. unfold val. apply rnd_le. apply Rplus_le_compat_l. apply rnd_le. pose proof (quo_mono t t' Ht Hn'). pose proof (dif_up H). nra.
  Qed.
  Lemma val_0 : val 0 = B2R s.
  Proof.
    unfold val, quo. unfold Rdiv. rewrite Rmult_0_l, round_0, Rmult_0_r, round_0, Rplus_0_r by apply valid_rnd_N. apply rnd_id, format64.
  Qed.

  Lemma val_error t : (0 <= t <= n)%Z -> Rabs (val t - (B2R s + (B2R e - B2R s) * (IZR t / IZR n))) <= 5 * u64v.
  Proof.
    intros Ht. pose proof (frac t Ht) as Fr. pose proof (quo_range t Ht) as Q. pose proof dif_range as D. pose proof u64_small as Hu.
    assert (E1 : Rabs (dif - (B2R e - B2R s)) <= u64v) by (apply rnd_error; apply Rabs_le; lra).
    assert (E2 : Rabs (quo t - IZR t / IZR n) <= u64v) by (apply rnd_error; apply Rabs_le; lra).
    assert (E3 : Rabs (rnd64 (dif * quo t) - dif * quo t) <= u64v) by (apply rnd_error; apply Rabs_le; nra).
    assert (P : -1 <= rnd64 (dif * quo t) <= 1).
    { destruct (Rle_or_lt dif 0) as [H|H]; [pose proof (prod_down t Ht H); lra|pose proof (prod_up t Ht (Rlt_le _ _ H)); lra]. }
    pose proof (plus_error64 (B2R s) (rnd64 (dif * quo t)) (format64 s) (rnd_format _)) as E4. fold (val t) in E4.
    set (q := IZR t / IZR n) in *. set (m := rnd64 (dif * quo t)) in *. clearbody q m.
    apply Rabs_le_inv in E1, E2, E3.
    assert (B : Rabs (B2R s + m) <= 2) by (apply Rabs_le; lra).
    assert (E4' : Rabs (val t - (B2R s + m)) <= 2 * u64v) by (eapply Rle_trans; [exact E4|]; rewrite (Rmult_comm 2); apply Rmult_le_compat_l; lra).
    apply Rabs_le_inv in E4'. set (d := dif) in *. set (q' := quo t) in *. clearbody d q'.
    assert (K : - (2 * u64v) <= d * q' - (B2R e - B2R s) * q <= 2 * u64v).
    { replace (d * q' - (B2R e - B2R s) * q) with ((d - (B2R e - B2R s)) * q' + (B2R e - B2R s) * (q' - q)) by ring.
      set (a := d - (B2R e - B2R s)) in *. set (b := q' - q) in *. set (w := B2R e - B2R s) in *.
      assert (-1 <= w <= 1) by (unfold w; lra). clearbody a b w. clear - E1 E2 Q H Hu.
      assert (- u64v <= a * q' <= u64v) by (split; nra). assert (- u64v <= w * b <= u64v) by (split; nra). lra. }
    apply Rabs_le. lra.
  Qed.
End Linear.

(** * The annealing of beta *)
Lemma one_ok : fin (of_Z 1) /\ B2R (of_Z 1) = 1.
Proof. apply (of_Z_ok 1). lia. Qed.

Lemma next_beta_ok add b : fin add -> fin b -> 0 <= B2R add <= 1 -> 0 <= B2R b <= 1 ->
  fin (next_beta64 add b) /\ B2R (next_beta64 add b) = Rmin 1 (rnd64 (B2R b + B2R add)).
Proof.
  intros Fa Fb Ha Hb. destruct one_ok as [F1 E1]. unfold next_beta64.
  destruct (add_ok b add Fb Fa) as [Fs Es]; [apply Rabs_le4; lra|].
  rewrite (Bltb_correct 53 1024 _ _ Fs F1), E1, Es. destruct (Rlt_bool_spec (rnd64 (B2R b + B2R add)) 1) as [H|H].
  - split; [exact Fs|]. rewrite Es. symmetry. apply Rmin_right. lra.
  - split; [exact F1|]. rewrite E1. symmetry. apply Rmin_left. lra.
Qed.

Lemma next_beta_range add b : fin add -> fin b -> 0 <= B2R add <= 1 -> 0 <= B2R b <= 1 ->
  B2R b <= B2R (next_beta64 add b) <= 1.
Proof.
  intros Fa Fb Ha Hb. destruct (next_beta_ok add b Fa Fb Ha Hb) as [_ ->]. split; [|apply Rmin_l].
  apply Rmin_glb; [lra|]. apply rnd_ge; [apply format64|lra].
Qed.

Lemma Rmin_lip x y : Rabs (Rmin 1 x - Rmin 1 y) <= Rabs (x - y).
Proof. unfold Rmin. destruct (Rle_dec 1 x), (Rle_dec 1 y); unfold Rabs; repeat destruct Rcase_abs; lra. Qed.

Lemma beta_add_ok b0 n : fin b0 -> 0 <= B2R b0 <= 1 -> (0 < n <= 2 ^ 53)%Z ->
  exists add, beta_add64 b0 (Some n) = Ok add /\ fin add /\ 0 <= B2R add <= 1 /\ Rabs (B2R add - (1 - B2R b0) / IZR n) <= 2 * u64v.
Proof.
  intros Fb Hb Hn. unfold beta_add64. replace (n =? 0)%Z with false by (symmetry; apply Z.eqb_neq; lia).
  destruct one_ok as [F1 E1]. destruct (of_Z_ok n) as [Fn En]; [lia|].
  destruct (sub_ok (of_Z 1) b0 F1 Fb) as [Fd Ed]; [rewrite E1; apply Rabs_le4; lra|]. rewrite E1 in Ed.
  set (d := rnd64 (1 - B2R b0)) in *. assert (P : 1 <= IZR n) by (apply IZR_le; lia).
  assert (Pi : 0 < / IZR n <= 1) by (split; [apply Rinv_0_lt_compat; lra|rewrite <- Rinv_1; apply Rinv_le_contravar; lra]).
  assert (D : 0 <= d <= 1) by (split; [apply round_nonneg; lra|apply round_upto; [apply (format_int 1); lia|lra]]).
  assert (De : Rabs (d - (1 - B2R b0)) <= u64v) by (apply rnd_error; apply Rabs_le; lra).
  assert (Q : 0 <= d / IZR n <= 1) by (unfold Rdiv; nra).
  destruct (div_ok (fsub (of_Z 1) b0) (of_Z n) Fd) as [Fq Eq]; [rewrite En; lra|rewrite Ed, En; apply Rabs_le4; lra|]. rewrite Ed, En in Eq.
  eexists. split; [reflexivity|]. split; [exact Fq|]. rewrite Eq. split; [split; [apply round_nonneg; lra|apply round_upto; [apply (format_int 1); lia|lra]]|].
  assert (Qe : Rabs (rnd64 (d / IZR n) - d / IZR n) <= u64v) by (apply rnd_error; apply Rabs_le; lra).
  apply Rabs_le_inv in Qe, De. apply Rabs_le. unfold Rdiv in *. set (i := / IZR n) in *. clearbody i d. pose proof u64_small.
  assert (- u64v <= (d - (1 - B2R b0)) * i <= u64v) by (split; nra). lra.
Qed.

Section Beta.
  Context (b0 add : binary64) (a : R).
  Hypothesis Fb : fin b0. Hypothesis Fa : fin add. Hypothesis Hb : 0 <= B2R b0 <= 1. Hypothesis Ha : 0 <= B2R add <= 1.
  Hypothesis Ea : Rabs (B2R add - a) <= 2 * u64v. Hypothesis Pa : 0 <= a.

  Notation beta k := (Nat.iter k (next_beta64 add) b0).
  Lemma beta_fin k : fin (beta k) /\ 0 <= B2R (beta k) <= 1.
  Proof.
    induction k as [|k [IF IR]]; [split; assumption|].
    change (Nat.iter (S k) (next_beta64 add) b0) with (next_beta64 add (beta k)).
    pose proof (next_beta_range add _ Fa IF Ha IR) as [K1 K2]. split; [apply (next_beta_ok add _ Fa IF Ha IR)|]. split; [apply Rle_trans with (B2R (beta k)); [apply IR|exact K1]|exact K2].
  Qed.
  Lemma beta_step k : B2R (beta k) <= B2R (beta (S k)) <= 1.
  Proof. destruct (beta_fin k) as [IF IR]. apply (next_beta_range add _ Fa IF Ha IR). Qed.
  Lemma beta_error k : Rabs (B2R (beta k) - Rmin 1 (B2R b0 + INR k * a)) <= INR k * (4 * u64v).
  Proof.
    pose proof u64_small as Hu. induction k as [|k IH].
    - cbn [Nat.iter nat_rect INR]. rewrite !Rmult_0_l, Rplus_0_r, Rmin_right by lra. rewrite Rminus_diag_eq by reflexivity. rewrite Rabs_R0. lra.
    - destruct (beta_fin k) as [IF IR]. change (Nat.iter (S k) (next_beta64 add) b0) with (next_beta64 add (beta k)).
      destruct (next_beta_ok add _ Fa IF Ha IR) as [_ ->]. rewrite S_INR.
      assert (Em : Rmin 1 (B2R b0 + (INR k + 1) * a) = Rmin 1 (Rmin 1 (B2R b0 + INR k * a) + a)).
      { replace (B2R b0 + (INR k + 1) * a) with (B2R b0 + INR k * a + a) by ring. set (y := B2R b0 + INR k * a).
        destruct (Rle_or_lt 1 y) as [H|H]; [rewrite (Rmin_left 1 y) by exact H; rewrite !Rmin_left by lra; reflexivity|rewrite (Rmin_right 1 y) by lra; reflexivity]. }
      rewrite Em. eapply Rle_trans; [apply Rmin_lip|].
      pose proof (plus_error64 (B2R (beta k)) (B2R add) (format64 _) (format64 _)) as E1. rewrite (Rabs_pos_eq (B2R (beta k) + B2R add)) in E1 by lra.
      set (b := B2R (beta k)) in *. set (w := Rmin 1 (B2R b0 + INR k * a)) in *. set (r := rnd64 (b + B2R add)) in *. clearbody b w r.
      apply Rabs_le_inv in E1, Ea, IH. apply Rabs_le.
      assert (u64v * (b + B2R add) <= 2 * u64v) by nra. lra.
  Qed.
End Beta.
