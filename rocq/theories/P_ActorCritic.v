From Coq Require Import QArith Qminmax Lqa Lia.
From Verif Require Import Base Vec M_Batch M_Targets M_ActorCritic S_ActorCritic.
Open Scope nat_scope.

Lemma Qplus_0_l' (x : Q) : (0 + x)%Q = x.
Proof. destruct x as [n d]. unfold Qplus. cbn. f_equal; lia. Qed.
Lemma vadd_zero_l g n : length g = n -> vadd (vzero n) g = g.
Proof. intros <-. induction g as [|x g IH]; [reflexivity|]. cbn [length vzero repeat vadd]. fold (vzero (length g)). rewrite IH, Qplus_0_l'. reflexivity. Qed.

Lemma bellman_nth rs : forall ds ts qs, length ds = length rs -> length ts = length rs -> length qs = length rs ->
  length (bellman rs ds ts qs) = length rs /\
  forall i r d t q, nth_error rs i = Some r -> nth_error ds i = Some d -> nth_error ts i = Some t -> nth_error qs i = Some q ->
    nth_error (bellman rs ds ts qs) i = Some (r + d * (1 - t) * q)%Q.
Proof.
  induction rs as [|r rs IH]; intros [|d ds] [|t ts] [|q qs] L1 L2 L3; cbn in L1, L2, L3; try discriminate; cbn [bellman length].
  - split; [reflexivity|]. intros [|i]; discriminate.
  - destruct (IH ds ts qs) as (L & H); [congruence..|]. split; [f_equal; exact L|].
    intros [|i] r' d' t' q'; cbn [nth_error]; [intros [= <-] [= <-] [= <-] [= <-]; reflexivity|apply H].
Qed.

Lemma nth_error_some_len {X} (l : list X) i n : length l = n -> i < n -> exists x, nth_error l i = Some x.
Proof. intros L H. destruct (nth_error l i) eqn:E; [eauto|]. apply nth_error_None in E. lia. Qed.

Lemma nth_error_combine {X Y} (a : list X) (b : list Y) i x y : nth_error a i = Some x -> nth_error b i = Some y -> nth_error (combine a b) i = Some (x, y).
Proof. revert b i. induction a as [|u a IH]; intros [|v b] [|i]; cbn; try discriminate; [intros [= ->] [= ->]; reflexivity|apply IH]. Qed.
Lemma combine_len {X Y} (a : list X) (b : list Y) n : length a = n -> length b = n -> length (combine a b) = n.
Proof. intros L1 L2. rewrite combine_length. lia. Qed.

Section Proofs.
  Context {Ob A St N : Type}.
  Notation batch := (batch Ob A).
  Notation net := (net St).

  Lemma td3_target_spec (f1 f2 : Ob -> A -> Q) (b : batch) n acts : batch_of n b -> length acts = n ->
    td_targets b (fun i => at_ (b_discount b) i (fun d => d)) (fun s' i => at_ acts i (fun a => Qmin (f1 s' a) (f2 s' a))) (td3_target f1 f2 acts b).
  Proof.
    intros (L1 & L2 & L3 & L4 & L5 & L6) LA. unfold td3_target.
    set (qs := map (fun p => Qmin (fst p) (snd p)) _).
    assert (LQ : length qs = n). { unfold qs. rewrite map_length. apply combine_len; rewrite map_length; apply combine_len; assumption. }
    destruct (bellman_nth (b_reward b) (b_discount b) (b_terminal b) qs) as (L & H); [congruence..|]. split; [exact L|].
    intros i r tm s' Hr Ht Hs. assert (Hi : i < n). { rewrite <- L3. apply nth_error_Some. congruence. }
    destruct (nth_error_some_len (b_discount b) i n L6 Hi) as (d & Hd). destruct (nth_error_some_len acts i n LA Hi) as (a & Ha).
    unfold at_. rewrite Hd, Ha. apply H; try assumption. unfold qs. rewrite nth_error_map.
    erewrite nth_error_combine; [reflexivity| |]; (rewrite nth_error_map; erewrite nth_error_combine; [reflexivity|eassumption|eassumption]).
  Qed.

  Lemma ddpg_target_spec gamma (f : Ob -> A -> Q) (b : batch) n acts : batch_of n b -> length acts = n ->
    td_targets b (fun _ => gamma) (fun s' i => at_ acts i (fun a => f s' a)) (ddpg_target gamma f acts b).
  Proof.
    intros (L1 & L2 & L3 & L4 & L5 & L6) LA. unfold ddpg_target. set (qs := map _ (combine _ acts)).
    assert (LQ : length qs = n) by (unfold qs; rewrite map_length; apply combine_len; assumption).
    destruct (bellman_nth (b_reward b) (map (fun _ => gamma) (b_reward b)) (b_terminal b) qs) as (L & H); [rewrite ?map_length; congruence..|]. split; [exact L|].
    intros i r tm s' Hr Ht Hs. assert (Hi : i < n). { rewrite <- L3. apply nth_error_Some. congruence. }
    destruct (nth_error_some_len acts i n LA Hi) as (a & Ha). unfold at_. rewrite Ha. apply H; try assumption.
    - rewrite nth_error_map, Hr. reflexivity.
    - unfold qs. rewrite nth_error_map. erewrite nth_error_combine; [reflexivity|eassumption|eassumption].
  Qed.

  Lemma sac_target_spec (f1 f2 : Ob -> A -> Q) temp (lp : Ob -> A -> Q) (b : batch) n acts : batch_of n b -> length acts = n ->
    td_targets b (fun i => at_ (b_discount b) i (fun d => d)) (fun s' i => at_ acts i (fun a => Qmin (f1 s' a) (f2 s' a) - temp * lp s' a)%Q)
      (sac_target f1 f2 temp (map (fun p => (snd p, lp (fst p) (snd p))) (combine (b_next_state b) acts)) b).
  Proof.
    intros (L1 & L2 & L3 & L4 & L5 & L6) LA. unfold sac_target. set (sm := map _ (combine (b_next_state b) acts)).
    assert (LS : length sm = n) by (unfold sm; rewrite map_length; apply combine_len; assumption).
    set (qs := map (fun p : Q * Q => (fst p - snd p)%Q) _).
    assert (LQ : length qs = n).
    { unfold qs. rewrite map_length. apply combine_len; rewrite ?map_length; [|exact LS]. apply combine_len; rewrite map_length; apply combine_len; assumption. }
    destruct (bellman_nth (b_reward b) (b_discount b) (b_terminal b) qs) as (L & H); [congruence..|]. split; [exact L|].
    intros i r tm s' Hr Ht Hs. assert (Hi : i < n). { rewrite <- L3. apply nth_error_Some. congruence. }
    destruct (nth_error_some_len (b_discount b) i n L6 Hi) as (d & Hd). destruct (nth_error_some_len acts i n LA Hi) as (a & Ha).
    unfold at_. rewrite Hd, Ha. apply H; try assumption.
    assert (HS : nth_error sm i = Some (a, lp s' a)). { unfold sm. rewrite nth_error_map. erewrite nth_error_combine; [reflexivity|eassumption|eassumption]. }
    assert (HC := nth_error_combine (b_next_state b) sm i _ _ Hs HS).
    unfold qs. rewrite nth_error_map.
    erewrite (nth_error_combine _ _ i (Qmin (f1 s' a) (f2 s' a)) (temp * lp s' a)%Q); [reflexivity| |].
    - rewrite nth_error_map. erewrite (nth_error_combine _ _ i (f1 s' a) (f2 s' a)); [reflexivity| |]; rewrite nth_error_map, HC; reflexivity.
    - rewrite nth_error_map, HS. reflexivity.
  Qed.

  Context (D : loss Ob A N -> slot -> vec) (opt_step : St -> vec -> vec -> vec * St) (clip : vec -> vec).
  Context (q_value : vec -> Ob -> A -> Q) (sample : N -> vec -> list Ob -> list A) (log_prob : vec -> Ob -> A -> Q).
  Context (smoothing : N -> list A -> list A) (temperature_of : vec -> Q).

  Lemma stepped_fresh (n : net) (g : vec) : length g = length (par n) ->
    stepped opt_step clip n g (step opt_step (clip_grad clip (deposit (zero_grad n) g))).
  Proof.
    intros L. unfold stepped, step, clip_grad, deposit, zero_grad. cbn [par grad ost]. rewrite (vadd_zero_l g) by exact L.
    destruct (opt_step _ _ _) as [p st]. reflexivity.
  Qed.
  Lemma stepped_fresh_noclip (n : net) (g : vec) : length g = length (par n) ->
    stepped opt_step (fun g => g) n g (step opt_step (deposit (zero_grad n) g)).
  Proof.
    intros L. unfold stepped, step, deposit, zero_grad. cbn [par grad ost]. rewrite (vadd_zero_l g) by exact L.
    destruct (opt_step _ _ _) as [p st]. reflexivity.
  Qed.
  Lemma stepped_det (n1 n2 m1 m2 : net) g c : untouched n1 n2 -> stepped opt_step c n1 g m1 -> stepped opt_step c n2 g m2 -> untouched m1 m2.
  Proof. unfold stepped, untouched. intros (-> & ->) H1 H2. rewrite <- H1 in H2. injection H2 as -> ->. split; reflexivity. Qed.

  (** ** Averages *)
  Lemma sum_to_ext (f g : nat -> Q) n : (forall j, j < n -> (f j == g j)%Q) -> (sum_to f n == sum_to g n)%Q.
  Proof. induction n; cbn [sum_to]; intros H; [reflexivity|]. rewrite IHn by (intros; apply H; lia). rewrite (H n) by lia. reflexivity. Qed.
  Lemma sum_to_scale c (f : nat -> Q) n : (c * sum_to f n == sum_to (fun j => c * f j) n)%Q.
  Proof. induction n; cbn [sum_to]; [ring|]. rewrite <- IHn. ring. Qed.
  Lemma nth_vscale c a i : (nth i (vscale c a) 0 == c * nth i a 0)%Q.
  Proof. revert i. induction a as [|x a IH]; intros [|i]; cbn [vscale map nth]; try ring. apply IH. Qed.
  Lemma nth_vadd a : forall b i, length a = length b -> (nth i (vadd a b) 0 == nth i a 0 + nth i b 0)%Q.
  Proof. induction a as [|x a IH]; intros [|y b] i L; cbn in L; try discriminate; destruct i as [|i]; cbn [vadd nth]; try ring. apply IH. congruence. Qed.
  Lemma soft_copy_len tau a b : length a = length b -> length (soft_copy tau a b) = length a.
  Proof. intros L. unfold soft_copy. apply vadd_len; apply vscale_len; congruence. Qed.
  Lemma averaged_0 tau (x : nat -> vec) : averaged tau x 0 (x 0).
  Proof. split; [reflexivity|]. intros i. cbn [pow sum_to]. ring. Qed.
  Lemma averaged_S tau (x : nat -> vec) m v : length (x (S m)) = length (x 0) -> averaged tau x m v -> averaged tau x (S m) (soft_copy tau v (x (S m))).
  Proof.
    intros L (LV & H). split; [rewrite soft_copy_len; congruence|]. intros i. unfold soft_copy.
    rewrite nth_vadd by (unfold vscale; rewrite !map_length; congruence). rewrite !nth_vscale, H. cbn [sum_to].
    replace (S m - S m) with 0 by lia. cbn [pow].
    rewrite (sum_to_ext (fun j => tau * pow (1 - tau) (S m - S j) * nth i (x (S j)) 0)%Q (fun j => (1 - tau) * (tau * pow (1 - tau) (m - S j) * nth i (x (S j)) 0))%Q m).
    - rewrite <- sum_to_scale. ring.
    - intros j Hj. replace (S m - S j) with (S (m - S j)) by lia. cbn [pow]. ring.
  Qed.
  Lemma averaged_ext tau (x y : nat -> vec) m v : (forall j, j <= m -> x j = y j) -> averaged tau x m v -> averaged tau y m v.
  Proof.
    intros E (L & H). split; [rewrite L, (E 0) by lia; reflexivity|]. intros i. rewrite H, (E 0) by lia. apply Qplus_comp; [reflexivity|].
    apply sum_to_ext. intros j Hj. rewrite (E (S j)) by lia. reflexivity.
  Qed.

  (** ** TD3 *)
  Context (dim : slot -> nat).
  Context (HD : forall l k, length (D l k) = dim k) (HO : forall st p g, length (fst (opt_step st p g)) = length p).

  Definition td3_wf (s : td3 St) : Prop := length (par (policy s)) = dim SPolicy /\ length (par (q1 s)) = dim SQ1 /\ length (par (q2 s)) = dim SQ2.
  Notation td3_explained := (td3_explained opt_step clip D q_value sample smoothing).
  Notation td3_update := (td3_update D opt_step clip q_value sample smoothing).
  Notation td3_updates := (td3_updates D opt_step clip q_value sample smoothing).
  Notation td3_update_q := (td3_update_q D opt_step clip q_value sample smoothing).

  Lemma stepped_len c n g n' : stepped opt_step c n g n' -> length (par n') = length (par n).
  Proof. intros H. unfold stepped in H. pose proof (HO (ost n) (par n) (c g)) as L. rewrite <- H in L. exact L. Qed.

  Lemma td3_update_spec tau delay s nz b n : 1 <= delay -> td3_wf s -> batch_of n b ->
    length (smoothing nz (sample nz (t_policy s) (b_next_state b))) = n ->
    exists s', td3_update tau delay s (nz, b) = Ok s' /\ td3_wf s' /\ td3_explained tau delay (S (q_n s)) s nz b s' /\ q_n s' = S (q_n s) /\
      policy_n s' = (if S (q_n s) mod delay =? 0 then S (policy_n s) else policy_n s).
  Proof.
    intros Hd (W1 & W2 & W3) Hb Ha. unfold td3_update. destruct delay as [|delay]; [lia|]. set (dl := S delay).
    set (target := td3_target (q_value (t_q1 s)) (q_value (t_q2 s)) (smoothing nz (sample nz (t_policy s) (b_next_state b))) b).
    pose proof (td3_target_spec (q_value (t_q1 s)) (q_value (t_q2 s)) b n _ Hb Ha) as T. fold target in T.
    assert (S1 := stepped_fresh (q1 s) (D (Mse 1 target (par (q1 s)) (b_state b) (b_action b)) SQ1) ltac:(rewrite HD; congruence)).
    assert (S2 := stepped_fresh (q2 s) (D (Mse 1 target (par (q2 s)) (b_state b) (b_action b)) SQ2) ltac:(rewrite HD; congruence)).
    assert (L1 := stepped_len _ _ _ _ S1). assert (L2 := stepped_len _ _ _ _ S2).
    set (su := td3_update_q s nz b).
    assert (Eq : q1 su = step opt_step (clip_grad clip (deposit (zero_grad (q1 s)) (D (Mse 1 target (par (q1 s)) (b_state b) (b_action b)) SQ1)))) by reflexivity.
    assert (Eq2 : q2 su = step opt_step (clip_grad clip (deposit (zero_grad (q2 s)) (D (Mse 1 target (par (q2 s)) (b_state b) (b_action b)) SQ2)))) by reflexivity.
    change (q_n su) with (S (q_n s)). rewrite <- Eq in S1, L1. rewrite <- Eq2 in S2, L2.
    eexists. split; [reflexivity|]. destruct (S (q_n s) mod dl =? 0) eqn:E.
    - assert (S3 := stepped_fresh (policy s) (D (NegQ (par (policy s)) (par (q1 su)) (b_state b) nz) SPolicy) ltac:(rewrite HD; congruence)).
      assert (L3 := stepped_len _ _ _ _ S3). split; [split; [|split]; [cbn [td3_sync td3_update_policy policy]; etransitivity; [exact L3|exact W1]|..]; cbn [td3_sync td3_update_policy q1 q2 deposit par]; congruence|].
      split; [|split; reflexivity].
      exists target. split; [exact T|]. split; [exact S1|]. split; [exact S2|]. rewrite E. split; [exact S3|]. repeat split.
    - split; [split; [exact W1|split; congruence]|]. split; [|split; reflexivity]. exists target. split; [exact T|]. split; [exact S1|]. split; [exact S2|]. rewrite E. repeat split.
  Qed.

  Lemma td3_updates_snoc tau delay s xs x : td3_updates tau delay s (xs ++ [x]) = (s <- td3_updates tau delay s xs ;; td3_update tau delay s x).
  Proof. revert s. induction xs as [|y xs IH]; intros s; cbn [app M_ActorCritic.td3_updates rbind]; [destruct (td3_update _ _ _ _); reflexivity|]. destruct (td3_update tau delay s y); cbn [rbind]; [apply IH|reflexivity]. Qed.

  Lemma firstn_S_nth {X} (l : list X) k x : nth_error l k = Some x -> firstn (S k) l = firstn k l ++ [x].
  Proof. revert k. induction l as [|y l IH]; intros [|k]; cbn; try discriminate; [intros [= ->]; reflexivity|]. intros H. f_equal. apply IH. exact H. Qed.

  Definition samples_ok : Prop := forall nz p obs, length (smoothing nz (sample nz p obs)) = length obs.

  Lemma td3_run tau delay s0 xs : 1 <= delay -> td3_wf s0 -> samples_ok -> Forall (fun x => exists n, batch_of n (snd x)) xs ->
    exists st, st 0 = s0 /\ (forall k, k <= length xs -> td3_updates tau delay s0 (firstn k xs) = Ok (st k) /\ td3_wf (st k)) /\
      forall k nz b, nth_error xs k = Some (nz, b) -> td3_explained tau delay (S (q_n (st k))) (st k) nz b (st (S k)) /\ q_n (st (S k)) = S (q_n (st k)) /\
        policy_n (st (S k)) = (if S (q_n (st k)) mod delay =? 0 then S (policy_n (st k)) else policy_n (st k)).
  Proof.
    intros Hd W HS F.
    exists (fun k => match td3_updates tau delay s0 (firstn k xs) with Ok s => s | Err _ => s0 end).
    assert (Run : forall k, k <= length xs -> exists s, td3_updates tau delay s0 (firstn k xs) = Ok s /\ td3_wf s).
    { induction k as [|k IH]; intros Hk; [exists s0; split; [reflexivity|exact W]|]. destruct IH as (s & E & Ws); [lia|].
      destruct (nth_error xs k) as [[nz b]|] eqn:En; [|apply nth_error_None in En; lia]. rewrite (firstn_S_nth _ _ _ En), td3_updates_snoc, E. cbn [rbind].
      destruct (proj1 (Forall_forall _ _) F _ (nth_error_In _ _ En)) as (n & Hb). cbn [snd] in Hb.
      destruct (td3_update_spec tau delay s nz b n Hd Ws Hb) as (s' & E' & W' & _); [rewrite HS; apply Hb|]. exists s'. split; assumption. }
    split; [reflexivity|]. split.
    - intros k Hk. destruct (Run k Hk) as (s & -> & Ws). split; [reflexivity|exact Ws].
    - intros k nz b En. assert (Hk : k < length xs) by (apply nth_error_Some; congruence). destruct (Run k) as (s & E & Ws); [lia|]. rewrite E.
      rewrite (firstn_S_nth _ _ _ En), td3_updates_snoc, E. cbn [rbind].
      destruct (proj1 (Forall_forall _ _) F _ (nth_error_In _ _ En)) as (n & Hb). cbn [snd] in Hb.
      destruct (td3_update_spec tau delay s nz b n Hd Ws Hb) as (s' & -> & W' & H); [rewrite HS; apply Hb|]. exact H.
  Qed.

  Lemma div_S k d : 1 <= d -> S k / d = if S k mod d =? 0 then S (k / d) else k / d.
  Proof.
    intros Hd. pose proof (Nat.div_mod k d ltac:(lia)) as E. pose proof (Nat.mod_upper_bound k d ltac:(lia)) as B.
    pose proof (Nat.div_mod (S k) d ltac:(lia)) as E'. pose proof (Nat.mod_upper_bound (S k) d ltac:(lia)) as B'.
    destruct (Nat.eqb_spec (S k mod d) 0) as [Z|Z]; nia.
  Qed.

  (** A vector moved by soft copies at the multiples of [delay] is an average. *)
  Lemma averaged_run tau delay (src tgt : nat -> vec) len : 1 <= delay -> tgt 0 = src 0 -> (forall k, k <= len -> length (src k) = length (src 0)) ->
    (forall k, k < len -> tgt (S k) = if S k mod delay =? 0 then soft_copy tau (tgt k) (src (S k)) else tgt k) ->
    forall k, k <= len -> averaged tau (fun j => src (j * delay)) (k / delay) (tgt k).
  Proof.
    intros Hd H0 HL HS. induction k as [|k IH]; intros Hk.
    - rewrite Nat.div_0_l, H0 by lia. apply (averaged_0 tau (fun j => src (j * delay))).
    - specialize (IH ltac:(lia)). rewrite (HS k) by lia. rewrite div_S by lia. destruct (Nat.eqb_spec (S k mod delay) 0) as [Z|Z]; [|exact IH].
      assert (E : S (k / delay) * delay = S k). { pose proof (Nat.div_mod (S k) delay ltac:(lia)) as E. rewrite div_S, Z in E by lia. cbn [Nat.eqb] in E. lia. }
      rewrite <- E at 1. apply (averaged_S tau (fun j => src (j * delay))); [|exact IH]. cbv beta. rewrite E. apply HL. lia.
  Qed.

  (** ** SAC *)
  Definition sac_wf (s : sac St) : Prop :=
    length (par (s_policy s)) = dim SPolicy /\ length (par (s_q1 s)) = dim SQ1 /\ length (par (s_q2 s)) = dim SQ2 /\ match s_temp s with Some n => length (par n) = dim STemp | None => True end.
  Notation sac_update := (sac_update D opt_step clip q_value sample log_prob temperature_of).
  Notation sac_explained := (sac_explained opt_step clip D q_value sample log_prob temperature_of).

  Lemma sac_update_spec c s nz1 nz2 b n : sac_wf s -> batch_of n b ->
    length (sample nz1 (par (s_policy s)) (b_next_state b)) = n -> length (sample nz2 (par (s_policy s)) (b_state b)) = n ->
    let s' := sac_update c s ((nz1, nz2), b) in
    sac_wf s' /\ sac_explained c s nz1 nz2 b s' /\ s_policy_n s' = S (s_policy_n s) /\
    s_t_q1 s' = soft_copy (s_tau c) (s_t_q1 s) (par (s_q1 s')) /\ s_t_q2 s' = soft_copy (s_tau c) (s_t_q2 s) (par (s_q2 s')).
  Proof.
    intros (W1 & W2 & W3 & W4) Hb H1 H2. cbv zeta.
    set (temp := temperature temperature_of c s).
    pose proof (sac_target_spec (q_value (s_t_q1 s)) (q_value (s_t_q2 s)) temp (log_prob (par (s_policy s))) b n _ Hb H1) as T.
    set (target := sac_target _ _ _ _ _) in T.
    assert (S1 := stepped_fresh (s_q1 s) (D (Mse (1 # 2) target (par (s_q1 s)) (b_state b) (b_action b)) SQ1) ltac:(rewrite HD; congruence)).
    assert (S2 := stepped_fresh (s_q2 s) (D (Mse (1 # 2) target (par (s_q2 s)) (b_state b) (b_action b)) SQ2) ltac:(rewrite HD; congruence)).
    set (n1 := step opt_step (clip_grad clip (deposit (zero_grad (s_q1 s)) _))) in S1. set (n2 := step opt_step (clip_grad clip (deposit (zero_grad (s_q2 s)) _))) in S2.
    assert (S3 := stepped_fresh (s_policy s) (D (SoftQ temp (par (s_policy s)) (par n1) (par n2) (b_state b) nz2) SPolicy) ltac:(rewrite HD; congruence)).
    assert (L1 := stepped_len _ _ _ _ S1). assert (L2 := stepped_len _ _ _ _ S2). assert (L3 := stepped_len _ _ _ _ S3).
    set (lps := map (fun p => log_prob (par (s_policy s)) (fst p) (snd p)) (combine (b_state b) (sample nz2 (par (s_policy s)) (b_state b)))).
    split; [|split; [|split; [|split]]].
    - split; [exact (eq_trans L3 W1)|]. split; [exact (eq_trans L1 W2)|]. split; [exact (eq_trans L2 W3)|].
      cbn [M_ActorCritic.sac_update sac_sync sac_update_policy sac_update_q s_temp]. destruct (s_temp s) as [tn|] eqn:Et; cbn [option_map]; [|exact I].
      assert (S4 := stepped_fresh tn (D (TempLoss (par tn) lps (entropy_target c)) STemp) ltac:(rewrite HD; congruence)). exact (eq_trans (stepped_len _ _ _ _ S4) W4).
    - exists target, temp. split; [reflexivity|]. split; [exact T|]. split; [exact S1|]. split; [exact S2|]. split; [exact S3|].
      cbn [M_ActorCritic.sac_update sac_sync sac_update_policy sac_update_q s_temp]. destruct (s_temp s) as [tn|] eqn:Et; cbn [option_map]; [|exact I].
      exists lps. destruct Hb as (B1 & _). split; [unfold lps; rewrite map_length, B1; apply combine_len; assumption|]. split.
      + intros i ob a Ho Ha. unfold lps. rewrite nth_error_map, (nth_error_combine _ _ _ _ _ Ho Ha). reflexivity.
      + exact (stepped_fresh tn (D (TempLoss (par tn) lps (entropy_target c)) STemp) ltac:(rewrite HD; congruence)).
    - reflexivity.
    - reflexivity.
    - reflexivity.
  Qed.

  (** ** DDPG *)
  Definition ddpg_wf (s : ddpg St) : Prop := length (par (d_policy s)) = dim SPolicy /\ length (par (d_q s)) = dim SQ1.
  Notation ddpg_update := (ddpg_update D opt_step q_value sample).
  Notation ddpg_explained := (ddpg_explained opt_step (fun g => g) D q_value sample).
  Lemma ddpg_update_spec gamma s nz b n : ddpg_wf s -> batch_of n b -> length (sample nz (d_t_policy s) (b_next_state b)) = n ->
    let s' := ddpg_update gamma s (nz, b) in ddpg_wf s' /\ ddpg_explained gamma s nz b s' /\ d_n s' = S (d_n s).
  Proof.
    intros (W1 & W2) Hb H1. cbv zeta.
    pose proof (ddpg_target_spec gamma (q_value (d_t_q s)) b n _ Hb H1) as T. set (target := ddpg_target _ _ _ _) in T.
    assert (S1 := stepped_fresh_noclip (d_q s) (D (Mse 1 target (par (d_q s)) (b_state b) (b_action b)) SQ1) ltac:(rewrite HD; congruence)).
    set (n1 := step opt_step (deposit (zero_grad (d_q s)) _)) in S1.
    assert (S3 := stepped_fresh_noclip (d_policy s) (D (NegQ (par (d_policy s)) (par n1) (b_state b) nz) SPolicy) ltac:(rewrite HD; congruence)).
    assert (L1 := stepped_len _ _ _ _ S1). assert (L3 := stepped_len _ _ _ _ S3).
    split; [split; [exact (eq_trans L3 W1)|exact (eq_trans L1 W2)]|]. split; [|reflexivity].
    exists target. split; [exact T|]. split; [exact S1|]. split; [exact S3|]. split; reflexivity.
  Qed.

  (** ** Loading: two agents that agree except in accumulated gradients (and counters). *)
  Definition same_net (n m : net) : Prop := par n = par m /\ ost n = ost m.
  Lemma same_step (n m : net) g : same_net n m ->
    same_net (step opt_step (clip_grad clip (deposit (zero_grad n) g))) (step opt_step (clip_grad clip (deposit (zero_grad m) g))).
  Proof.
    intros (E1 & E2). unfold same_net, step, clip_grad, deposit, zero_grad. cbn [par grad ost]. rewrite E1, E2. destruct (opt_step _ _ _). split; reflexivity.
  Qed.
  Lemma same_step_noclip (n m : net) g : same_net n m ->
    same_net (step opt_step (deposit (zero_grad n) g)) (step opt_step (deposit (zero_grad m) g)).
  Proof. intros (E1 & E2). unfold same_net, step, deposit, zero_grad. cbn [par grad ost]. rewrite E1, E2. destruct (opt_step _ _ _). split; reflexivity. Qed.
  Lemma same_deposit (n m : net) g h : same_net n m -> same_net (deposit n g) (deposit m h).
  Proof. intros H. exact H. Qed.

  Notation td3_ev := (td3_ev D opt_step clip q_value sample smoothing).
  Notation sac_ev := (sac_ev D opt_step clip q_value sample log_prob temperature_of).
  Notation ddpg_ev := (ddpg_ev D opt_step q_value sample).

  (** Two steps of related states give related results and the same outputs; then so do histories. *)
  Definition sim {X} (R : X -> X -> Prop) (a b : result (X * option source)) : Prop :=
    match a, b with Ok (s, o), Ok (s', o') => R s s' /\ o = o' | Err e, Err e' => e = e' | _, _ => False end.
  Lemma history_sim {X Y} (R : X -> X -> Prop) (f : X -> ev Y -> result (X * option source)) :
    (forall s s' e, R s s' -> sim R (f s e) (f s' e)) ->
    forall es s s', R s s' ->
      match history f s es, history f s' es with Ok (t, o), Ok (t', o') => R t t' /\ o = o' | Err e, Err e' => e = e' | _, _ => False end.
  Proof.
    intros Hf. induction es as [|e es IH]; intros s s' H; cbn [history]; [split; [exact H|reflexivity]|].
    specialize (Hf s s' e H). unfold sim in Hf. destruct (f s e) as [[t o]|], (f s' e) as [[t' o']|]; try contradiction; cbn [rbind]; [|exact Hf].
    destruct Hf as (H' & ->). specialize (IH t t' H'). destruct (history f t es) as [[u os]|], (history f t' es) as [[u' os']|]; try contradiction; cbn [rbind]; [|exact IH].
    destruct IH as (K & ->). split; [exact K|reflexivity].
  Qed.

  Definition td3_same (s s' : td3 St) : Prop :=
    same_net (policy s) (policy s') /\ same_net (q1 s) (q1 s') /\ same_net (q2 s) (q2 s') /\ t_policy s = t_policy s' /\ t_q1 s = t_q1 s' /\ t_q2 s = t_q2 s'.
  Definition td3_R (delay : nat) (burnin : bool) (s s' : td3 St) : Prop :=
    td3_same s s' /\ q_n s mod delay = q_n s' mod delay /\ (burnin = true -> (policy_n s = 0 <-> policy_n s' = 0)).
  Lemma S_mod_eq a b d : a mod d = b mod d -> S a mod d = S b mod d.
  Proof.
    destruct d; [cbn; congruence|]. intros H. rewrite <- (Nat.add_1_l a), <- (Nat.add_1_l b). rewrite (Nat.add_mod 1 a), (Nat.add_mod 1 b), H by lia. reflexivity.
  Qed.
  Lemma td3_ev_sim tau delay burnin s s' e : td3_R delay burnin s s' -> sim (td3_R delay burnin) (td3_ev tau delay burnin s e) (td3_ev tau delay burnin s' e).
  Proof.
    intros ((H1 & H2 & H3 & H4 & H5 & H6) & Hq & Hp). destruct e as [[nz b]| | |]; cbn [M_ActorCritic.td3_ev].
    - unfold M_ActorCritic.td3_update. destruct delay as [|delay]; [reflexivity|]. set (dl := S delay) in *.
      set (u := M_ActorCritic.td3_update_q D opt_step clip q_value sample smoothing s nz b).
      set (u' := M_ActorCritic.td3_update_q D opt_step clip q_value sample smoothing s' nz b).
      assert (U1 : same_net (q1 u) (q1 u')).
      { unfold u, u', M_ActorCritic.td3_update_q. cbn [q1]. rewrite H4, H5, H6, (proj1 H2). apply same_step. exact H2. }
      assert (U2 : same_net (q2 u) (q2 u')).
      { unfold u, u', M_ActorCritic.td3_update_q. cbn [q2]. rewrite H4, H5, H6, (proj1 H3). apply same_step. exact H3. }
      change (q_n u) with (S (q_n s)). change (q_n u') with (S (q_n s')). rewrite (S_mod_eq _ _ _ Hq). cbn [rbind].
      destruct (S (q_n s') mod dl =? 0); (split; [|reflexivity]).
      + set (v := td3_update_policy D opt_step clip u nz b). set (v' := td3_update_policy D opt_step clip u' nz b).
        assert (V1 : same_net (policy v) (policy v')).
        { unfold v, v', td3_update_policy. cbn [policy]. change (policy u) with (policy s). change (policy u') with (policy s'). rewrite (proj1 U1), (proj1 H1). apply same_step. exact H1. }
        split; [|split; [exact (S_mod_eq _ _ _ Hq)|intros _; cbn; split; discriminate]].
        split; [exact V1|]. split; [exact U1|]. split; [exact U2|]. cbn [td3_sync t_policy t_q1 t_q2].
        change (t_policy v) with (t_policy s). change (t_policy v') with (t_policy s'). change (t_q1 v) with (t_q1 s). change (t_q1 v') with (t_q1 s'). change (t_q2 v) with (t_q2 s). change (t_q2 v') with (t_q2 s').
        change (par (q1 v)) with (par (q1 u)). change (par (q1 v')) with (par (q1 u')). change (q2 v) with (q2 u). change (q2 v') with (q2 u').
        rewrite H4, H5, H6, (proj1 U1), (proj1 U2), (proj1 V1). repeat split.
      + split; [|split; [exact (S_mod_eq _ _ _ Hq)|exact Hp]]. split; [exact H1|]. split; [exact U1|]. split; [exact U2|]. repeat split; assumption.
    - unfold act_train. split; [repeat split; try assumption; try apply H1; try apply H2; try apply H3; apply Hp; assumption|]. rewrite (proj1 H1).
      destruct burnin; cbn [andb]; [|reflexivity]. destruct Hp as (P1 & P2); [reflexivity|].
      destruct (Nat.eqb_spec (policy_n s) 0), (Nat.eqb_spec (policy_n s') 0); try reflexivity; exfalso; tauto.
    - unfold act_eval. split; [repeat split; try assumption; try apply H1; try apply H2; try apply H3; apply Hp; assumption|]. rewrite (proj1 H1). reflexivity.
    - split; [repeat split; try assumption; try apply H1; try apply H2; try apply H3; apply Hp; assumption|reflexivity].
  Qed.

  Definition sac_same (s s' : sac St) : Prop :=
    same_net (s_policy s) (s_policy s') /\ same_net (s_q1 s) (s_q1 s') /\ same_net (s_q2 s) (s_q2 s') /\
    match s_temp s, s_temp s' with Some n, Some m => same_net n m | None, None => True | _, _ => False end /\ s_t_q1 s = s_t_q1 s' /\ s_t_q2 s = s_t_q2 s'.
  Definition sac_R (burnin : bool) (s s' : sac St) : Prop := sac_same s s' /\ (burnin = true -> (s_policy_n s = 0 <-> s_policy_n s' = 0)).
  Lemma sac_ev_sim c burnin s s' e : sac_R burnin s s' -> sim (sac_R burnin) (sac_ev c burnin s e) (sac_ev c burnin s' e).
  Proof.
    intros ((H1 & H2 & H3 & H4 & H5 & H6) & Hp).
    assert (ET : temperature temperature_of c s = temperature temperature_of c s').
    { unfold temperature. destruct (s_temp s), (s_temp s'); try contradiction; [rewrite (proj1 H4)|]; reflexivity. }
    destruct e as [[[nz1 nz2] b]| | |]; cbn [M_ActorCritic.sac_ev].
    - split; [|reflexivity]. unfold M_ActorCritic.sac_update.
      set (u := sac_update_q D opt_step clip q_value sample log_prob temperature_of c s nz1 b).
      set (u' := sac_update_q D opt_step clip q_value sample log_prob temperature_of c s' nz1 b).
      assert (U1 : same_net (s_q1 u) (s_q1 u')).
      { unfold u, u', sac_update_q. cbn [s_q1]. rewrite ET, H5, H6, (proj1 H1), (proj1 H2). apply same_step. exact H2. }
      assert (U2 : same_net (s_q2 u) (s_q2 u')).
      { unfold u, u', sac_update_q. cbn [s_q2]. rewrite ET, H5, H6, (proj1 H1), (proj1 H3). apply same_step. exact H3. }
      set (v := sac_update_policy D opt_step clip sample log_prob temperature_of c u nz2 b). set (v' := sac_update_policy D opt_step clip sample log_prob temperature_of c u' nz2 b).
      assert (V1 : same_net (s_policy v) (s_policy v')).
      { unfold v, v', sac_update_policy. cbn [s_policy]. change (s_policy u) with (s_policy s). change (s_policy u') with (s_policy s').
        change (temperature temperature_of c u) with (temperature temperature_of c s). change (temperature temperature_of c u') with (temperature temperature_of c s').
        rewrite ET, (proj1 U1), (proj1 U2), (proj1 H1). apply same_step. exact H1. }
      split; [|intros _; cbn; split; discriminate].
      split; [exact V1|]. split; [exact U1|]. split; [exact U2|]. split; [|cbn [sac_sync s_t_q1 s_t_q2]; change (s_t_q1 v) with (s_t_q1 s); change (s_t_q1 v') with (s_t_q1 s'); change (s_t_q2 v) with (s_t_q2 s); change (s_t_q2 v') with (s_t_q2 s');
        change (par (s_q1 v)) with (par (s_q1 u)); change (par (s_q1 v')) with (par (s_q1 u')); change (par (s_q2 v)) with (par (s_q2 u)); change (par (s_q2 v')) with (par (s_q2 u')); rewrite H5, H6, (proj1 U1), (proj1 U2); split; reflexivity].
      cbn [sac_sync s_temp]. unfold v, v', sac_update_policy. cbn [s_temp]. change (s_temp u) with (s_temp s). change (s_temp u') with (s_temp s'). change (s_policy u) with (s_policy s). change (s_policy u') with (s_policy s').
      destruct (s_temp s), (s_temp s'); try contradiction; cbn [option_map]; [|exact I]. rewrite (proj1 H1). unfold sac_update_temperature. rewrite (proj1 H4). apply same_step. exact H4.
    - unfold act_train. split; [split; [repeat (split; [assumption|]); assumption|exact Hp]|]. rewrite (proj1 H1).
      destruct burnin; cbn [andb]; [|reflexivity]. destruct Hp as (P1 & P2); [reflexivity|].
      destruct (Nat.eqb_spec (s_policy_n s) 0), (Nat.eqb_spec (s_policy_n s') 0); try reflexivity; exfalso; tauto.
    - unfold act_eval. split; [split; [repeat (split; [assumption|]); assumption|exact Hp]|]. rewrite (proj1 H1). reflexivity.
    - split; [split; [repeat (split; [assumption|]); assumption|exact Hp]|reflexivity].
  Qed.

  Definition ddpg_same (s s' : ddpg St) : Prop :=
    same_net (d_policy s) (d_policy s') /\ same_net (d_q s) (d_q s') /\ d_t_policy s = d_t_policy s' /\ d_t_q s = d_t_q s'.
  Definition ddpg_R (burnin : bool) (s s' : ddpg St) : Prop := ddpg_same s s' /\ (burnin = true -> (d_n s = 0 <-> d_n s' = 0)).
  Lemma ddpg_ev_sim gamma method burnin s s' e : ddpg_R burnin s s' -> sim (ddpg_R burnin) (ddpg_ev gamma method burnin s e) (ddpg_ev gamma method burnin s' e).
  Proof.
    intros ((H1 & H2 & H3 & H4) & Hp). destruct e as [[nz b]| | |]; cbn [M_ActorCritic.ddpg_ev].
    - split; [|reflexivity]. split; [|intros _; cbn; split; discriminate]. unfold M_ActorCritic.ddpg_update.
      set (n1 := step opt_step (deposit (zero_grad (d_q s)) _)). set (n2 := step opt_step (deposit (zero_grad (d_q s')) _)).
      assert (U : same_net n1 n2). { unfold n1, n2. rewrite H3, H4, (proj1 H2). apply same_step_noclip. exact H2. }
      split; [|split; [exact U|split; assumption]]. cbn [d_policy]. rewrite (proj1 U), (proj1 H1). apply same_step_noclip. exact H1.
    - unfold act_train. split; [split; [repeat (split; [assumption|]); assumption|exact Hp]|]. rewrite (proj1 H1).
      destruct burnin; cbn [andb]; [|reflexivity]. destruct Hp as (P1 & P2); [reflexivity|].
      destruct (Nat.eqb_spec (d_n s) 0), (Nat.eqb_spec (d_n s') 0); try reflexivity; exfalso; tauto.
    - unfold act_eval. split; [split; [repeat (split; [assumption|]); assumption|exact Hp]|]. rewrite (proj1 H1). reflexivity.
    - split; [|reflexivity]. split; [|exact Hp]. split; [exact H1|]. split; [exact H2|]. cbn [ddpg_sync d_t_policy d_t_q]. rewrite H3, H4, (proj1 H1), (proj1 H2). split; reflexivity.
  Qed.
End Proofs.
