(** C94: the first minibatch of a PPO update. *)
From Coq Require Import Reals QArith Permutation Lia Lra.
From Verif Require Import Base P_Base M_Batch P_Batch M_Recurrent S_Recurrent P_Recurrent M_PPO M_PPOData S_PPOData P_PPOData C93 M_EmpNorm.
Close Scope Q_scope. Close Scope R_scope. Open Scope nat_scope.

(** New and stored log-probability agree (the probability ratio is 1), and so do new and stored value (value clipping is inactive). *)
Definition on_policy (z : (Q * Q) * (Q * Q)) : Prop := fst (fst z) = snd (fst z) /\ fst (snd z) = snd (snd z).

(** The claim: at the start of an update, before the model has changed, every transition of the dataset is on-policy.  [feat] is the
    preprocessing when the dataset is made, [feat'] the one during the update. *)
Definition starts_on_policy {Ob Act F Dist HS : Type} (model : F -> Dist * Q) (log_prob : Dist -> Act -> Q) (feat feat' : Ob -> F) (gamma lambd : Q) : Prop :=
  forall (heap heap' : list (ptr Ob Act HS)) eps a y, NoDup (concat eps) -> Forall (fun a => a < length heap) (concat eps) ->
    make_values model log_prob feat gamma lambd heap eps = Ok heap' -> In a (concat eps) -> nth_error heap' a = Some y ->
    on_policy (loss_inputs model log_prob feat' y).

Section C94.
Context {Ob Act F Dist HS : Type}.
Notation ptr := (ptr Ob Act HS).

(** It holds without observation normalizer, or when its statistics no longer change. *)
Theorem C94_feedforward_partial (model : F -> Dist * Q) (log_prob : Dist -> Act -> Q) (feat feat' : Ob -> F) gamma lambd :
  (forall s, feat' s = feat s) -> @starts_on_policy Ob Act F Dist HS model log_prob feat feat' gamma lambd.
Proof.
  intros E heap heap' eps a y N B M I Hy. destruct (C93_dataset model log_prob feat gamma lambd heap eps N B) as (h & H1 & H2). rewrite M in H1. injection H1 as <-.
  apply in_concat in I. destruct I as (refs & I1 & I2). apply In_nth_error in I2. destruct I2 as (t & T).
  assert (BR : Forall (fun a => a < length heap) refs) by (rewrite Forall_forall in *; intros b J; apply B, in_concat; eauto).
  destruct (deref_all heap refs BR) as (xs & _ & C). destruct (H2 refs xs t a I1 C T) as (y' & Y1 & Y2). rewrite Hy in Y1. injection Y1 as <-.
  destruct Y2 as (_ & _ & L & V & _ & x & X & S1 & S2 & _). rewrite X in L, V. unfold on_policy, loss_inputs. cbn. rewrite E, S1, S2, L, V. auto.
Qed.

(** Recurrent models: the same for every piece of an episode (max_recurrent_sequence_len cuts episodes, minibatches cut them further), as
    each piece starts from the recurrent state stored in its first transition.  [carried]: the stored states are those the model carried
    while acting. *)
Definition carried (step : F -> HS -> (Dist * Q) * HS) (h0 : HS) (feat : Ob -> F) (xs : list ptr) : Prop :=
  forall k x y, nth_error xs k = Some x -> nth_error xs (S k) = Some y -> hid h0 (p_rs y) = snd (step (feat (p_state x)) (hid h0 (p_rs x))).

Lemma carried_hidden step h0 feat (xs : list ptr) : carried step h0 feat xs -> forall k x0 x, nth_error xs 0 = Some x0 -> nth_error xs k = Some x ->
  hid h0 (p_rs x) = hidden_after step (hid h0 (p_rs x0)) (firstn k (map (fun x => feat (p_state x)) xs)).
Proof.
  intros C k. revert xs C. induction k as [|k IH]; intros xs C x0 x X0 X.
  - rewrite X0 in X. injection X as <-. reflexivity.
  - destruct xs as [|z xs]; [discriminate|]. cbn in X0. injection X0 as ->. cbn in X. destruct xs as [|x1 xs]; [destruct k; discriminate|].
    cbn [map]. rewrite firstn_cons. unfold hidden_after. cbn [fold_left].
    rewrite <- (C 0 x0 x1 eq_refl eq_refl). apply (IH (x1 :: xs)); auto. intros j a b A B. apply (C (S j)); assumption.
Qed.
Lemma output_skip step h (xs : list F) k t : k + t < length xs ->
  output_at step (hidden_after step h (firstn k xs)) (skipn k xs) t = output_at (Dist := Dist) (HS := HS) step h xs (k + t).
Proof.
  revert h k. induction xs as [|x xs IH]; intros h k L; [cbn in L; lia|]. destruct k as [|k]; [reflexivity|].
  cbn [firstn skipn Nat.add]. unfold hidden_after. cbn [fold_left]. fold (hidden_after step (snd (step x h)) (firstn k xs)). rewrite IH by (cbn in L; lia).
  unfold output_at. cbn [nth_error firstn]. reflexivity.
Qed.
Lemma output_firstn step h (xs : list F) n t : t < n -> output_at step h (firstn n xs) t = output_at (Dist := Dist) (HS := HS) step h xs t.
Proof.
  intros L. unfold output_at. rewrite firstn_firstn, Nat.min_l by lia.
  replace (nth_error (firstn n xs) t) with (nth_error xs t); [reflexivity|]. revert n L xs. induction t; intros [|n] L [|x xs]; try lia; cbn; auto. apply IHt. lia.
Qed.

Lemma nth_error_ext' {A} (l l' : list A) : (forall j, nth_error l j = nth_error l' j) -> l = l'.
Proof.
  revert l'. induction l as [|a l IH]; intros [|b l'] H; [reflexivity|specialize (H 0); discriminate|specialize (H 0); discriminate|].
  assert (E := H 0). cbn in E. injection E as ->. f_equal. apply IH. intros j. exact (H (S j)).
Qed.

Theorem C94_recurrent_partial (step : F -> HS -> (Dist * Q) * HS) (h0 : HS) (log_prob : Dist -> Act -> Q) (feat : Ob -> F) gamma lambd (heap heap' : list ptr) eps refs xs ys k n z :
  eps <> [] -> Forall (fun e => e <> []) eps -> NoDup (concat eps) -> Forall (fun a => a < length heap) (concat eps) ->
  make_values_recurrent step h0 log_prob feat gamma lambd heap eps = Ok heap' ->
  In refs eps -> contents heap refs xs -> carried step h0 feat xs -> contents heap' refs ys ->
  In z (loss_inputs_recurrent step h0 log_prob feat (firstn n (skipn k ys))) -> on_policy z.
Proof.
  intros NE FE N B M I C CA CY Z.
  destruct (C93_dataset_recurrent step h0 log_prob feat gamma lambd heap eps NE FE N B) as (h & H1 & H2). rewrite M in H1. injection H1 as <-.
  assert (L1 : length refs = length xs) by exact (Forall2_len _ _ _ C). assert (L2 : length refs = length ys) by exact (Forall2_len _ _ _ CY).
  assert (X0 : exists x0, nth_error xs 0 = Some x0).
  { destruct (nth_error xs 0) eqn:E; [eauto|]. apply nth_error_None in E. rewrite Forall_forall in FE. specialize (FE refs I). destruct refs; [congruence|cbn in L1; lia]. }
  destruct X0 as (x0 & X0).
  assert (EN : forall j y, nth_error ys j = Some y -> exists x d v, nth_error xs j = Some x /\
     output_at step (hid h0 (p_rs x0)) (map (fun x => feat (p_state x)) xs) j = Some (d, v) /\
     p_log_prob y = log_prob d (p_action x) /\ p_v y = v /\ p_state y = p_state x /\ p_action y = p_action x /\ p_rs y = p_rs x).
  { intros j y Hj. assert (J : j < length refs) by (rewrite L2; apply nth_error_Some; congruence).
    destruct (nth_error refs j) as [a|] eqn:A; [|apply nth_error_None in A; lia].
    destruct (H2 refs xs x0 j a I C X0 A) as (y' & Y1 & Y2). destruct (contents_nth _ _ _ _ _ CY A) as (y'' & Y3 & Y4).
    assert (y' = y) as -> by congruence. destruct Y2 as (_ & _ & P1 & P2 & _ & x & P3 & P4 & P5 & _ & _ & _ & P6 & _).
    assert (O : exists dv, output_at step (hid h0 (p_rs x0)) (map (fun x => feat (p_state x)) xs) j = Some dv).
    { unfold output_at. rewrite nth_error_map, P3. cbn. eauto. }
    destruct O as ([d v] & O). rewrite O, P3 in P1. rewrite O in P2. exists x, d, v. repeat split; auto. }
  set (sq := firstn n (skipn k ys)) in *. destruct sq as [|y0 sq0] eqn:SQ; [destruct Z|]. rewrite <- SQ in Z. unfold loss_inputs_recurrent in Z. rewrite SQ in Z. rewrite <- SQ in Z.
  apply in_map_iff in Z. destruct Z as ([out y] & <- & Z). apply In_nth_error in Z. destruct Z as (t & T).
  assert (SP : forall (A B : Type) (l : list A) (l' : list B) t a b, nth_error (combine l l') t = Some (a, b) -> nth_error l t = Some a /\ nth_error l' t = Some b).
  { intros A B' l. induction l as [|u l IH]; intros [|w l'] [|j] a b H; try discriminate; cbn in *; [injection H as -> ->; auto|]. exact (IH l' j a b H). }
  apply SP in T. destruct T as [T1 T2]. rewrite run_nth in T1.
  assert (NS : forall j w, nth_error sq j = Some w -> nth_error ys (k + j) = Some w /\ j < n).
  { intros j w W. unfold sq in W. assert (j < n). { assert (j < length (firstn n (skipn k ys))) by (apply nth_error_Some; congruence). rewrite firstn_length in H. lia. }
    split; [|exact H]. assert (FN : forall (A : Type) (l : list A) m i, i < m -> nth_error (firstn m l) i = nth_error l i).
    { intros A l m i Hi. revert m Hi l. induction i; intros [|m] Hi [|q l]; try lia; cbn; auto. apply IHi. lia. }
    rewrite FN in W by exact H. clear - W. revert ys W. induction k as [|k IH]; intros ys W; [exact W|]. destruct ys; [destruct j; discriminate|]. cbn in *. auto. }
  assert (Y0 : nth_error ys (k + 0) = Some y0) by (apply NS; rewrite SQ; reflexivity). destruct (NS t y T2) as (Yt & Tn).
  destruct (EN _ _ Y0) as (xk & dk & vk & K1 & _ & _ & _ & _ & _ & K2). destruct (EN _ _ Yt) as (x & d & v & E1 & E2 & E3 & E4 & E5 & E6 & E7).
  assert (FX : map (fun x => feat (p_state x)) sq = firstn n (skipn k (map (fun x => feat (p_state x)) xs))).
  { unfold sq. rewrite <- firstn_map. f_equal. rewrite <- skipn_map. f_equal. apply nth_error_ext'. intros j. rewrite !nth_error_map.
    destruct (nth_error ys j) as [w|] eqn:W.
    - destruct (EN _ _ W) as (x' & ? & ? & W1 & _ & _ & _ & W2 & _). rewrite W1. cbn. congruence.
    - assert (nth_error xs j = None) as ->; [|reflexivity]. apply nth_error_None. apply nth_error_None in W. lia. }
  rewrite FX, K2, output_firstn in T1 by exact Tn. rewrite Nat.add_0_r in K1.
  rewrite (carried_hidden step h0 feat xs CA k x0 xk X0 K1), output_skip in T1.
  2:{ rewrite map_length. apply nth_error_Some. congruence. }
  rewrite E2 in T1. injection T1 as <-. unfold on_policy. cbn. rewrite E3, E4, E6. auto.
Qed.

(** Acting makes the stored states so: within an episode a transition's recurrent state is the next recurrent state of the one before, which
    is what the model gets to from the state it had and the observation; after the end of an episode it is the zero state. *)
Theorem C94_carried (step : F -> HS -> (Dist * Q) * HS) (h0 : HS) (feat : Ob -> F) n (rounds : list (list Ob * list bool)) r obs ended obs' ended' i ob e :
  Forall (fun q => length (fst q) = n /\ length (snd q) = n) rounds ->
  nth_error rounds r = Some (obs, ended) -> nth_error rounds (S r) = Some (obs', ended') -> nth_error obs i = Some ob -> nth_error ended i = Some e ->
  exists l l' rs nrs rs' nrs', let out := act_rounds (Dist := Dist) step h0 feat None rounds in nth_error out r = Some l /\ nth_error out (S r) = Some l' /\
    nth_error l i = Some (rs, nrs) /\ nth_error l' i = Some (rs', nrs') /\
    nrs = snd (step (feat ob) (hid h0 rs)) /\ (if e : bool then rs' = Some h0 else rs' = Some nrs).
Proof.
  intros FA R R' O E. cbn zeta.
  assert (G : forall rounds r (st : option (list HS)), Forall (fun q => length (fst q) = n /\ length (snd q) = n) rounds ->
    (forall l, st = Some l -> length l = n) -> nth_error rounds r = Some (obs, ended) -> nth_error rounds (S r) = Some (obs', ended') ->
    exists l l' rs nrs rs' nrs', nth_error (act_rounds (Dist := Dist) step h0 feat st rounds) r = Some l /\
      nth_error (act_rounds (Dist := Dist) step h0 feat st rounds) (S r) = Some l' /\
      nth_error l i = Some (rs, nrs) /\ nth_error l' i = Some (rs', nrs') /\
      nrs = snd (step (feat ob) (hid h0 rs)) /\ (if e : bool then rs' = Some h0 else rs' = Some nrs)); [|eapply G; eauto; discriminate].
  clear R R' FA. clear rounds r. induction rounds as [|[o1 e1] rounds IH]; intros r st FA LS R R'; [destruct r; discriminate|].
  inversion FA as [|? ? [F1 F2] FA']; subst. cbn [fst snd] in *. cbn [act_rounds].
  set (prev := match st with None => map (fun _ => None) o1 | Some l => map Some l end).
  assert (LP : length prev = length o1) by (unfold prev; destruct st as [l|]; rewrite map_length; [apply LS; reflexivity|reflexivity]).
  unfold act_round. fold prev. set (next := map _ (combine o1 prev)).
  assert (LN : length next = length o1) by (unfold next; rewrite map_length, combine_length; lia).
  set (st' := map _ (combine next e1)). assert (LS' : length st' = length o1) by (unfold st'; rewrite map_length, combine_length; lia).
  destruct r as [|r].
  - cbn in R, R'. injection R as -> ->. destruct rounds as [|[o2 e2] rounds]; [discriminate|]. cbn in R'. injection R' as -> ->.
    inversion FA' as [|? ? [F3 F4] _]; subst. cbn [fst snd] in *.
    assert (I : i < length obs) by (apply nth_error_Some; congruence).
    destruct (nth_error prev i) as [rs|] eqn:P; [|apply nth_error_None in P; lia].
    assert (NX : nth_error next i = Some (snd (step (feat ob) (hid h0 rs)))).
    { unfold next. rewrite nth_error_map, (combine_nth_error obs prev i ob rs O P). reflexivity. }
    assert (SX : nth_error st' i = Some (if e then h0 else snd (step (feat ob) (hid h0 rs)))).
    { unfold st'. rewrite nth_error_map, (combine_nth_error next ended i _ e NX E). reflexivity. }
    destruct (nth_error obs' i) as [ob'|] eqn:O'; [|apply nth_error_None in O'; lia].
    cbn [act_rounds]. unfold act_round. eexists _, _. do 4 eexists. split; [reflexivity|]. split; [reflexivity|].
    split; [apply combine_nth_error; [exact P|exact NX]|]. split; [|split; [reflexivity|]].
    + apply combine_nth_error; [rewrite nth_error_map, SX; reflexivity|]. rewrite nth_error_map. erewrite combine_nth_error; [|exact O'|rewrite nth_error_map, SX; reflexivity]. reflexivity.
    + destruct e; reflexivity.
  - cbn in R, R'. destruct (IH r (Some st') FA') as (l & l' & rs & nrs & rs' & nrs' & H1 & H2 & H3); auto; [intros l H; injection H as <-; exact LS'|].
    exists l, l', rs, nrs, rs', nrs'. auto.
Qed.
End C94.

(** With an observation normalizer it fails: _update first lets the normalizer learn the dataset, so the new probabilities and values are
    those of differently normalized states.  Here: a new normalizer, one stored transition with state 2, any eps > 0, and a model that
    tells the mean observation (normalized 0) from others. *)
Definition normalized (eps : R) (s : norm) (x : R) : R := match snd (forward eps None None s [x] false) with [y] => y | _ => 0%R end.
Theorem C94_starts_on_policy_refuted (eps : R) (gamma lambd : Q) : (0 < eps)%R ->
  exists (model : R -> Q * Q), let before := init in let after := experience None before [2%R] in
  ~ @starts_on_policy R nat R Q unit model (fun d _ => d) (normalized eps before) (normalized eps after) gamma lambd.
Proof.
  intros He. exists (fun x => if Req_EM_T x 0 then (0, 0)%Q else (1, 1)%Q). cbn zeta. intros H.
  set (x := mkPtr 2%R 0 0%Q 2%R 0%Q (@None unit) None 0%Q 0%Q 0%Q 0%Q 0%Q). 
  assert (NB : normalized eps init 2 <> 0%R).
  { unfold normalized, forward, std_inverse, init. cbn. assert (P : (0 < / sqrt (1 + eps))%R) by (apply Rinv_0_lt_compat, sqrt_lt_R0; lra). nra. }
  assert (NA : normalized eps (experience None init [2%R]) 2 = 0%R).
  { unfold normalized, forward, std_inverse, experience, init, t_mean. cbn. replace (2 - _)%R with 0%R by field. ring. }
  destruct (C93_dataset (HS := unit) (Act := nat) (fun x => if Req_EM_T x 0 then (0, 0)%Q else (1, 1)%Q) (fun d _ => d) (normalized eps init) gamma lambd [x] [[0]]) as (h & M & E).
  { repeat constructor. intros []. } { repeat constructor. }
  destruct (E [0] [x] 0 0) as (y & Y1 & Y2); [now left|repeat constructor|reflexivity|].
  destruct Y2 as (_ & _ & L & V & _ & x' & X & S1 & _). cbn in X. injection X as <-. cbn [nth_error] in L. change (p_state x) with 2%R in L.
  specialize (H [x] h [[0]] 0 y). destruct H as [H _]; auto; [repeat constructor; intros []|repeat constructor|now left|].
  unfold loss_inputs in H. cbn [fst snd] in H. rewrite S1 in H. change (p_state x) with 2%R in H. rewrite NA in H. destruct (Req_EM_T 0 0) as [_|C]; [|apply C; reflexivity]. cbn [fst snd] in H.
  rewrite L in H. destruct (Req_EM_T (normalized eps init 2) 0); [contradiction|]. discriminate.
Qed.

(** A recurrent example meeting the hypotheses: the three-step episode of C93_ex cut after its first transition. *)
Example C94_ex : carried ex_step 0 (fun s => s) (firstn 3 ex_heap) /\
  exists h, make_values_recurrent ex_step 0 (fun d a => inject_Z (Z.of_nat (d + a))) (fun s => s) 1 1 ex_heap [[3]; [0; 1; 2]] = Ok h /\
    map (fun z => (Qred (fst (fst z)), Qred (fst (snd z)))) (loss_inputs_recurrent ex_step 0 (fun d a => inject_Z (Z.of_nat (d + a))) (fun s => s) (firstn 2 (skipn 1 h))) = [(104, 21); (106, 32)]%Q.
Proof.
  split; [|eexists; split; vm_compute; reflexivity].
  intros [|[|k]] x y X Y; cbn in X, Y; [injection X as <-; injection Y as <-; reflexivity..|destruct k; discriminate].
Qed.
Print Assumptions C94_feedforward_partial.
Print Assumptions C94_recurrent_partial.
Print Assumptions C94_carried.
Print Assumptions C94_starts_on_policy_refuted.
