(** Proofs for C133. *)
From Coq Require Import QArith Qpower.
From Verif Require Import Base P_Base M_A2C S_PPO P_PPO S_A2C P_A2C C34 M_Train M_VectorEnv M_VecLoop S_VecLoop P_VecLoop M_VecA2C S_VecA2C.
Close Scope Q_scope. Open Scope nat_scope.

Section Columns.
Context {O A : Type}.
Notation vs := (vstep O A).
Notation moment := (list vs * list Q)%type.
Definition as_step (m : moment) : step O A :=
  {| S_A2C.s_obs := map s_obs (fst m); s_acts := map s_action (fst m); s_values := snd m; S_A2C.s_next := map s_next (fst m); s_rewards := map s_reward (fst m); s_ended := map ended (fst m) |}.
Lemma ended_dz (r : list vs) : map (fun dz => fst dz || snd dz) (combine (map s_done r) (map s_reset r)) = map ended r.
Proof. induction r as [|x r IH]; [reflexivity|]. cbn [map combine]. rewrite IH. destruct x as [[[[[o a] q] o'] d] e]. reflexivity. Qed.
Lemma column_len n i (c : list moment) : Forall (fun m => length (fst m) = n) c -> i < n -> length (column i (map fst c)) = length c.
Proof.
  intros F Hi. induction F as [|m c Hm F IH]; [reflexivity|]. cbn [map column flat_map length]. rewrite app_length. fold (@column vs). unfold column in IH. rewrite IH.
  destruct (nth_error (fst m) i) eqn:N; [reflexivity|]. apply nth_error_None in N. lia.
Qed.
Lemma column_cells {T} (f : vs -> T) d n i (c : list moment) : Forall (fun m => length (fst m) = n) c -> i < n -> map (fun m => nth i (map f (fst m)) d) c = map f (column i (map fst c)).
Proof.
  intros F Hi. induction F as [|m c Hm F IH]; [reflexivity|]. cbn [map column flat_map]. rewrite map_app. unfold column in IH. rewrite IH.
  destruct (nth_error (fst m) i) as [x|] eqn:N; [|apply nth_error_None in N; lia]. cbn [map app]. f_equal. apply nth_error_nth. now rewrite nth_error_map, N.
Qed.
Lemma reward_nth (l : list vs) k : nth k (map s_reward l) 0%Q = reward_of l k.
Proof. unfold reward_of. revert k. induction l as [|x l IH]; intros [|k]; try reflexivity. apply IH. Qed.
Lemma ended_nth (l : list vs) k : nth k (map ended l) false = ended_at l k.
Proof. revert k. induction l as [|x l IH]; intros [|k]; try reflexivity. apply IH. Qed.
Lemma ended_true (l : list vs) k : ended_at l k = true -> nth_error (map ended l) k = Some true.
Proof. unfold ended_at. rewrite nth_error_map. destruct (nth_error l k); [intros H; cbn; now rewrite H|discriminate]. Qed.
Lemma ended_false (l : list vs) k : k < length l -> ended_at l k = false -> nth_error (map ended l) k = Some false.
Proof. unfold ended_at. rewrite nth_error_map. intros Hk. destruct (nth_error l k) eqn:N; [intros H; cbn; now rewrite H|apply nth_error_None in N; lia]. Qed.

Lemma returns_right use_gae gamma tau (l : list vs) values boot : length values = length l ->
  let R := compute_returns use_gae gamma tau (map s_reward l) (map mask_of (map ended l)) values boot in
  length R = length l /\ forall j x, nth_error R j = Some x -> right_return use_gae gamma tau l values boot j x.
Proof.
  intros Lv. cbn zeta. assert (L1 : length (map ended l) = length (map s_reward l)) by now rewrite !map_length. destruct use_gae.
  - destruct (C34_gae gamma tau boot (map s_reward l) values (map ended l) L1 ltac:(now rewrite map_length)) as [LR HR]. rewrite map_length in LR, HR. split; [exact LR|]. intros j x N.
    assert (Hj : j < length l) by (rewrite <- LR; apply nth_error_Some; now rewrite N). destruct (HR j Hj) as (x' & N' & _ & H1 & H2). rewrite N in N'. injection N' as <-.
    assert (D : forall k, (tde gamma boot (map s_reward l) (map ended l) values k == reward_of l k + gamma * (if ended_at l k then 0 else nth (S k) (values ++ [boot]) 0) - nth k (values ++ [boot]) 0)%Q).
    { intros k. unfold tde. rewrite reward_nth, ended_nth. destruct (ended_at l k); cbn [mask_of]; ring. }
    assert (V : nth j values 0%Q = nth j (values ++ [boot]) 0%Q) by (rewrite app_nth1 by lia; reflexivity).
    unfold right_return. split.
    + intros e He Ee Hk. assert (Le : e < length l) by (unfold ended_at in Ee; apply nth_error_Some; destruct (nth_error l e); [discriminate|discriminate]).
      assert (Hk2 : forall k, j <= k < e -> nth_error (map ended l) k = Some false) by (intros k Hk'; apply ended_false; [lia|now apply Hk]). specialize (H1 e He (ended_true _ _ Ee) Hk2). rewrite (dsum_ext _ _ _ _ (fun k _ => D (j + k))) in H1. rewrite V in H1. cbn beta. rewrite <- H1. ring.
    + intros Hk. assert (Hk2 : forall k, j <= k < length l -> nth_error (map ended l) k = Some false) by (intros k Hk'; apply ended_false; [lia|now apply Hk]). specialize (H2 Hk2). rewrite (dsum_ext _ _ _ _ (fun k _ => D (j + k))) in H2. rewrite V in H2. cbn beta. rewrite <- H2. ring.
  - destruct (C34_returns gamma tau boot (map s_reward l) values (map ended l) L1) as [LR HR]. rewrite map_length in LR, HR. split; [exact LR|]. intros j x N.
    assert (Hj : j < length l) by (rewrite <- LR; apply nth_error_Some; now rewrite N). destruct (HR j Hj) as (x' & N' & _ & H1 & H2). rewrite N in N'. injection N' as <-.
    assert (D : forall k, (nth (j + k) (map s_reward l) 0 == reward_of l (j + k))%Q) by (intros k; now rewrite reward_nth).
    unfold right_return. split.
    + intros e He Ee Hk. assert (Le : e < length l) by (unfold ended_at in Ee; apply nth_error_Some; destruct (nth_error l e); [discriminate|discriminate]).
      assert (Hk2 : forall k, j <= k < e -> nth_error (map ended l) k = Some false) by (intros k Hk'; apply ended_false; [lia|now apply Hk]). specialize (H1 e He (ended_true _ _ Ee) Hk2). rewrite (dsum_ext _ _ _ _ (fun k _ => D k)) in H1. exact H1.
    + intros Hk. assert (Hk2 : forall k, j <= k < length l -> nth_error (map ended l) k = Some false) by (intros k Hk'; apply ended_false; [lia|now apply Hk]). specialize (H2 Hk2). rewrite (dsum_ext _ _ _ _ (fun k _ => D k)) in H2. exact H2.
Qed.
End Columns.

Section Run.
Context {E O A Sd V Pl X : Type} (G : genv E O A (Q * bool * bool) Sd V) (use_gae : bool) (gamma tau : Q) (U n : nat).
Context (decide : list O -> Pl -> Pl * (list A * list Q)) (value : option (list O) -> Pl -> list Q) (learn : lesson O A Pl -> Pl -> Pl).
Context (hooks : list (nat -> Pl -> Pl * result unit)) (evaluate : option (nat -> nat -> Pl * X -> (Pl * X) * result (option Q))) (best : X -> Q).
Notation vs := (vstep O A).
Notation moment := (list vs * list Q)%type.
Notation right := (right_lesson use_gae gamma tau n value).
Notation ag := (agent O A Pl).
Notation act := (a2c_act use_gae gamma tau U n decide value learn).
Notation observe := (a2c_observe use_gae gamma tau U n value learn).
Context (same : forall obss pl pl' av, decide obss pl = (pl', av) -> length (fst av) = length obss) (Hu : 1 <= U).

Lemma lesson_right (c : list moment) p : Forall (fun m => length (fst m) = n) c -> right c (lesson_of use_gae gamma tau n value (rollout_of (map as_step c) (reached c)) p).
Proof.
  intros F. unfold lesson_of, right_lesson. cbn [l_rollout l_policy l_returns rollout_of r_states r_actions r_rewards r_masks r_values]. rewrite !map_map.
  split; [reflexivity|]. split; [reflexivity|]. split; [rewrite map_length; apply seq_length|]. intros i Hi. rewrite last_last.
  set (boot := nth i (value (Some (reached c)) p) 0%Q). eexists. split; [rewrite nth_error_map, (nth_error_nth' _ 0) by (rewrite seq_length; exact Hi); rewrite seq_nth by exact Hi; reflexivity|].
  cbn [plus]. unfold cells. rewrite !map_map. cbn [as_step s_rewards s_ended s_values].
  rewrite (column_cells s_reward 0%Q n i c F Hi).
  assert (Em : map (fun m : moment => nth i (map mask_of (map ended (fst m))) 1%Q) c = map mask_of (map ended (column i (map fst c)))).
  { rewrite map_map, <- (column_cells (fun x : vs => mask_of (ended x)) 1%Q n i c F Hi). apply map_ext. intros m. now rewrite map_map. }
  rewrite Em. fold boot. destruct (returns_right use_gae gamma tau (column i (map fst c)) (map (fun m : moment => nth i (snd m) 0%Q) c) boot) as [L R]; [rewrite map_length; symmetry; now apply column_len with n|].
  split; [rewrite L; now apply column_len with n|exact R].
Qed.

Definition R0 (rounds : list (list vs)) (s : ag) : Prop :=
  exists c chunks rest, a_core s = Ok c /\ length (a_values s) = length rounds /\ combine rounds (a_values s) = concat chunks ++ rest /\ Forall (fun c : list moment => length c = U) chunks /\
    P_A2C.inv U false c {| chosen := None; steps := map as_step rest |} /\ Forall2 right chunks (a_lessons s).
Definition R1 (rounds : list (list vs)) (obss : list O) (actions : list A) (s : ag) : Prop :=
  exists c chunks rest v vals, a_core s = Ok c /\ a_values s = vals ++ [v] /\ length vals = length rounds /\ combine rounds vals = concat chunks ++ rest /\ Forall (fun c : list moment => length c = U) chunks /\
    P_A2C.inv U true c {| chosen := Some (obss, actions, v); steps := map as_step rest |} /\ Forall2 right chunks (a_lessons s).
Definition I (cs : list (acall O A)) (s : ag) : Prop :=
  forall rounds, Forall (fun r => length r = n) rounds ->
    (cs = flat_map asked_and_told rounds -> R0 rounds s) /\ (forall obss actions, cs = flat_map asked_and_told rounds ++ [CAct obss actions] -> R1 rounds obss actions s).

Lemma asked_last (rounds : list (list vs)) cs x : cs ++ [x] = flat_map asked_and_told rounds -> exists rounds0 r, rounds = rounds0 ++ [r] /\ cs = flat_map asked_and_told rounds0 ++ [CAct (map s_obs r) (map s_action r)] /\ x = CObserve (map s_next r) (map s_reward r) (map s_done r) (map s_reset r).
Proof.
  intros H. destruct rounds as [|r rounds] using rev_ind; [destruct cs; discriminate|]. clear IHrounds. exists rounds, r. split; [reflexivity|]. rewrite flat_map_app in H. cbn [flat_map asked_and_told app] in H.
  change [CAct (map s_obs r) (map s_action r); CObserve (map s_next r) (map s_reward r) (map s_done r) (map s_reset r)] with ([CAct (map s_obs r) (map s_action r)] ++ [CObserve (map s_next r) (map s_reward r) (map s_done r) (map s_reset r)]) in H.
  rewrite app_assoc in H. apply app_inj_tail in H. exact H.
Qed.
Lemma I_act rounds s obss s' r : Forall (fun r => length r = n) rounds -> I (flat_map asked_and_told rounds) s -> act obss s = (s', r) ->
  I (flat_map asked_and_told rounds ++ match r with Ok actions => [CAct obss actions] | Err _ => [] end) s'.
Proof.
  intros F HI Ha. destruct (HI rounds F) as [H0 _]. destruct (H0 eq_refl) as (c & chunks & rest & Ec & _ & _ & _ & Hinv & _).
  unfold a2c_act in Ha. rewrite Ec in Ha. destruct (decide obss (a_policy s)) as [p av] eqn:Ed.
  destruct (inv_act U Hu c _ obss (fst av) (snd av) Hinv) as (c' & Ec' & Hinv'). rewrite Ec' in Ha. cbn [study] in Ha. injection Ha as <- <-. intros rounds' F'. split.
  - intros H. destruct (asked_last _ _ _ H) as (? & ? & _ & _ & Hx). discriminate.
  - intros obss' actions' H. apply app_inj_tail in H. destruct H as [H Hx]. injection Hx as <- <-. destruct (HI rounds' F') as [H0' _].
    destruct (H0' H) as (c2 & chunks' & rest' & Ec2 & Lv & Ecomb & Fc & Hinv2 & F2). rewrite Ec in Ec2. injection Ec2 as <-.
    destruct (inv_act U Hu c _ obss (fst av) (snd av) Hinv2) as (c2' & Ec2' & Hinv2'). rewrite Ec' in Ec2'. injection Ec2' as <-.
    exists c', chunks', rest', (snd av), (a_values s). cbn [a_core a_values a_lessons]. repeat (split; [reflexivity || assumption|]). exact F2.
Qed.
Lemma combine_snoc {T1 T2} : forall (a : list T1) (b : list T2) x y, length a = length b -> combine (a ++ [x]) (b ++ [y]) = combine a b ++ [(x, y)].
Proof. induction a as [|p a IH]; intros [|q b] x y L; try discriminate; [reflexivity|]. injection L as L. cbn [app combine]. now rewrite IH. Qed.
Lemma I_observe cs s obss rs ds es s' r : I cs s -> observe obss rs ds es s = (s', r) -> I (cs ++ [CObserve obss rs ds es]) s'.
Proof.
  intros HI Ho rounds F. split.
  - intros H. destruct (asked_last _ _ _ H) as (rounds0 & rd & -> & Ecs & Hx). injection Hx as -> -> -> ->. apply Forall_app in F. destruct F as [F Fr]. apply Forall_cons_iff in Fr. destruct Fr as [Hr _].
    destruct (HI rounds0 F) as [_ H1]. destruct (H1 _ _ Ecs) as (c & chunks & rest & v & vals & Ec & Ev & Lv & Ecomb & Fc & Hinv & F2).
    unfold a2c_observe in Ho. rewrite Ec in Ho. destruct (inv_observe U Hu c _ (map s_next rd) (map s_reward rd) (map s_done rd) (map s_reset rd) Hinv ltac:(now rewrite !map_length)) as (c' & Ec' & Hinv'). rewrite Ec' in Ho.
    cbn [ref_call chosen steps] in Ho, Hinv'. rewrite ended_dz in Ho, Hinv'.
    change {| S_A2C.s_obs := map s_obs rd; s_acts := map s_action rd; s_values := v; S_A2C.s_next := map s_next rd; s_rewards := map s_reward rd; s_ended := map ended rd |} with (as_step (rd, v)) in Ho, Hinv'.
    change [as_step (rd, v)] with (map as_step [(rd, v)]) in Ho, Hinv'. rewrite <- map_app in Ho, Hinv'. rewrite map_length in Ho, Hinv'.
    assert (Fm : Forall (fun m : moment => length (fst m) = n) (rest ++ [(rd, v)])).
    { apply Forall_app. split; [|constructor; [exact Hr|constructor]]. apply Forall_forall. intros m Hm. assert (Hin : In m (combine rounds0 vals)) by (rewrite Ecomb; apply in_or_app; now right).
      destruct m as [m1 m2]. apply in_combine_l in Hin. rewrite Forall_forall in F. exact (F _ Hin). }
    assert (Comb : combine (rounds0 ++ [rd]) (vals ++ [v]) = concat chunks ++ (rest ++ [(rd, v)])) by (rewrite combine_snoc by (symmetry; exact Lv); rewrite Ecomb, <- app_assoc; reflexivity).
    destruct (Nat.eqb_spec (length (rest ++ [(rd, v)])) U) as [EU|EU]; cbn [fst snd study a_policy a_core a_values a_lessons] in Ho, Hinv'; injection Ho as <- _.
    + exists c', (chunks ++ [rest ++ [(rd, v)]]), []. cbn [a_core a_values a_lessons]. split; [reflexivity|]. rewrite Ev. split; [rewrite !app_length; cbn [length]; lia|].
      split; [rewrite concat_app; cbn [concat]; rewrite !app_nil_r; exact Comb|]. split; [apply Forall_app; split; [exact Fc|constructor; [exact EU|constructor]]|]. split; [exact Hinv'|].
      apply Forall2_app; [exact F2|]. constructor; [|constructor]. replace (map s_next rd) with (reached (rest ++ [(rd, v)])) by (unfold reached; rewrite last_last; reflexivity). now apply lesson_right.
    + exists c', chunks, (rest ++ [(rd, v)]). cbn [a_core a_values a_lessons]. split; [reflexivity|]. rewrite Ev. split; [rewrite !app_length; cbn [length]; lia|]. repeat (split; [assumption|]). exact F2.
  - intros obss' actions' H. apply app_inj_tail in H. destruct H as [_ H]. discriminate.
Qed.
Lemma I_init p : I [] (a2c_new p).
Proof.
  intros rounds F. split.
  - intros H. destruct rounds as [|r rounds]; [|discriminate]. exists a2c_init, [], []. do 4 (split; [reflexivity || constructor|]). split; [apply inv_init; exact Hu|constructor].
  - intros obss actions H. destruct (flat_map asked_and_told rounds); discriminate.
Qed.
Lemma a2c_act_length obss s s' actions : act obss s = (s', Ok actions) -> length actions = length obss.
Proof.
  unfold a2c_act. destruct (a_core s) as [c|]; [|discriminate]. destruct (decide obss (a_policy s)) as [p av] eqn:Ed. destruct (M_A2C.call U c _) as [c' [u|x]]; [|discriminate]. intros H. injection H as _ <-. exact (same _ _ _ _ Ed).
Qed.

Lemma a2c_lessons P envs last p x w r : length envs = n -> envs <> [] -> length last = n -> a_offset P = 0 ->
  vtrain G act observe a2c_set_t (map policy_hook hooks) (option_map policy_eval evaluate) best P envs last (a2c_new p) x = (w, r) ->
  exists c rounds chunks rest, a_core (vw_agent w) = Ok c /\
    (forall i v log, nth_error (fst (vw_envs w)) i = Some (v, log) -> column i rounds = flat_map (lived (a_max_episode_len P)) (vplays log)) /\ length (fst (vw_envs w)) = n /\
    length (a_values (vw_agent w)) = length rounds /\ Forall (fun r => length r = n) rounds /\ combine rounds (a_values (vw_agent w)) = concat chunks ++ rest /\
    Forall (fun c : list moment => length c = U) chunks /\ length rest < U /\ Forall2 right chunks (a_lessons (vw_agent w)).
Proof.
  intros Ln He Hl Ho H. pose proof (vtrain_told G act observe a2c_set_t _ _ best P envs last (a2c_new p) x w r a2c_act_length He ltac:(congruence) H) as (L & rounds & Hc & Fr & Hi).
  assert (HI : I (vw_calls w) (vw_agent w)).
  { eapply (vtrain_inv_rounds G act observe a2c_set_t _ _ best P envs last (a2c_new p) x w r I); [exact a2c_act_length|exact He|congruence| | | | | |exact H].
    - intros rds s obss s' r' F Lo Hs Ha. apply (I_act rds s obss s' r'); [rewrite <- Ln; exact F|exact Hs|exact Ha].
    - intros cs s obss rs ds es s' r' Hs Ha. exact (I_observe _ _ _ _ _ _ _ _ Hs Ha).
    - intros h t cs s s' r' Hh Hs Ha. apply in_map_iff in Hh. destruct Hh as (g & <- & _). unfold policy_hook in Ha. destruct (g t (a_policy s)). injection Ha as <- _. exact Hs.
    - intros f t k cs s y s' y' r' Hf Hs Ha. destruct evaluate as [g|]; [|discriminate]. injection Hf as <-. unfold policy_eval in Ha. cbn [fst snd] in Ha. destruct (g t k (a_policy s, y)) as [[q z] o]. injection Ha as <- _ _. exact Hs.
    - rewrite Ho. exact (I_init p). }
  rewrite Ln in *. destruct (HI rounds Fr) as [H0 _]. destruct (H0 Hc) as (c & chunks & rest & Ec & Lv & Ecomb & Fc & Hinv & F2).
  exists c, rounds, chunks, rest. split; [exact Ec|]. split; [intros i v log N; exact (proj1 (Hi i v log N))|]. split; [exact L|]. repeat (split; [assumption|]). split; [|exact F2].
  destruct Hinv as [Hk _]. cbn [steps] in Hk. now rewrite map_length in Hk.
Qed.
End Run.
