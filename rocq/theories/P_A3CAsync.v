(** Lemmas for C125 and C126. *)
From Coq Require Import QArith ZifyBool ZifyNat.
From Verif Require Import Base P_Base M_Train S_Train M_Async S_Async P_Async M_A3C S_A3C P_A3C M_A3CAsync S_A3CAsync.
From Verif Require C69.
Open Scope nat_scope.

(** *** Runs and alternation can be cut in two *)
Section Cut.
Context {Ob Act Pm RS : Type}.
Variable N : net Ob Pm RS.
Variable opt : Pm -> upd Ob Act Pm RS -> Pm.
Variable c : cfg.
Notation st := (st Ob Act Pm RS).
Notation ev := (M_A3C.ev Ob Act Pm).
Notation out := (out Ob Act Pm RS).

Lemma runs_app es1 es2 : forall s, runs N opt c s (es1 ++ es2) =
  rbind (runs N opt c s es1) (fun '(s1, o1) => rbind (runs N opt c s1 es2) (fun '(s2, o2) => Ok (s2, o1 ++ o2))).
Proof.
  induction es1 as [|e es1 IH]; intros s; cbn [app runs rbind].
  - destruct (runs N opt c s es2) as [[s2 o2]|x]; reflexivity.
  - destruct (step N opt c s e) as [[s1 o]|x]; cbn [rbind]; [|reflexivity]. rewrite IH. destruct (runs N opt c s1 es1) as [[s2 o2]|x]; cbn [rbind]; [|reflexivity].
    destruct (runs N opt c s2 es2) as [[s3 o3]|x]; reflexivity.
Qed.
Lemma runs_length es : forall s s' os, runs N opt c s es = Ok (s', os) -> length os = length es.
Proof.
  induction es as [|e es IH]; intros s s' os H; cbn [runs] in H; [injection H as <- <-; reflexivity|].
  destruct (step N opt c s e) as [[s1 o]|x]; cbn [rbind] in H; [|discriminate]. destruct (runs N opt c s1 es) as [[s2 o2]|x] eqn:E; cbn [rbind] in H; [|discriminate].
  injection H as <- <-. cbn. f_equal. eapply IH; exact E.
Qed.

Fixpoint mode_after (tr acted : bool) (es : list ev) : bool * bool :=
  match es with
  | [] => (tr, acted)
  | SetTraining b :: es => mode_after b acted es
  | Others _ :: es => mode_after tr acted es
  | CallAct _ _ :: es => mode_after tr (if tr then true else acted) es
  | CallObserve _ _ _ _ :: es => mode_after tr (if tr then false else acted) es
  end.
Lemma alternating_app es1 es2 : forall tr acted, alternating tr acted es1 ->
  alternating (fst (mode_after tr acted es1)) (snd (mode_after tr acted es1)) es2 -> alternating tr acted (es1 ++ es2).
Proof.
  induction es1 as [|e es1 IH]; intros tr acted H1 H2; [exact H2|]. destruct e; cbn [app alternating mode_after] in *; auto.
  - destruct tr; [|auto]. destruct H1. auto.
  - destruct tr; [|auto]. destruct H1. auto.
Qed.
Lemma mode_after_app es1 es2 : forall tr acted, mode_after tr acted (es1 ++ es2) = mode_after (fst (mode_after tr acted es1)) (snd (mode_after tr acted es1)) es2.
Proof. induction es1 as [|e es1 IH]; intros tr acted; [reflexivity|]. destruct e; cbn [app mode_after]; auto. Qed.

Lemma eval_alternating acted (evs : list (ecall Ob Act)) : alternating true acted (SetTraining false :: map (@ecall_ev Ob Act Pm) evs ++ [SetTraining true]).
Proof.
  cbn [alternating]. induction evs as [|e evs IH]; [exact I|]. destruct e; exact IH.
Qed.
Lemma eval_mode acted (evs : list (ecall Ob Act)) : mode_after true acted (SetTraining false :: map (@ecall_ev Ob Act Pm) evs ++ [SetTraining true]) = (true, acted).
Proof. cbn [mode_after]. induction evs as [|e evs IH]; [reflexivity|]. destruct e; exact IH. Qed.

(** *** Counting steps *)
Definition observes (tr : bool) (e : ev) : nat := match e with CallObserve _ _ _ _ => if tr then 1 else 0 | _ => 0 end.
Definition used (o : out) : nat := match o with Updated u => length (u_actions u) | _ => 0 end.

Lemma dgets_length {X} (d : dict X) ks : forall xs, dgets d ks = Ok xs -> length xs = length ks.
Proof.
  induction ks as [|k ks IH]; intros xs H; cbn in H; [injection H as <-; reflexivity|]. destruct (dget d k); [cbn [rbind] in H|discriminate].
  destruct (dgets d ks); [cbn [rbind] in H|discriminate]. injection H as <-. cbn. f_equal. auto.
Qed.
Lemma update_facts sv s s' u : update N opt c sv s = Ok (s', u) ->
  t s' = t s /\ t_start s' = t s /\ t_start s < t s /\ length (u_actions u) = t s - t_start s /\ model s' = opt (shared_model s) u /\ shared_model s' = opt (shared_model s) u /\
  u_params u = model s /\ training s' = training s.
Proof.
  unfold update. destruct (t_start s <? t s) eqn:E; [|discriminate]. cbn [passert rbind].
  destruct (if keep_loss_scale_same c && (t s - t_start s <? t_max c) then _ else _) as [pf vf].
  destruct (if normalize_grad_by_t_max c then _ else _) as [pf2 vf2].
  destruct (dgets (past_obs s) _) as [bo|]; cbn [rbind]; [|discriminate].
  destruct (if recurrent c then _ else _) as [inp|]; cbn [rbind]; [|discriminate].
  destruct (dgets (past_action s) _) as [ba|] eqn:Ea; cbn [rbind]; [|discriminate].
  destruct (rev_returns _ _ _ _) as [rv|]; cbn [rbind]; [|discriminate]. intros H. injection H as <- <-. cbn.
  apply dgets_length in Ea. unfold range in Ea. rewrite seq_length in Ea. repeat split; auto; lia.
Qed.

Lemma step_facts s e s' o : step N opt c s e = Ok (s', o) -> t_start s <= t s -> t s - t_start s < t_max c ->
  t s' = t s + observes (training s) e /\ t_start s' = t_start s + used o /\ t_start s' <= t s' /\ t s' - t_start s' < t_max c /\
  match o with
  | Updated u => u_params u = model s /\ model s' = opt (shared_model s) u /\ shared_model s' = opt (shared_model s) u
  | Chose q _ _ => q = model s /\ model s' = model s /\ shared_model s' = shared_model s
  | Nothing => model s' = model s /\ shared_model s' = match e with Others p => p | _ => shared_model s end
  end.
Proof.
  intros H Hle Hlt. destruct e as [b|ob a|ob r d z|q]; cbn [step observes] in *.
  - injection H as <- <-. cbn. repeat split; lia.
  - destruct (training s); injection H as <- <-; cbn; [repeat split; lia|]. destruct (recurrent c); cbn; repeat split; lia.
  - destruct (training s) eqn:Et.
    + unfold observe_train in H. cbn [training t t_start past_obs past_action past_rewards past_recurrent_state train_rs test_rs model shared_model] in H.
      destruct (if process_idx c =? 0 then _ else _) as [[]|]; [cbn [rbind] in H|discriminate].
      destruct ((S (t s) - t_start s =? t_max c) || d || z) eqn:Eu.
      * match type of H with context [update N opt c ?a ?b] => destruct (update N opt c a b) as [[s2 u]|] eqn:E2; [cbn [rbind] in H|discriminate] end.
        apply update_facts in E2. cbn [training t t_start past_obs past_action past_rewards past_recurrent_state train_rs test_rs model shared_model] in E2. destruct E2 as (A & B & C & D & E & F & G & G2). injection H as <- <-. cbn [used].
        destruct (d || z); unfold set_train_rs; cbn [training t t_start past_obs past_action past_rewards past_recurrent_state train_rs test_rs model shared_model]; rewrite ?A, ?B, ?D; repeat split; auto; lia.
      * cbn [rbind] in H. injection H as <- <-. apply Bool.orb_false_elim in Eu. destruct Eu as [Eu _]. apply Bool.orb_false_elim in Eu. destruct Eu as [Eu _]. apply Nat.eqb_neq in Eu.
        destruct (d || z); unfold set_train_rs; cbn [training t t_start past_obs past_action past_rewards past_recurrent_state train_rs test_rs model shared_model used]; repeat split; lia.
    + injection H as <- <-. unfold observe_eval. destruct (d || z); cbn; repeat split; lia.
  - injection H as <- <-. cbn. repeat split; lia.
Qed.
Lemma step_training s e s' o : step N opt c s e = Ok (s', o) -> training s' = match e with SetTraining b => b | _ => training s end.
Proof.
  intros H. destruct e as [b|ob a|ob r d z|q]; cbn [step] in H.
  - injection H as <- <-. reflexivity.
  - destruct (training s) eqn:E; injection H as <- <-; cbn; [exact E|]. destruct (recurrent c); cbn; exact E.
  - destruct (training s) eqn:Et.
    + unfold observe_train in H. cbn [training t t_start past_obs past_action past_rewards past_recurrent_state train_rs test_rs model shared_model] in H.
      destruct (if process_idx c =? 0 then _ else _) as [[]|]; [cbn [rbind] in H|discriminate].
      destruct ((S (t s) - t_start s =? t_max c) || d || z).
      * match type of H with context [update N opt c ?a ?b] => destruct (update N opt c a b) as [[s2 u]|] eqn:E2; [cbn [rbind] in H|discriminate] end.
        apply update_facts in E2. cbn [training t t_start past_obs past_action past_rewards past_recurrent_state train_rs test_rs model shared_model] in E2. destruct E2 as (A & B & C & D & E & F & G & G2). injection H as <- <-. destruct (d || z); cbn; congruence.
      * cbn [rbind] in H. injection H as <- <-. destruct (d || z); exact Et.
    + injection H as <- <-. unfold observe_eval. destruct (d || z); exact Et.
  - injection H as <- <-. reflexivity.
Qed.

(** Evaluation changes nothing that matters for learning. *)
Lemma eval_facts (evs : list (ecall Ob Act)) : forall s s' os, training s = false -> runs N opt c s (map ecall_ev evs) = Ok (s', os) ->
  training s' = false /\ t s' = t s /\ t_start s' = t_start s /\ model s' = model s /\ shared_model s' = shared_model s /\ Forall (fun o => match o with Updated _ => False | Chose q _ _ => q = model s | Nothing => True end) os.
Proof.
  induction evs as [|e evs IH]; intros s s' os Ht H; cbn [map runs] in H.
  - injection H as <- <-. repeat split; auto.
  - destruct (step N opt c s (ecall_ev e)) as [[s1 o]|x] eqn:E1; cbn [rbind] in H; [|discriminate]. destruct (runs N opt c s1 (map ecall_ev evs)) as [[s2 os2]|x] eqn:E2; cbn [rbind] in H; [|discriminate].
    injection H as <- <-.
    assert (A : training s1 = false /\ t s1 = t s /\ t_start s1 = t_start s /\ model s1 = model s /\ shared_model s1 = shared_model s /\ match o with Updated _ => False | Chose q _ _ => q = model s | Nothing => True end).
    { destruct e as [ob a|ob r d z]; cbn [ecall_ev step] in E1; rewrite Ht in E1; injection E1 as <- <-.
      - cbn. destruct (recurrent c); cbn; repeat split; auto.
      - unfold observe_eval. destruct (d || z); cbn; repeat split; auto. }
    destruct A as (A1 & A2 & A3 & A4 & A5 & A6). destruct (IH s1 s2 os2 A1 E2) as (B1 & B2 & B3 & B4 & B5 & B6).
    repeat split; try congruence. constructor; [exact A6|]. rewrite A4 in B6. exact B6.
Qed.
End Cut.

(** *** Projections of a record *)
Section Proj.
Context {Ob Act Pm RS : Type}.
Notation trace := (list (nat * cev Ob Act Pm RS)).
Notation updates := (list (nat * upd Ob Act Pm RS)).
Variable opt : Pm -> upd Ob Act Pm RS -> Pm.

Lemma calls_of_app i (a b : trace) : calls_of i (a ++ b) = calls_of i a ++ calls_of i b. Proof. apply flat_map_app. Qed.
Lemma outs_of_app i (a b : trace) : outs_of i (a ++ b) = outs_of i a ++ outs_of i b. Proof. apply flat_map_app. Qed.
Lemma gave_app i (a b : trace) : gave i (a ++ b) = gave i a ++ gave i b. Proof. apply flat_map_app. Qed.
Lemma updates_of_app (a b : trace) : updates_of (a ++ b) = updates_of a ++ updates_of b. Proof. apply flat_map_app. Qed.
Lemma last_gave_snoc i (te : trace) o r : last_gave i (te ++ [(i, EnvGave o r)]) = Some (o, r).
Proof. unfold last_gave. rewrite gave_app. cbn [gave flat_map snd fst app]. rewrite Nat.eqb_refl. cbn [app]. rewrite rev_app_distr. reflexivity. Qed.
Lemma last_gave_same i (te te' : trace) : gave i te' = [] -> last_gave i (te ++ te') = last_gave i te.
Proof. intros H. unfold last_gave. now rewrite gave_app, H, app_nil_r. Qed.
Lemma episode_len_same i (te te' : trace) : gave i te' = [] -> episode_len i (te ++ te') = episode_len i te.
Proof. intros H. unfold episode_len. now rewrite gave_app, H, app_nil_r. Qed.
Lemma episode_len_snoc i (te : trace) o r : episode_len i (te ++ [(i, EnvGave o r)]) = match r with Some _ => S (episode_len i te) | None => 0 end.
Proof. unfold episode_len. rewrite gave_app. cbn [gave flat_map snd fst app]. rewrite Nat.eqb_refl. cbn [app]. rewrite fold_left_app. reflexivity. Qed.
Lemma in_training_mode i (te : trace) : forall b, in_training i te = fst (mode_after true b (calls_of i te)).
Proof.
  unfold in_training. generalize true. induction (calls_of i te) as [|e es IH]; intros tr b; [reflexivity|]. destruct e; cbn [fold_left mode_after]; apply IH.
Qed.
Lemma in_training_snoc i (te : trace) e o : in_training i (te ++ [(i, AgentCall e o)]) = match e with SetTraining b => b | _ => in_training i te end.
Proof. unfold in_training. rewrite calls_of_app. cbn [calls_of flat_map snd fst app]. rewrite Nat.eqb_refl. cbn [app]. rewrite fold_left_app. reflexivity. Qed.
Lemma in_training_same i (te te' : trace) : calls_of i te' = [] -> in_training i (te ++ te') = in_training i te.
Proof. intros H. unfold in_training. now rewrite calls_of_app, H, app_nil_r. Qed.

Lemma params_after_snoc p0 (us : updates) u : params_after opt p0 (us ++ [u]) = opt (params_after opt p0 us) (snd u).
Proof. unfold params_after. now rewrite fold_left_app. Qed.
Lemma has_updated_app i (a b : updates) : has_updated i (a ++ b) = has_updated i a || has_updated i b. Proof. apply existsb_app. Qed.
Lemma through_last_own i (us : updates) u : through_last i (us ++ [(i, u)]) = us ++ [(i, u)].
Proof.
  induction us as [|v us IH]; [unfold through_last, has_updated; cbn; now rewrite Nat.eqb_refl|]. cbn [app through_last]. rewrite IH.
  assert (E : has_updated i (v :: us ++ [(i, u)]) = true) by (unfold has_updated; cbn [existsb]; rewrite existsb_app; cbn; rewrite Nat.eqb_refl; now rewrite !Bool.orb_true_r).
  now rewrite E.
Qed.
Lemma through_last_none i (us : updates) : has_updated i us = false -> through_last i us = [].
Proof. destruct us; [reflexivity|]. intros H. cbn [through_last]. now rewrite H. Qed.
Lemma through_last_other i (us us' : updates) : has_updated i us' = false -> through_last i (us ++ us') = through_last i us.
Proof.
  intros H. induction us as [|v us IH]; [cbn [app]; now apply through_last_none|]. cbn [app through_last]. rewrite IH.
  replace (has_updated i (v :: us ++ us')) with (has_updated i (v :: us)); [reflexivity|]. change (v :: us ++ us') with ((v :: us) ++ us'). rewrite has_updated_app, H. now rewrite Bool.orb_false_r.
Qed.
Lemma acting_own p0 own i (us : updates) u : acting_params opt p0 own i (us ++ [(i, u)]) = opt (params_after opt p0 us) u.
Proof.
  unfold acting_params. rewrite has_updated_app, through_last_own, params_after_snoc. cbn. now rewrite Nat.eqb_refl, Bool.orb_true_r.
Qed.
Lemma acting_other p0 own i (us us' : updates) : has_updated i us' = false -> acting_params opt p0 own i (us ++ us') = acting_params opt p0 own i us.
Proof. intros H. unfold acting_params. rewrite has_updated_app, H, Bool.orb_false_r, through_last_other by exact H. reflexivity. Qed.
Lemma learned_by_app i (a b : updates) : learned_by i (a ++ b) = learned_by i a + learned_by i b.
Proof. unfold learned_by. now rewrite map_app, list_sum_app. Qed.

(** Events of another process. *)
Lemma other_proj i j (es : list (cev Ob Act Pm RS)) : i <> j ->
  calls_of j (map (pair i) es) = [] /\ outs_of j (map (pair i) es) = [] /\ gave j (map (pair i) es) = [] /\
  has_updated j (updates_of (map (pair i) es)) = false /\ learned_by j (updates_of (map (pair i) es)) = 0.
Proof.
  intros H. apply Nat.eqb_neq in H. induction es as [|e es (A & B & C & D & E)]; [repeat split|].
  change (map (pair i) (e :: es)) with ([(i, e)] ++ map (pair i) es). rewrite calls_of_app, outs_of_app, gave_app, updates_of_app, has_updated_app, learned_by_app, A, B, C, D, E.
  destruct e as [o r|e o]; [cbn; rewrite H; repeat split|]. destruct o; cbn; rewrite H; repeat split; cbn; rewrite ?H; reflexivity.
Qed.
End Proj.

Section System.
Context {Ob Act Pm RS : Type}.
Variable P : async_args.
Variable N : net Ob Pm RS.
Variable opt : Pm -> upd Ob Act Pm RS -> Pm.
Variable c : cfg.
Hypothesis Hmax : 1 <= t_max c.
Variable p0 : Pm.
Variable own : nat -> Pm.
Notation trace := (list (nat * cev Ob Act Pm RS)).
Notation st := (st Ob Act Pm RS).
Notation proc := (proc Ob Act Pm RS).
Notation sys := (sys Ob Act Pm RS).

Definition agent_inv (i : nat) (te : trace) (s : st) : Prop :=
  runs N opt (cfg_of c i) (init (own i)) (calls_of i te) = Ok (s, outs_of i te) /\
  t_start s = learned_by i (updates_of te) /\ t_start s <= t s /\ t s - t_start s < t_max c /\
  model s = acting_params opt p0 (own i) i (updates_of te) /\ training s = in_training i te.
Definition glob (te : trace) (q : Pm) : Prop := q = params_after opt p0 (updates_of te) /\ all_linked P opt p0 own te.

Definition elink (te : trace) (i : nat) (e : M_A3C.ev Ob Act Pm) : Prop := linked P opt p0 own te (i, AgentCall e Nothing).

Lemma all_linked_snoc te x : all_linked P opt p0 own te -> linked P opt p0 own te x -> all_linked P opt p0 own (te ++ [x]).
Proof.
  intros H Hx te1 y te2 E. destruct te2 as [|z0 te2'] using rev_ind; [|clear IHte2'].
  - apply app_inj_tail in E. destruct E as [<- <-]. exact Hx.
  - rewrite app_comm_cons, app_assoc in E. apply app_inj_tail in E. destruct E as [-> _]. eapply H. reflexivity.
Qed.

Lemma agent_step i te q s e s' o : agent_inv i te s -> glob te q -> step N opt (cfg_of c i) s e = Ok (s', o) -> elink te i e ->
  (forall u, o = Updated u -> shared_model s = q) ->
  agent_inv i (te ++ [(i, AgentCall e o)]) s' /\ glob (te ++ [(i, AgentCall e o)]) (written q s' [o]).
Proof.
  intros (A1 & A2 & A3 & A4 & A5 & A6) (G1 & G2) E L U. pose proof (step_training N opt (cfg_of c i) _ _ _ _ E) as Et.
  destruct (step_facts N opt (cfg_of c i) _ _ _ _ E A3 A4) as (F1 & F2 & F3 & F4 & F5). change (t_max (cfg_of c i)) with (t_max c) in F4.
  assert (R : runs N opt (cfg_of c i) (init (own i)) (calls_of i (te ++ [(i, AgentCall e o)])) = Ok (s', outs_of i (te ++ [(i, AgentCall e o)]))).
  { rewrite calls_of_app, outs_of_app. cbn [calls_of outs_of flat_map snd fst app]. rewrite Nat.eqb_refl. cbn [app]. rewrite runs_app, A1. cbn [rbind runs]. rewrite E. reflexivity. }
  assert (T : training s' = in_training i (te ++ [(i, AgentCall e o)])) by (rewrite in_training_snoc, Et, A6; reflexivity).
  assert (LK : linked P opt p0 own te (i, AgentCall e o)).
  { unfold elink, linked in L |- *. split; [apply L|]. destruct o; [exact I| |]; destruct F5 as (F5 & _); congruence. }
  destruct o as [|qq rs ob|u].
  - assert (Eu : updates_of (te ++ [(i, AgentCall e Nothing)]) = updates_of te) by (rewrite updates_of_app; cbn; apply app_nil_r).
    unfold agent_inv, glob. rewrite Eu. repeat split; auto; try (cbn [used] in F2; lia); [destruct F5; congruence|]. now apply all_linked_snoc.
  - assert (Eu : updates_of (te ++ [(i, AgentCall e (Chose qq rs ob))]) = updates_of te) by (rewrite updates_of_app; cbn; apply app_nil_r).
    unfold agent_inv, glob. rewrite Eu. repeat split; auto; try (cbn [used] in F2; lia); [destruct F5 as (? & ? & ?); congruence|]. now apply all_linked_snoc.
  - destruct F5 as (F5 & F6 & F7). specialize (U u eq_refl).
    assert (Eu : updates_of (te ++ [(i, AgentCall e (Updated u))]) = updates_of te ++ [(i, u)]) by (rewrite updates_of_app; reflexivity).
    unfold agent_inv, glob. rewrite Eu. repeat split; auto.
    + rewrite learned_by_app. cbn. rewrite Nat.eqb_refl. cbn [used] in F2. lia.
    + rewrite acting_own, F6, U, G1. reflexivity.
    + unfold written. cbn [existsb orb]. rewrite params_after_snoc, F7, U, G1. reflexivity.
    + now apply all_linked_snoc.
Qed.

Notation seen calls outs := (map (fun '(e, ou) => @AgentCall Ob Act Pm RS e ou) (combine calls outs)).

(** The calls of an evaluation. *)
Lemma agent_ecalls i q (evs : list (ecall Ob Act)) : forall te s s' os, agent_inv i te s -> glob te q -> training s = false ->
  runs N opt (cfg_of c i) s (map ecall_ev evs) = Ok (s', os) ->
  agent_inv i (te ++ map (pair i) (seen (map ecall_ev evs) os)) s' /\ glob (te ++ map (pair i) (seen (map ecall_ev evs) os)) q.
Proof.
  induction evs as [|e evs IH]; intros te s s' os A G Ht H.
  - cbn in H. injection H as <- <-. cbn. rewrite app_nil_r. auto.
  - pose proof (eval_facts N opt (cfg_of c i) (e :: evs) s s' os Ht H) as (_ & _ & _ & _ & _ & F). cbn [map runs] in H.
    destruct (step N opt (cfg_of c i) s (ecall_ev e)) as [[s1 o]|x] eqn:E1; cbn [rbind] in H; [|discriminate]. destruct (runs N opt (cfg_of c i) s1 (map ecall_ev evs)) as [[s2 os2]|x] eqn:E2; cbn [rbind] in H; [|discriminate].
    injection H as <- <-. inversion F as [|? ? Fo Fos]; subst.
    assert (It : in_training i te = false) by (destruct A as (_ & _ & _ & _ & _ & A); congruence).
    destruct (agent_step i te q s (ecall_ev e) s1 o A G E1) as (A' & G').
    { unfold elink, linked. split; [|exact I]. destruct e; cbn [ecall_ev]; rewrite It; discriminate. }
    { intros u ->. destruct Fo. }
    assert (W : written q s1 [o] = q) by (destruct o; [reflexivity|reflexivity|destruct Fo]). rewrite W in G'.
    assert (Ht1 : training s1 = false) by (rewrite (step_training _ _ _ _ _ _ _ E1); destruct e; exact Ht).
    destruct (IH _ _ _ _ A' G' Ht1 E2) as (A2 & G2). rewrite <- app_assoc in A2, G2. split; [exact A2|exact G2].
Qed.

Lemma written_no_update q s outs : Forall (fun o : out Ob Act Pm RS => match o with Updated _ => False | _ => True end) outs -> written q s outs = q.
Proof. intros H. unfold written. induction H as [|o os Ho _ IH]; [reflexivity|]. cbn [existsb]. destruct o; [exact IH|exact IH|destruct Ho]. Qed.

Lemma agent_eval i q (evs : list (ecall Ob Act)) te s s' os : agent_inv i te s -> glob te q -> training s = true ->
  let calls := SetTraining false :: map ecall_ev evs ++ [SetTraining true] in
  runs N opt (cfg_of c i) s calls = Ok (s', os) ->
  agent_inv i (te ++ map (pair i) (seen calls os)) s' /\ glob (te ++ map (pair i) (seen calls os)) (written q s' os) /\ t s' = t s.
Proof.
  intros A G Ht calls H. unfold calls in H. cbn [runs] in H.
  destruct (step N opt (cfg_of c i) s (SetTraining false)) as [[s1 o1]|x] eqn:E1; [cbn [rbind] in H|discriminate]. rewrite runs_app in H.
  destruct (runs N opt (cfg_of c i) s1 (map ecall_ev evs)) as [[s2 os2]|x] eqn:E2; cbn [rbind] in H; [|discriminate].
  destruct (runs N opt (cfg_of c i) s2 [SetTraining true]) as [[s3 os3]|x] eqn:E3; cbn [rbind] in H; [|discriminate]. injection H as <- <-.
  assert (O1 : o1 = Nothing) by (cbn in E1; congruence). assert (O3 : os3 = [Nothing]) by (cbn in E3; congruence). subst o1 os3.
  assert (E3' : step N opt (cfg_of c i) s2 (SetTraining true) = Ok (s3, Nothing)) by (cbn in E3 |- *; congruence).
  pose proof (step_training _ _ _ _ _ _ _ E1) as T1. cbn in T1. pose proof (eval_facts N opt (cfg_of c i) evs s1 s2 os2 T1 E2) as (_ & Ft & _ & _ & _ & F).
  destruct (agent_step i te q s _ s1 Nothing A G E1) as (A1 & G1); [split; exact I|discriminate|]. change (written q s1 [Nothing]) with q in G1.
  destruct (agent_ecalls i q evs _ _ _ _ A1 G1 T1 E2) as (A2 & G2).
  destruct (agent_step i _ q s2 _ s3 Nothing A2 G2 E3') as (A3 & G3); [split; exact I|discriminate|]. change (written q s3 [Nothing]) with q in G3.
  assert (L : length os2 = length (map (@ecall_ev Ob Act Pm) evs)) by (eapply runs_length; exact E2).
  assert (Q : te ++ map (pair i) (seen calls (Nothing :: os2 ++ [Nothing])) =
              ((te ++ [(i, AgentCall (SetTraining false) Nothing)]) ++ map (pair i) (seen (map ecall_ev evs) os2)) ++ [(i, AgentCall (SetTraining true) Nothing)]).
  { unfold calls. cbn [combine map]. rewrite <- !app_assoc. f_equal. cbn [app]. f_equal.
    clear - L. revert os2 L. generalize (map (@ecall_ev Ob Act Pm) evs). intros es. induction es as [|e es IH]; intros [|o os] L; try discriminate L; [reflexivity|].
    cbn [app combine map]. f_equal. apply IH. now injection L. }
  rewrite Q. split; [exact A3|]. split.
  - rewrite written_no_update; [exact G3|]. constructor; [exact I|]. apply Forall_app. split; [|repeat constructor]. eapply Forall_impl; [|exact F]. intros [| |]; auto.
  - cbn in E1, E3'. injection E1 as <-. injection E3' as <-. cbn in *. congruence.
Qed.

(** *** Processes *)
Definition acted_pc (p : pc) : bool := match p with PcStep | PcObserve => true | _ => false end.
Definition alt_inv (i : nat) (te : trace) (p : pc) : Prop :=
  alternating true false (calls_of i te) /\ exists b, mode_after true false (calls_of i te) = (true, b) /\ (p <> PcRaised -> b = acted_pc p).
Definition fresh (i : nat) (te : trace) : Prop :=
  exists o r, last_gave i te = Some (o, r) /\ match r with Some (_, d, n) => d || (cut P (episode_len i te) || n) = false | None => True end.
Definition env_inv (i : nat) (te : trace) (k : worker) (o : option Ob) : Prop :=
  o = option_map fst (last_gave i te) /\ wk_len k = episode_len i te /\
  match wk_pc k with
  | PcAct | PcException => fresh i te
  | PcObserve | PcCount | PcHook _ | PcCheck => exists o n, last_gave i te = Some (o, Some (wk_r k, wk_done k, n)) /\ wk_reset k = cut P (episode_len i te) || n
  | _ => True
  end.
Definition count_inv (i : nat) (ta : list (nat * aev)) (k : worker) (s : st) : Prop :=
  t s = length (obtained_by i ta) + match wk_pc k with PcCount => 1 | _ => 0 end.
Definition pinv (i : nat) (te : trace) (ta : list (nat * aev)) (k : proc) : Prop :=
  agent_inv i te (p_agent k) /\ alt_inv i te (wk_pc (p_loop k)) /\ env_inv i te (p_loop k) (p_obs k) /\ count_inv i ta (p_loop k) (p_agent k).

Lemma alt_same i te p p' : alt_inv i te p -> p <> PcRaised -> (p' <> PcRaised -> acted_pc p' = acted_pc p) -> alt_inv i te p'.
Proof. intros (A & b & B & C) Hp H. split; [exact A|]. exists b. split; [exact B|]. intros Hp'. rewrite (H Hp'). auto. Qed.
Lemma agent_inv_env i te s o r : agent_inv i te s -> agent_inv i (te ++ [(i, EnvGave o r)]) s.
Proof.
  intros (A1 & A2 & A3 & A4 & A5 & A6). unfold agent_inv. rewrite calls_of_app, outs_of_app, updates_of_app. cbn [calls_of outs_of updates_of flat_map snd fst app].
  rewrite !app_nil_r. repeat split; auto. rewrite in_training_same; auto.
Qed.
Lemma glob_env i te q o r : glob te q -> glob (te ++ [(i, EnvGave o r)]) q.
Proof. intros (A & B). split; [rewrite updates_of_app; cbn; rewrite app_nil_r; exact A|]. apply all_linked_snoc; [exact B|exact I]. Qed.
Lemma alt_inv_env i te p o r : alt_inv i te p -> alt_inv i (te ++ [(i, EnvGave o r)]) p.
Proof. unfold alt_inv. rewrite calls_of_app. cbn. now rewrite app_nil_r. Qed.
Lemma obtained_by_got i ta v : obtained_by i (ta ++ [(i, AGot v)]) = obtained_by i ta ++ [v].
Proof. rewrite obtained_by_app. unfold obtained_by at 2. cbn. now rewrite Nat.eqb_refl. Qed.
Lemma obtained_by_user i ta (es : list aev) : Forall (fun e => match e with AGot _ => False | _ => True end) es -> obtained_by i (ta ++ map (pair i) es) = obtained_by i ta.
Proof.
  intros H. rewrite obtained_by_app.
  assert (E : obtained_by i (map (pair i) es) = []).
  { induction H as [|e es He _ IH]; [reflexivity|]. change (map (pair i) (e :: es)) with ([(i, e)] ++ map (pair i) es). rewrite obtained_by_app, IH. destruct e; [reflexivity|destruct He|reflexivity]. }
  now rewrite E, app_nil_r.
Qed.
Lemma obtained_by_user1 i ta e : obtained_by i (ta ++ [(i, AUser e)]) = obtained_by i ta.
Proof. apply (obtained_by_user i ta [AUser e]). repeat constructor. Qed.
Lemma calls_of_own i (calls : list (M_A3C.ev Ob Act Pm)) : forall outs, length outs = length calls -> calls_of i (map (pair i) (seen calls outs)) = calls /\ outs_of i (map (pair i) (seen calls outs)) = outs /\
  gave i (map (pair i) (seen calls outs)) = [].
Proof.
  induction calls as [|e calls IH]; intros [|o outs] L; try discriminate L; [repeat split|]. injection L as L. destruct (IH outs L) as (A & B & C).
  unfold calls_of, outs_of, gave in *. cbn [combine map flat_map snd fst]. rewrite Nat.eqb_refl, A, B, C. repeat split.
Qed.

(** The calls of a process never fail: they alternate. *)
Lemma calls_ok i te s calls : agent_inv i te s -> alternating true false (calls_of i te ++ calls) ->
  exists s' outs, runs N opt (cfg_of c i) s calls = Ok (s', outs).
Proof.
  intros (A & _) H. destruct (C69.C69_worker N opt (cfg_of c i) (own i) _ Hmax H) as (s' & outs & R & _). rewrite runs_app, A in R. cbn [rbind] in R.
  destruct (runs N opt (cfg_of c i) s calls) as [[s2 o2]|x]; [|discriminate]. exists s2, o2. reflexivity.
Qed.

Definition happened y ch o k (calls : list (M_A3C.ev Ob Act Pm)) outs := env_gave y ch o k ++ seen calls outs.

Lemma no_call (x : bool) : (if x then Ok [] else Ok []) = (Ok [] : result (list (M_A3C.ev Ob Act Pm))). Proof. destruct x; reflexivity. Qed.
Lemma no_event (x : bool) : (if x then [] else []) = ([] : list (cev Ob Act Pm RS)). Proof. destruct x; reflexivity. Qed.
Lemma no_obs (x : bool) (ob : option Ob) : (if x then ob else ob) = ob. Proof. destruct x; reflexivity. Qed.
Lemma pstep y i ch o a evs te ta k : pinv i te ta k -> glob te (y_params y) ->
  forall g' l' es, wstep P i ch (y_shared y) (p_loop k) = (g', l', es) ->
  exists calls s outs, agent_calls y ch a evs k = Ok calls /\ runs N opt (cfg_of c i) (p_agent k) calls = Ok (s, outs) /\
    pinv i (te ++ map (pair i) (happened y ch o k calls outs)) (ta ++ map (pair i) es) (mkProc l' s (next_obs y ch o k)) /\
    glob (te ++ map (pair i) (happened y ch o k calls outs)) (written (y_params y) s outs).
Proof.
  intros (A & AL & E & C) G g' l' es W. destruct k as [l s ob]. cbn [p_loop p_agent p_obs] in *. destruct y as [g q ps]. cbn [y_shared y_params y_procs] in *.
  unfold happened, agent_calls, next_obs, env_gave in *. cbn [p_loop p_agent p_obs y_shared y_params y_procs] in *.
  assert (Quiet : forall l' es, wk_pc l' = wk_pc l' -> alt_inv i te (wk_pc l') -> env_inv i te l' ob -> count_inv i (ta ++ map (pair i) es) l' s ->
    exists calls s' outs, Ok [] = Ok calls /\ runs N opt (cfg_of c i) s calls = Ok (s', outs) /\
      pinv i (te ++ map (pair i) ([] ++ seen calls outs)) (ta ++ map (pair i) es) (mkProc l' s' ob) /\
      glob (te ++ map (pair i) ([] ++ seen calls outs)) (written q s' outs)).
  { intros l2 es2 _ A2 E2 C2. exists [], s, []. split; [reflexivity|]. split; [reflexivity|]. cbn. rewrite app_nil_r. split; [|exact G].
    unfold pinv. cbn [p_loop p_agent p_obs]. auto. }
  unfold wstep in W. destruct (sh_killed g); [injection W as <- <- <-; cbn [orb]; apply Quiet; auto; unfold count_inv in *; cbn; now rewrite app_nil_r|].
  cbn [orb]. destruct AL as (AL1 & b & AL2 & AL3). destruct E as (E1 & E2 & E3). unfold count_inv in C.
  assert (TR : training s = true) by (destruct A as (_ & _ & _ & _ & _ & A); rewrite A, (in_training_mode i te false), AL2; reflexivity).
  assert (Raised : c_raise ch = true -> forall e l1, (match e with AGot _ => False | _ => True end) -> wk_pc l <> PcCount ->
    (let (k', es) := raised i l in (g, k', e :: es)) = (g', l1, es) -> alt_inv i te (wk_pc l1) /\ env_inv i te l1 ob /\ count_inv i (ta ++ map (pair i) es) l1 s).
  { intros _ e l1 He Hpc. unfold raised. intros H. injection H as _ <- <-. split; [|split].
    - split; [exact AL1|]. exists b. split; [exact AL2|]. cbn. congruence.
    - split; [exact E1|]. split; [exact E2|]. exact I.
    - unfold count_inv. change (wk_pc (set_pc l PcRaised)) with PcRaised. rewrite obtained_by_user.
      + rewrite C. destruct (wk_pc l); try reflexivity. congruence.
      + constructor; [exact He|]. destruct (i =? 0); repeat constructor. }
  unfold user in W. destruct (wk_pc l) as [first| | | | |h| | | | | | | | |] eqn:Epc.
  - (* reset *) destruct (c_raise ch) eqn:Er.
    + destruct (Raised eq_refl (AUser EReset) l' I ltac:(congruence) W) as (? & ? & ?). apply Quiet; auto.
    + cbn [fst snd] in W. injection W as <- <- <-. exists [], s, []. split; [reflexivity|]. split; [reflexivity|]. cbn [app combine map].
      split; [|apply glob_env; exact G]. unfold pinv. cbn [p_loop p_agent p_obs wk_pc]. split; [now apply agent_inv_env|]. split.
      { apply alt_inv_env. split; [exact AL1|]. exists b. split; [exact AL2|]. intros _. rewrite (AL3 ltac:(discriminate)). destruct first; reflexivity. }
      split.
      { unfold env_inv, fresh. rewrite last_gave_snoc, episode_len_snoc. cbn [wk_len wk_pc option_map fst]. repeat split. destruct first; exists o, None; auto. }
      { unfold count_inv. cbn [wk_pc]. rewrite obtained_by_user1. rewrite C. destruct first; reflexivity. }
  - (* act *) destruct (c_raise ch) eqn:Er.
    + destruct (Raised eq_refl (AUser EAct) l' I ltac:(congruence) W) as (? & ? & ?). apply Quiet; auto.
    + cbn [fst snd] in W. injection W as <- <- <-. destruct E3 as (o1 & r1 & E3 & E4). rewrite E1, E3. cbn [option_map fst].
      exists [CallAct o1 a]. assert (HA : alternating true false (calls_of i te ++ [CallAct o1 a])).
      { apply alternating_app; [exact AL1|]. rewrite AL2. cbn. rewrite (AL3 ltac:(discriminate)). auto. }
      destruct (calls_ok i te s _ A HA) as (s' & outs & R). exists s', outs. split; [reflexivity|]. split; [exact R|].
      assert (S1 : exists ou, outs = [ou] /\ step N opt (cfg_of c i) s (CallAct o1 a) = Ok (s', ou)).
      { cbn [runs] in R. destruct (step N opt (cfg_of c i) s (CallAct o1 a)) as [[s2 ou]|]; cbn [rbind] in R; [|discriminate]. injection R as <- <-. eauto. }
      destruct S1 as (ou & -> & S1). cbn [app combine map].
      destruct (agent_step i te q s _ s' ou A G S1) as (A' & G').
      { split; [|exact I]. intros _. eauto. }
      { intros u ->. cbn [step] in S1. rewrite TR in S1. discriminate S1. }
      split; [|exact G']. unfold pinv. cbn [p_loop p_agent p_obs]. split; [exact A'|]. split.
      { unfold alt_inv. rewrite calls_of_app. cbn [calls_of flat_map snd fst]. rewrite Nat.eqb_refl. cbn [app]. split; [exact HA|]. rewrite mode_after_app, AL2. cbn. eauto. }
      split.
      { unfold env_inv. rewrite last_gave_same, episode_len_same by reflexivity. rewrite E3. cbn. auto. }
      { unfold count_inv. cbn [wk_pc set_pc]. rewrite obtained_by_user1.
        cbn [step] in S1. rewrite TR in S1. injection S1 as <- _. cbn. lia. }
  - (* step *) destruct (c_raise ch) eqn:Er.
    + destruct (Raised eq_refl (AUser (EStep None)) l' I ltac:(congruence) W) as (? & ? & ?). apply Quiet; auto.
    + cbn [fst snd] in W. injection W as <- <- <-. exists [], s, []. split; [reflexivity|]. split; [reflexivity|]. cbn [app combine map].
      split; [|apply glob_env; exact G]. unfold pinv. cbn [p_loop p_agent p_obs wk_pc]. split; [now apply agent_inv_env|]. split.
      { apply alt_inv_env. split; [exact AL1|]. exists b. split; [exact AL2|]. intros _. rewrite (AL3 ltac:(discriminate)). reflexivity. }
      split.
      { unfold env_inv. rewrite last_gave_snoc, episode_len_snoc. cbn [wk_len wk_pc wk_r wk_done wk_reset option_map fst]. rewrite E2. repeat split.
        exists o, (c_needs ch). split; [reflexivity|]. unfold cut. reflexivity. }
      { unfold count_inv. cbn [wk_pc]. rewrite obtained_by_user1. exact C. }
  - (* observe *) destruct (c_raise ch) eqn:Er.
    + destruct (Raised eq_refl (AUser (EObserve (wk_r l) (wk_done l) (wk_reset l))) l' I ltac:(congruence) W) as (? & ? & ?). apply Quiet; auto.
    + cbn [fst snd] in W. injection W as <- <- <-. destruct E3 as (o1 & n1 & E3 & E4). rewrite E1, E3. cbn [option_map fst].
      set (e2 := CallObserve o1 (wk_r l) (wk_done l) (wk_reset l)).
      exists [Others q; e2]. assert (HA : alternating true false (calls_of i te ++ [Others q; e2])).
      { apply alternating_app; [exact AL1|]. rewrite AL2. cbn. rewrite (AL3 ltac:(discriminate)). auto. }
      destruct (calls_ok i te s _ A HA) as (s' & outs & R). exists s', outs. split; [reflexivity|]. split; [exact R|].
      assert (S1 : exists s1 ou, outs = [Nothing; ou] /\ step N opt (cfg_of c i) s (Others q) = Ok (s1, Nothing) /\ shared_model s1 = q /\ t s1 = t s /\ training s1 = true /\ step N opt (cfg_of c i) s1 e2 = Ok (s', ou)).
      { cbn [runs] in R. destruct (step N opt (cfg_of c i) s (Others q)) as [[s1 ou1]|] eqn:ES1; cbn [rbind] in R; [|discriminate].
        destruct (step N opt (cfg_of c i) s1 e2) as [[s2 ou]|] eqn:ES; cbn [rbind] in R; [|discriminate]. injection R as <- <-. cbn [step] in ES1. injection ES1 as <- <-.
        eexists _, ou. split; [reflexivity|]. split; [reflexivity|]. split; [reflexivity|]. split; [reflexivity|]. split; [exact TR|exact ES]. }
      destruct S1 as (s1 & ou & -> & S1 & Sh & Ht & Tr1 & S2). cbn [app combine map].
      destruct (agent_step i te q s _ s1 Nothing A G S1) as (A1 & G1); [split; [apply G|exact I]|discriminate|]. change (written q s1 [Nothing]) with q in G1.
      destruct (agent_step i _ q s1 _ s' ou A1 G1 S2) as (A2 & G2).
      { split; [|exact I]. unfold e2. intros _. rewrite last_gave_same, episode_len_same by reflexivity. eauto. }
      { auto. }
      rewrite <- app_assoc in A2, G2. cbn [app] in A2, G2.
      split; [|exact G2]. unfold pinv. cbn [p_loop p_agent p_obs]. split; [exact A2|]. split.
      { unfold alt_inv. rewrite calls_of_app. cbn [calls_of flat_map snd fst]. rewrite Nat.eqb_refl. cbn [app]. split; [exact HA|]. rewrite mode_after_app, AL2. cbn. eauto. }
      split.
      { unfold env_inv. rewrite last_gave_same, episode_len_same by reflexivity. rewrite E3. cbn. eauto 10. }
      { unfold count_inv. cbn [wk_pc set_pc]. rewrite obtained_by_user1.
        destruct A1 as (_ & _ & B1 & B2 & _). destruct (step_facts N opt (cfg_of c i) _ _ _ _ S2 B1 B2) as (F & _). rewrite F, Ht, Tr1. cbn. lia. }
  - (* count *) injection W as <- <- <-. cbn [map]. 
    rewrite no_call, no_event, no_obs.
    apply (Quiet _ [AGot (S (sh_counter g))]); auto.
    + split; [exact AL1|]. exists b. split; [exact AL2|]. intros _. apply AL3. discriminate.
    + unfold env_inv. cbn. auto.
    + unfold count_inv. cbn [map wk_pc]. rewrite obtained_by_got, app_length, C. cbn. lia.
  - (* hook *) rewrite no_call, no_event, no_obs. destruct (h <? as_nhooks P).
    + destruct (c_raise ch) eqn:Er.
      * destruct (Raised eq_refl (AUser (EHook h (wk_gt l))) l' I ltac:(congruence) W) as (? & ? & ?). apply Quiet; auto.
      * cbn [fst snd] in W. injection W as <- <- <-. apply Quiet; [reflexivity| | |].
        -- split; [exact AL1|]. exists b. split; [exact AL2|]. intros _. apply AL3. discriminate.
        -- unfold env_inv. cbn. auto.
        -- unfold count_inv. cbn [map wk_pc set_pc]. rewrite obtained_by_user1. exact C.
    + injection W as <- <- <-. apply Quiet; [reflexivity| | |].
      * split; [exact AL1|]. exists b. split; [exact AL2|]. intros _. apply AL3. discriminate.
      * unfold env_inv. cbn. auto.
      * unfold count_inv. cbn [map wk_pc set_pc]. rewrite app_nil_r. exact C.
  - (* check *) rewrite no_call, no_event, no_obs. destruct (wk_done l || wk_reset l || (as_steps P <=? wk_gt l) || sh_stop g) eqn:Ec.
    + injection W as <- <- <-. apply Quiet; [reflexivity| | |].
      * split; [exact AL1|]. exists b. split; [exact AL2|]. intros _. rewrite (AL3 ltac:(discriminate)). cbn. destruct (as_has_eval P); reflexivity.
      * unfold env_inv. cbn. destruct (as_has_eval P); auto.
      * unfold count_inv. cbn [map wk_pc set_pc]. rewrite app_nil_r, C. destruct (as_has_eval P); reflexivity.
    + injection W as <- <- <-. apply Quiet; [reflexivity| | |].
      * split; [exact AL1|]. exists b. split; [exact AL2|]. intros _. rewrite (AL3 ltac:(discriminate)). reflexivity.
      * unfold env_inv, fresh. cbn. split; [exact E1|]. split; [exact E2|]. destruct E3 as (o1 & n1 & E3 & E4). exists o1, (Some (wk_r l, wk_done l, n1)). split; [exact E3|].
        rewrite <- E4. apply Bool.orb_false_elim in Ec. destruct Ec as [Ec _]. apply Bool.orb_false_elim in Ec. apply Ec.
      * unfold count_inv. cbn [map wk_pc set_pc]. rewrite app_nil_r. exact C.
  - (* eval *) destruct (c_raise ch) eqn:Er.
    + destruct (Raised eq_refl (AUser (EEval (wk_gt l) (wk_ge l) None)) l' I ltac:(congruence) W) as (? & ? & ?). apply Quiet; auto.
    + set (calls := SetTraining false :: map ecall_ev evs ++ [SetTraining true]).
      assert (HA : alternating true false (calls_of i te ++ calls)).
      { apply alternating_app; [exact AL1|]. rewrite AL2. cbn [fst snd]. apply eval_alternating. }
      destruct (calls_ok i te s _ A HA) as (s' & outs & R). exists calls, s', outs. split; [reflexivity|]. split; [exact R|]. cbn [app].
      destruct (agent_eval i q evs te s s' outs A G TR R) as (A' & G' & Ht). split; [|exact G'].
      pose proof (runs_length N opt (cfg_of c i) _ _ _ _ R) as L. destruct (calls_of_own i calls outs L) as (L1 & L2 & L3).
      assert (AL' : alternating true false (calls_of i (te ++ map (pair i) (seen calls outs))) /\ mode_after true false (calls_of i (te ++ map (pair i) (seen calls outs))) = (true, b)).
      { rewrite calls_of_app, L1. split; [exact HA|]. rewrite mode_after_app, AL2. cbn [fst snd]. apply eval_mode. }
      unfold pinv. cbn [p_loop p_agent p_obs]. split; [exact A'|].
      assert (Acted : b = false) by (apply AL3; discriminate).
      match type of W with context [if ?x then _ else _] => destruct x end; cbn [fst snd] in W; injection W as <- <- <-; cbn [wk_pc set_pc];
        (split; [split; [apply AL'|exists b; split; [apply AL'|intros _; exact Acted]]|];
         split; [unfold env_inv; cbn [wk_pc wk_len set_pc]; rewrite last_gave_same, episode_len_same by exact L3; auto|
                 unfold count_inv; cbn [map wk_pc set_pc]; rewrite obtained_by_user1, Ht; exact C]).
  - (* episodes *) rewrite no_call, no_event, no_obs. injection W as <- <- <-. apply Quiet; [reflexivity| | |].
    + split; [exact AL1|]. exists b. split; [exact AL2|]. intros _. apply AL3. discriminate.
    + unfold env_inv. cbn. auto.
    + unfold count_inv. cbn [map wk_pc]. rewrite app_nil_r. exact C.
  - (* recheck *) rewrite no_call, no_event, no_obs. destruct ((as_steps P <=? wk_gt l) || sh_stop g); injection W as <- <- <-; (apply Quiet; [reflexivity| | |]);
      try (split; [exact AL1|]; exists b; split; [exact AL2|]; intros _; apply AL3; discriminate); try (unfold env_inv; cbn; auto; fail); unfold count_inv; cbn [map wk_pc set_pc]; rewrite app_nil_r; exact C.
  - (* exception *) rewrite no_call, no_event, no_obs. destruct ((i =? 0) && sh_exn g); injection W as <- <- <-; (apply Quiet; [reflexivity| | |]).
    + split; [exact AL1|]. exists b. split; [exact AL2|]. rewrite Epc. exact AL3.
    + unfold env_inv. rewrite Epc. auto.
    + unfold count_inv. cbn [map]. rewrite Epc, obtained_by_user1. exact C.
    + split; [exact AL1|]. exists b. split; [exact AL2|]. intros _. apply AL3. discriminate.
    + unfold env_inv. cbn. auto.
    + unfold count_inv. cbn [map wk_pc set_pc]. rewrite app_nil_r. exact C.
  - (* finish *) rewrite no_call, no_event, no_obs. injection W as <- <- <-. apply Quiet; [reflexivity| | |].
    + split; [exact AL1|]. exists b. split; [exact AL2|]. intros _. apply AL3. discriminate.
    + unfold env_inv. cbn. auto.
    + unfold count_inv. cbn [wk_pc set_pc]. rewrite obtained_by_user; [exact C|]. destruct (wk_gt l =? as_steps P); repeat constructor.
  - (* success *) rewrite no_call, no_event, no_obs. injection W as <- <- <-. apply Quiet; [reflexivity| | |].
    + split; [exact AL1|]. exists b. split; [exact AL2|]. intros _. apply AL3. discriminate.
    + unfold env_inv. cbn. auto.
    + unfold count_inv. cbn [wk_pc set_pc]. rewrite obtained_by_user; [exact C|]. destruct (wk_success l); repeat constructor.
  - (* done *) rewrite no_call, no_event, no_obs. injection W as <- <- <-. apply Quiet; [reflexivity| | |].
    + split; [exact AL1|]. exists b. split; [exact AL2|]. rewrite Epc. exact AL3.
    + unfold env_inv. rewrite Epc. auto.
    + unfold count_inv. cbn [map]. rewrite Epc, app_nil_r. exact C.
  - (* raised *) rewrite no_call, no_event, no_obs. injection W as <- <- <-. apply Quiet; [reflexivity| | |].
    + split; [exact AL1|]. exists b. split; [exact AL2|]. rewrite Epc. exact AL3.
    + unfold env_inv. rewrite Epc. auto.
    + unfold count_inv. cbn [map]. rewrite Epc, app_nil_r. exact C.
Qed.

(** *** The whole system *)
Definition sinv (y : sys) (te : trace) (ta : list (nat * aev)) : Prop :=
  glob te (y_params y) /\ forall i k, nth_error (y_procs y) i = Some k -> pinv i te ta k.

Lemma obtained_by_other i j ta (es : list aev) : i <> j -> obtained_by j (ta ++ map (pair i) es) = obtained_by j ta.
Proof. intros H. rewrite obtained_by_app. 
  assert (E : obtained_by j (map (pair i) es) = []).
  { apply Nat.eqb_neq in H. induction es as [|e es IH]; [reflexivity|]. change (map (pair i) (e :: es)) with ([(i, e)] ++ map (pair i) es). rewrite obtained_by_app, IH.
    unfold obtained_by. destruct e; cbn; rewrite ?H; reflexivity. }
  rewrite E. apply app_nil_r.
Qed.

Lemma pinv_other i j te ta k es es' : i <> j -> pinv j te ta k -> pinv j (te ++ map (pair i) es) (ta ++ map (pair i) es') k.
Proof.
  intros H ((A1 & A2 & A3 & A4 & A5 & A6) & AL & E & C). destruct (other_proj i j es H) as (P1 & P2 & P3 & P4 & P5).
  split; [|split; [|split]].
  - unfold agent_inv. rewrite calls_of_app, outs_of_app, updates_of_app, learned_by_app, P1, P2, P5, !app_nil_r, acting_other, in_training_same by assumption. repeat split; auto. lia.
  - unfold alt_inv. rewrite calls_of_app, P1, app_nil_r. exact AL.
  - unfold env_inv, fresh. rewrite last_gave_same, episode_len_same by assumption. exact E.
  - unfold count_inv. rewrite obtained_by_other by assumption. exact C.
Qed.

Definition loops (y : sys) : state := (y_shared y, map (@p_loop Ob Act Pm RS) (y_procs y)).
Lemma map_list_set {X Y} (f : X -> Y) (l : list X) : forall i x, map f (list_set l i x) = list_set (map f l) i (f x).
Proof. induction l as [|y l IH]; intros [|i] x; cbn; auto. f_equal. apply IH. Qed.
Definition tagged {X} (n : nat) (tr : list (nat * X)) : Prop := Forall (fun x => fst x < n) tr.
Lemma tagged_map {X} n i (es : list X) : i < n -> tagged n (map (pair i) es).
Proof. intros H. apply Forall_forall. intros x Hx. apply in_map_iff in Hx. destruct Hx as (e & <- & _). exact H. Qed.

Lemma cstep_ok y x te ta : sinv y te ta -> exists y' te' ta', cstep P N opt c y x = Ok (y', te', ta') /\ sinv y' (te ++ te') (ta ++ ta') /\
  astep P (loops y) (sched_of x) = (loops y', ta') /\ length (y_procs y') = length (y_procs y) /\ tagged (length (y_procs y)) te' /\ tagged (length (y_procs y)) ta'.
Proof.
  intros (G & H). destruct x as [i ch o a evs| |].
  - unfold cstep, astep, loops. cbn [sched_of]. rewrite nth_error_map. destruct (nth_error (y_procs y) i) as [k|] eqn:Ek; cbn [option_map].
    + destruct (wstep P i ch (y_shared y) (p_loop k)) as [[g' l'] es] eqn:Ew. destruct (pstep y i ch o a evs te ta k (H i k Ek) G g' l' es Ew) as (calls & s & outs & E1 & E2 & E3 & E4).
      rewrite E1. cbn [rbind]. rewrite E2. cbn [rbind]. eexists _, _, _. split; [reflexivity|]. unfold happened in E3, E4. cbn [y_shared y_params y_procs]. split; [|split; [|split; [|split]]].
      * split; [exact E4|]. cbn [y_procs]. intros j kj Ej. destruct (Nat.eq_dec i j) as [<-|Hij].
        -- rewrite (nth_list_set_eq _ _ _ _ Ek) in Ej. injection Ej as <-. exact E3.
        -- rewrite nth_list_set_neq in Ej by exact Hij. apply pinv_other; [exact Hij|]. exact (H j kj Ej).
      * rewrite map_list_set. reflexivity.
      * apply list_set_length.
      * apply tagged_map. apply nth_error_Some. congruence.
      * apply tagged_map. apply nth_error_Some. congruence.
    + exists y, [], []. rewrite !app_nil_r. split; [reflexivity|]. split; [split; assumption|]. repeat split; constructor.
  - unfold cstep, astep, loops. cbn [sched_of]. eexists _, [], []. split; [reflexivity|]. rewrite !app_nil_r. cbn [y_shared y_params y_procs]. split; [split; assumption|]. repeat split; constructor.
  - unfold cstep, astep, loops. cbn [sched_of]. eexists _, [], []. split; [reflexivity|]. rewrite !app_nil_r. cbn [y_shared y_params y_procs]. split; [split; assumption|]. repeat split; constructor.
Qed.

Lemma crun_ok xs : forall y te ta, sinv y te ta -> exists y' te' ta', crun P N opt c y xs = Ok (y', te', ta') /\ sinv y' (te ++ te') (ta ++ ta') /\
  arun P (loops y) (map sched_of xs) = (loops y', ta') /\ length (y_procs y') = length (y_procs y) /\ tagged (length (y_procs y)) te' /\ tagged (length (y_procs y)) ta'.
Proof.
  induction xs as [|x xs IH]; intros y te ta H.
  - exists y, [], []. rewrite !app_nil_r. split; [reflexivity|]. split; [exact H|]. repeat split; constructor.
  - destruct (cstep_ok y x te ta H) as (y1 & te1 & ta1 & A1 & A2 & A3 & A4 & A5 & A6). destruct (IH _ _ _ A2) as (y2 & te2 & ta2 & B1 & B2 & B3 & B4 & B5 & B6).
    exists y2, (te1 ++ te2), (ta1 ++ ta2). cbn [crun map arun]. rewrite A1. cbn [rbind]. rewrite B1. cbn [rbind]. rewrite A3, B3. rewrite !app_assoc. rewrite A4 in *.
    split; [reflexivity|]. split; [exact B2|]. split; [reflexivity|]. split; [congruence|]. split; apply Forall_app; auto.
Qed.
End System.

Section Final.
Context {Ob Act Pm RS : Type}.
Variable P : async_args.
Variable N : net Ob Pm RS.
Variable opt : Pm -> upd Ob Act Pm RS -> Pm.
Variable c : cfg.
Hypothesis Hmax : 1 <= t_max c.
Variable p0 : Pm.
Variable mk : option (nat -> Pm).
Notation own := (own_params p0 mk).

Lemma sinv0 n : sinv P N opt c p0 own (mkSys (mkSh 0 0 false false false) p0 (map (fun i => mkProc worker0 (init (own i)) None) (seq 0 n))) [] [].
Proof.
  split; [split; [reflexivity|]|].
  - intros te1 x te2 E. destruct te1; discriminate E.
  - cbn [y_procs]. intros i k Hk. rewrite nth_error_map in Hk. destruct (nth_error (seq 0 n) i) as [j|] eqn:Ej; [|discriminate]. injection Hk as <-.
    assert (j = i) as ->.
    { assert (i < length (seq 0 n)) by (apply nth_error_Some; congruence). rewrite seq_length in H. rewrite (nth_error_nth' _ 0) in Ej by (rewrite seq_length; lia). rewrite seq_nth in Ej by lia. injection Ej as <-. reflexivity. }
    split; [|split; [|split]]; cbn [p_agent p_loop p_obs].
    + repeat split; cbn; lia.
    + split; [exact I|]. exists false. split; reflexivity.
    + repeat split.
    + reflexivity.
Qed.

Lemma async_inv n xs : exists y te ta, a3c_async P N opt c n p0 mk xs = Ok (y, te, ta) /\ sinv P N opt c p0 own y te ta /\
  train_agent_async n 0 P (map sched_of xs) = ((y_shared y, map (@p_loop Ob Act Pm RS) (y_procs y)), ta) /\ length (y_procs y) = n /\ tagged n te /\ tagged n ta.
Proof.
  destruct (crun_ok P N opt c Hmax p0 own xs _ _ _ (sinv0 n)) as (y & te & ta & A & B & C & D & E & F). cbn [y_procs app] in *. rewrite map_length, seq_length in *.
  exists y, te, ta. split; [exact A|]. split; [exact B|]. split; [|auto]. unfold train_agent_async. unfold loops in C. cbn [y_shared y_procs] in C. rewrite map_map in C. cbn [p_loop] in C.
  replace (map (fun _ : nat => worker0) (seq 0 n)) with (repeat worker0 n) in C; [exact C|]. clear. generalize 0. induction n as [|n IH]; intros a; cbn; [reflexivity|]. f_equal. apply IH.
Qed.

End Final.

Section Sums.
Context {Ob Act Pm RS : Type}.
(** Sums over processes. *)
Lemma sum_delta n a (f : nat -> nat) : a < n -> list_sum (map (fun i => if a =? i then f i else 0) (seq 0 n)) = f a.
Proof.
  intros H. assert (G : forall m b, list_sum (map (fun i => if a =? i then f i else 0) (seq b m)) = if (b <=? a) && (a <? b + m) then f a else 0).
  { induction m as [|m IH]; intros b; cbn [seq map list_sum fold_right]; [destruct ((b <=? a) && (a <? b + 0)) eqn:Eb; [lia|reflexivity]|].
    change (fold_right Nat.add 0) with list_sum. rewrite IH. destruct (a =? b) eqn:Eab.
    - apply Nat.eqb_eq in Eab. subst b. replace ((S a <=? a) && (a <? S a + m)) with false by lia. replace ((a <=? a) && (a <? a + S m)) with true by lia. lia.
    - replace ((S b <=? a) && (a <? S b + m)) with ((b <=? a) && (a <? b + S m)) by lia. reflexivity. }
  rewrite G. replace ((0 <=? a) && (a <? 0 + n)) with true by lia. reflexivity.
Qed.
Lemma list_sum_zip (f g : nat -> nat) l : list_sum (map (fun i => f i + g i) l) = list_sum (map f l) + list_sum (map g l).
Proof. induction l as [|x l IH]; [reflexivity|]. cbn [map list_sum fold_right]. change (fold_right Nat.add 0) with list_sum. lia. Qed.
Lemma list_sum_zero {X} (f : X -> nat) l : (forall x, f x = 0) -> list_sum (map f l) = 0.
Proof. intros H. induction l as [|x l IH]; [reflexivity|]. cbn [map list_sum fold_right]. change (fold_right Nat.add 0) with list_sum. rewrite H. exact IH. Qed.
Lemma learned_sum n (us : list (nat * upd Ob Act Pm RS)) : Forall (fun u => fst u < n) us -> list_sum (map (fun i => learned_by i us) (seq 0 n)) = learned us.
Proof.
  induction us as [|[a u] us IH]; intros H; [apply list_sum_zero; reflexivity|]. inversion H as [|? ? Ha Hus]; subst. cbn [fst] in Ha.
  rewrite (map_ext _ (fun i => (if a =? i then length (u_actions u) else 0) + learned_by i us)) by reflexivity.
  rewrite list_sum_zip, IH by exact Hus. rewrite (sum_delta n a (fun _ => length (u_actions u))) by exact Ha. reflexivity.
Qed.
Lemma obtained_sum n ta : tagged n ta -> list_sum (map (fun i => length (obtained_by i ta)) (seq 0 n)) = length (obtained ta).
Proof.
  induction ta as [|[a e] ta IH]; intros H; [apply list_sum_zero; reflexivity|]. inversion H as [|? ? Ha Hta]; subst. cbn [fst] in Ha. specialize (IH Hta).
  change ((a, e) :: ta) with ([(a, e)] ++ ta).
  rewrite (map_ext _ (fun i => (if a =? i then match e with AGot _ => 1 | _ => 0 end else 0) + length (obtained_by i ta))).
  - rewrite list_sum_zip, IH, (sum_delta n a (fun _ => match e with AGot _ => 1 | _ => 0 end)) by exact Ha. rewrite obtained_app, app_length. destruct e; reflexivity.
  - intros i. rewrite obtained_by_app, app_length. f_equal. unfold obtained_by. destruct e; cbn; destruct (a =? i); reflexivity.
Qed.
Lemma updates_tagged n (te : list (nat * cev Ob Act Pm RS)) : tagged n te -> Forall (fun u => fst u < n) (updates_of te).
Proof.
  intros H. apply Forall_forall. intros u Hu. unfold updates_of in Hu. apply in_flat_map in Hu. destruct Hu as ([i x] & Hi & Hx). apply (proj1 (Forall_forall _ _) H) in Hi. cbn [fst snd] in *.
  destruct x as [o r|e o]; [destruct Hx|]. destruct o; cbn in Hx; try contradiction. destruct Hx as [<-|[]]. exact Hi.
Qed.
End Sums.
