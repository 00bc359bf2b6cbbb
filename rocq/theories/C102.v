(** C102: training with evaluation. *)
From Verif Require Import Base P_Base M_Train S_Train P_Train P_TrainBatch M_Evaluator S_Evaluator P_Evaluator C20 M_TrainEval S_TrainEval.
From Coq Require Import ZifyBool ZifyNat.
Open Scope nat_scope.

(** ** The evaluator's state along a run *)
Section Chain.
Context {W : Type} (EU : evuser W) (EP : evargs).
Inductive chain : evstate -> list (nat * nat * option Q) -> evstate -> Prop :=
| ch_nil s : chain s [] s
| ch_cons s t ep r s1 rs s2 w w1 es : evaluate_if_necessary EU EP s w t ep = (s1, w1, es, Ok r) -> chain s1 rs s2 -> chain s ((t, ep, r) :: rs) s2.
Lemma chain_app s a s1 b s2 : chain s a s1 -> chain s1 b s2 -> chain s (a ++ b) s2.
Proof. induction 1; intros; cbn [app]; [assumption|]. econstructor; eauto. Qed.

Definition mean_of_run (m : Q) : Prop :=
  exists w w' l, ev_scores EU w = (w', Ok l) /\ l <> [] /\ (m * inject_Z (Z.of_nat (length l)) == total l)%Q.
Lemma total_sum l : total l = score_sum l.
Proof. induction l; cbn; congruence. Qed.
Lemma chain_ok : 1 <= ev_interval EP -> forall rs s s' bs ms, chain s rs s' -> max_inv ms s -> due_inv EP bs s ->
  (forall pre t ep r post, rs = pre ++ (t, ep, r) :: post -> (r <> None <-> forall b, In b (bs ++ map at_time pre) -> b / ev_interval EP < t / ev_interval EP)) /\
  max_inv (ms ++ scored rs) s' /\ Forall mean_of_run (scored rs).
Proof.
  intros HI rs s s' bs ms H. revert bs ms. induction H as [s|s t ep r s1 rs s2 w w1 es E H IH]; intros bs ms HM HD.
  - split; [intros [|? pre]; discriminate|]. cbn. rewrite app_nil_r. split; [exact HM|constructor].
  - destruct (necessary_ok EU EP HI _ _ _ _ _ _ _ _ _ _ HM HD E) as (A1 & A2 & A3). destruct (IH _ _ A3 A2) as (B1 & B2 & B3).
    split; [|split].
    + intros [|p pre] t' ep' r' post EQ; cbn [app] in EQ.
      * injection EQ as <- <- <- _. cbn [map]. rewrite app_nil_r. destruct A1 as [A1 _]. rewrite <- A1. split; [destruct r; [eauto|now intros []]|intros [m M]; injection M as ->; discriminate].
      * injection EQ as <- EQ. specialize (B1 _ _ _ _ _ EQ). cbn [map]. rewrite B1. change (at_time (t, ep, r)) with t. rewrite <- app_assoc. reflexivity.
    + cbn [scored flat_map]. cbn [snd]. rewrite app_assoc. exact B2.
    + cbn [scored flat_map]. cbn [snd]. apply Forall_app. split; [|exact B3]. destruct r as [m|]; [|constructor]. constructor; [|constructor].
      assert (EC : ev_calls EU EP s w [(t, ep, fun w => w)] = (s1, [(Ok (Some m), es)])) by (cbn [ev_calls]; rewrite E; reflexivity).
      destruct (C20_mean EU EP _ _ _ _ _ 0 m es EC eq_refl) as (w2 & w3 & l & X1 & X2 & X3). exists w2, w3, l. rewrite total_sum. auto.
Qed.
Lemma chain_init rs s0 s' : 1 <= ev_interval EP -> evaluator_init EP = Ok s0 -> chain s0 rs s' ->
  on_schedule (ev_interval EP) (ev_offset EP) rs /\ max_inv (scored rs) s' /\ Forall mean_of_run (scored rs).
Proof.
  intros HI H0 H. unfold evaluator_init in H0. destruct (ev_interval EP =? 0) eqn:E; [lia|]. injection H0 as <-.
  destruct (chain_ok HI _ _ _ [ev_offset EP] [] H) as (A & B & C).
  - split; [|split; [now left|split; [apply Qle_refl|intros m []]]]. intros q. cbn [es_max]. split; [intros Hq; split; [exact Hq|intros m []]|tauto].
  - intros t. cbn [es_prev]. rewrite bucket_le by exact HI. split; [intros Hb b [<-|[]]; exact Hb|]. intros Hb. apply Hb. now left.
  - split; [exact A|]. split; [exact B|exact C].
Qed.

Context {E : Type} (req : E -> list (nat * nat * option Q)).
Notation reqs := (flat_map req).
(** A program whose requests thread the evaluator's state, if it does not raise. *)
Definition good {X} (m : @prog (W * evstate) E X) : Prop := forall s s' tr x, m s = (s', tr, Ok x) -> chain (snd (fst s)) (reqs tr) (snd (fst s')).
Lemma good_ret {X} (x : X) : good (pret x).
Proof. intros s s' tr y H. injection H as <- <- <-. constructor. Qed.
Lemma good_get_t : good pget_t.
Proof. intros s s' tr y H. injection H as <- <- <-. constructor. Qed.
Lemma good_get_w : good pget_w.
Proof. intros s s' tr y H. injection H as <- <- <-. constructor. Qed.
Lemma good_set_t t : good (pset_t t).
Proof. intros s s' tr y H. injection H as <- <- <-. constructor. Qed.
Lemma good_emit e : req e = [] -> good (pemit e).
Proof. intros R s s' tr y H. injection H as <- <- <-. cbn. rewrite R. constructor. Qed.
Lemma good_bind {X Y} (m : @prog (W * evstate) E X) (k : X -> prog Y) : good m -> (forall x, good (k x)) -> good (pbind m k).
Proof.
  intros M K s s' tr y H. unfold pbind in H. destruct (m s) as ((s1, l1), [x|e]) eqn:E1; [|discriminate]. destruct (k x s1) as ((s2, l2), r) eqn:E2. injection H as <- <- ->.
  rewrite flat_map_app. eapply chain_app; [exact (M _ _ _ _ E1)|exact (K _ _ _ _ _ E2)].
Qed.
Lemma good_call {X} (v : result X -> E) (f : W -> W * result X) : (forall r, req (v r) = []) -> good (pcall v (lift f)).
Proof. intros R s s' tr y H. unfold pcall, lift in H. destruct (f (fst (fst s))) as (w, r). injection H as <- <- ->. cbn. rewrite R. constructor. Qed.
Lemma good_consult v t ep : (forall s, req (v (Ok s)) = [(t, ep, s)]) -> good (pcall v (consult EU EP t ep)).
Proof.
  intros R s s' tr y H. unfold pcall, consult in H. destruct (evaluate_if_necessary EU EP (snd (fst s)) (fst (fst s)) t ep) as (((s1, w1), es), r) eqn:X. injection H as <- <- ->.
  cbn. rewrite R. cbn. econstructor; [exact X|constructor].
Qed.
End Chain.

(** ** train_agent *)
Section Train.
Context {W Ob A : Type} (U : userland W Ob A) (P : train_args) (EU : evuser W) (EP : evargs).
Notation V := (with_evaluator U EU EP).
Definition req1 (e : ev) : list (nat * nat * option Q) := match e with EEval t ep s => [(t, ep, s)] | _ => [] end.
Notation ok := (good EU EP req1).
Lemma good_hooks t : forall hs i, ok (run_hooks i (map (fun h t => lift (h t)) hs) t).
Proof. induction hs as [|h hs IH]; intros i; cbn [map run_hooks]; [apply good_ret|]. apply good_bind; [now apply good_call|]. intros _. apply IH. Qed.
Lemma good_body l : ok (train_body V P l).
Proof.
  unfold train_body. apply good_bind; [now apply good_call|]. intros a. apply good_bind; [apply good_call; intros [[[[? ?] ?] ?]|]; reflexivity|]. intros [[[obs r] d] nr].
  apply good_bind; [apply good_get_t|]. intros t. apply good_bind; [apply good_set_t|]. intros _. cbv zeta.
  apply good_bind; [now apply good_call|]. intros _. apply good_bind; [apply good_hooks|]. intros _. apply good_bind.
  - unfold eval_block. cbn [with_evaluator evaluator]. destruct (_ || a_eval_during_episode P); [|apply good_ret].
    apply good_bind; [now apply good_consult|]. intros sc. apply good_bind; [apply good_get_w|]. intros w. apply good_ret.
  - intros [hist brk]. destruct brk; [apply good_ret|]. unfold next_block. destruct (_ && (_ =? _)); [apply good_ret|]. apply good_bind.
    + destruct (_ || _); [|apply good_ret]. apply good_bind; [now apply good_call|]. intros o. apply good_ret.
    + intros l'. apply good_bind; [|intros _; apply good_ret]. destruct (checkpoint_due _ _); [now apply good_emit|apply good_ret].
Qed.
Lemma good_loop : forall fuel l, ok (train_loop V P fuel l).
Proof.
  induction fuel as [|fuel IH]; intros l; cbn [train_loop]; (apply good_bind; [apply good_get_t|]); intros t; (destruct (t <? a_steps P); [|apply good_ret]).
  - intros s s' tr x H. discriminate.
  - apply good_bind; [apply good_body|]. intros [brk l']. destruct brk; [apply good_ret|apply IH].
Qed.
Lemma good_train : ok (train_agent V P).
Proof.
  unfold train_agent. apply good_bind; [now apply good_call|]. intros obs. apply good_bind; [apply good_set_t|]. intros _. apply good_bind; [destruct (agent_has_t V); [now apply good_emit|apply good_ret]|].
  intros _ s s' tr x H. destruct (train_loop V P _ _ s) as ((s1, l1), [l|e]) eqn:E; [|discriminate]. injection H as <- <- <-. rewrite flat_map_app. cbn [flat_map req1 app]. rewrite app_nil_r. exact (good_loop _ _ _ _ _ _ E).
Qed.
End Train.

(** Requests are made at the ends of episodes. *)
Section Occasions.
Context {W Ob A : Type} (U : userland W Ob A) (P : train_args) (f : nat -> nat -> W -> W * result (option Q)) (HE : evaluator U = Some f).
Definition obs_made (tr : list ev) : nat := length (filter (fun e => match e with EObserve _ _ _ => true | _ => false end) tr).
Lemma occasions_app tr1 : forall t tr2, occasions P t (tr1 ++ tr2) = occasions P t tr1 ++ occasions P (t + obs_made tr1) tr2.
Proof.
  induction tr1 as [|e tr1 IH]; intros t tr2; [cbn; now rewrite Nat.add_0_r|]. unfold obs_made in *. destruct e; cbn [app occasions filter]; try apply IH.
  rewrite IH, <- app_assoc. cbn [length]. do 2 f_equal. f_equal. lia.
Qed.
Lemma hook_occ i n t t' : occasions P t (hook_evs i n t') = [] /\ obs_made (hook_evs i n t') = 0.
Proof. unfold hook_evs. revert i. induction n as [|n IH]; intros i; cbn [seq map occasions]; [auto|]. destruct (IH (S i)) as [A1 A2]. split; [exact A1|]. exact A2. Qed.
Lemma body_occ l w t s' tr x : train_body U P l (w, t) = (s', tr, Ok x) -> snd s' = S t /\ obs_made tr = 1 /\ eval_times tr = occasions P t tr.
Proof.
  intros H. unfold train_body in H.
  unfold pbind at 1 in H. unfold pcall at 1 in H. cbn [fst snd] in H. destruct (agent_act U (l_obs l) w) as [w1 [action|e1]]; [|discriminate].
  unfold pbind at 1 in H. unfold pcall at 1 in H. cbn [fst snd] in H. destruct (env_step U action w1) as [w2 [[[[obs r] done] nr]|e2]]; [|discriminate].
  unfold pbind at 1 in H. unfold pget_t at 1 in H. unfold pbind at 1 in H. unfold pset_t at 1 in H. cbn [fst snd] in H.
  set (reset := opt_eqb (S (l_len l)) (a_max_episode_len P) || nr) in *.
  unfold pbind at 1 in H. unfold pcall at 1 in H. cbn [fst snd] in H. destruct (agent_observe U obs r done reset w2) as [w3 [u|e3]]; [|discriminate].
  unfold pbind at 1 in H. destruct (run_hooks 0 (step_hooks U) (S t) (w3, S t)) as [[[w4 t4] hev] hres] eqn:Eh.
  destruct (run_hooks_ok _ _ _ _ _ _ _ Eh) as (Et4 & k & -> & Hk). cbn [snd] in Et4. subst t4. destruct hres as [u'|e4]; [|discriminate]. cbn zeta in H.
  destruct (hook_occ 0 k (S t) (S t)) as [O1 O2]. destruct (hook_evs_props 0 k (S t)) as (_ & _ & _ & O3 & _).
  set (ee := done || reset || (S t =? a_steps P)) in *. set (idx := if ee then S (l_idx l) else l_idx l) in *.
  unfold pbind at 1 in H. destruct (eval_block U P (S t) idx ee (l_hist l) (w4, S t)) as [[[w5 t5] eev] eres] eqn:Ee.
  assert (B : t5 = S t /\ eev = (if ee || a_eval_during_episode P then [EEval (S t) idx (match eres with Ok (h, _) => hd_error (skipn (length (l_hist l)) h) | Err _ => None end)] else [])).
  { clear H. unfold eval_block in Ee. rewrite HE in Ee. destruct (ee || a_eval_during_episode P); [|unfold pret in Ee; injection Ee as <- <- <- <-; auto].
    unfold pbind, pcall, pget_w, pret in Ee. cbn [fst snd] in Ee. destruct (f (S t) idx w4) as [w6 [sc|e]]; injection Ee as <- <- <- <-; (split; [reflexivity|]); [|reflexivity].
    destruct sc; [rewrite skipn_app, skipn_all2, Nat.sub_diag by lia; reflexivity|]. rewrite skipn_all2 by lia. reflexivity. }
  destruct B as [-> B]. destruct eres as [[hist brk]|e5]; [|discriminate].
  assert (R : exists nev, tr = EAct :: EStep (Some (r, done, nr)) :: EObserve r done reset :: hook_evs 0 k (S t) ++ eev ++ nev /\ snd s' = S t /\ obs_made nev = 0 /\ eval_times nev = [] /\ forall t, occasions P t nev = []).
  { destruct brk.
    - unfold pret in H. injection H as <- <- <-. exists []. repeat split.
    - destruct (next_block U P (S t) (S (l_len l)) idx obs ee hist (w5, S t)) as [[s6 nev] nres] eqn:En. injection H as <- <- ->. exists nev. split; [reflexivity|].
      unfold next_block in En. clear B Ee. clearbody idx ee. destruct (ee && (S t =? a_steps P)); [unfold pret in En; injection En as <- <- _; repeat split|].
      unfold pbind, pcall, pemit, pret in En. destruct ee; cbn [fst snd] in En; [destruct (env_reset U w5) as [w7 [o|e]]|]; try discriminate En; (destruct (checkpoint_due _ _)); (discriminate En || (injection En as <- <- _; repeat split)). }
  destruct R as (nev & -> & ST & N1 & N2 & N3). split; [exact ST|]. change (EAct :: EStep (Some (r, done, nr)) :: EObserve r done reset :: hook_evs 0 k (S t) ++ eev ++ nev) with ([EAct; EStep (Some (r, done, nr)); EObserve r done reset] ++ hook_evs 0 k (S t) ++ eev ++ nev).
  assert (OM : forall a b, obs_made (a ++ b) = obs_made a + obs_made b) by (intros; unfold obs_made; now rewrite filter_app, app_length).
  assert (OE : obs_made eev = 0 /\ forall t, occasions P t eev = []) by (rewrite B; destruct (ee || _); split; reflexivity). destruct OE as [OE1 OE2].
  split; [rewrite !OM, O2, OE1, N1; reflexivity|]. rewrite !occasions_app, !eval_times_app, O3, N2, N3, OE2, app_nil_r.
  change (obs_made [EAct; EStep (Some (r, done, nr)); EObserve r done reset]) with 1. replace (t + 1) with (S t) by lia. rewrite O1. cbn [occasions eval_times flat_map app]. fold ee. rewrite !app_nil_r, B. destruct (ee || _); reflexivity.
Qed.
Lemma loop_occ : forall fuel l w t s' tr x, train_loop U P fuel l (w, t) = (s', tr, Ok x) -> eval_times tr = occasions P t tr.
Proof.
  induction fuel as [|fuel IH]; intros l w t s' tr x H; cbn [train_loop] in H; unfold pbind at 1 in H; unfold pget_t in H; cbn [fst snd] in H; (destruct (t <? a_steps P); [|unfold pret in H; injection H as <- <- <-; reflexivity]).
  - discriminate.
  - unfold pbind in H. destruct (train_body U P l (w, t)) as [[[w1 t1] tr1] [[brk l1]|e]] eqn:Eb; [|discriminate]. destruct (body_occ _ _ _ _ _ _ Eb) as (B1 & B2 & B3). cbn [snd] in B1. subst t1. destruct brk.
    + unfold pret in H. injection H as <- <- <-. now rewrite app_nil_r.
    + destruct (train_loop U P fuel l1 (w1, S t)) as [[s2 tr2] [l2|e2]] eqn:El; [|discriminate]. injection H as <- <- <-. rewrite eval_times_app, occasions_app, B2, B3, (IH _ _ _ _ _ _ El). replace (t + 1) with (S t) by lia. reflexivity.
Qed.
Lemma train_occ w t0 s' tr x : train_agent U P (w, t0) = (s', tr, Ok x) -> eval_times tr = occasions P (a_offset P) tr.
Proof.
  intros H. unfold train_agent in H. unfold pbind at 1 in H. unfold pcall in H. cbn [fst snd] in H. destruct (env_reset U w) as [w1 [obs|e]]; [|discriminate].
  unfold pbind at 1 in H. unfold pset_t in H. cbn [fst snd] in H. unfold pbind at 1 in H.
  assert (X : forall ts, (ts = [] \/ ts = [ESetT (a_offset P)]) -> forall tr2, eval_times tr2 = occasions P (a_offset P) tr2 -> eval_times (EReset :: ts ++ tr2 ++ [ESave (snd s') Finish]) = occasions P (a_offset P) (EReset :: ts ++ tr2 ++ [ESave (snd s') Finish])).
  { intros ts C tr2 E. assert (G : eval_times (tr2 ++ [ESave (snd s') Finish]) = occasions P (a_offset P) (tr2 ++ [ESave (snd s') Finish])) by (rewrite eval_times_app, occasions_app, E; reflexivity).
    destruct C as [->| ->]; exact G. }
  destruct (agent_has_t U); unfold pemit, pret in H; (destruct (train_loop U P (a_steps P - a_offset P) (mkLoc obs 0 0 []) (w1, a_offset P)) as [[s2 tr2] [l2|e]] eqn:El; [|discriminate]); injection H as <- <- <-; pose proof (loop_occ _ _ _ _ _ _ _ El) as L; [apply (X [ESetT (a_offset P)])|apply (X [])]; auto.
Qed.

(** With evaluations at the ends of episodes only, the training environment is reset after every evaluation before it is used. *)
Definition used_after (used : bool) (tr : list ev) : bool := fold_left (fun b e => match e with EReset => false | EEval _ _ (Some _) => true | _ => b end) tr used.
Lemma undisturbed_app tr1 : forall used tr2, undisturbed used (tr1 ++ tr2) = undisturbed used tr1 && undisturbed (used_after used tr1) tr2.
Proof.
  unfold used_after. induction tr1 as [|e tr1 IH]; intros used tr2; [reflexivity|]. destruct e as [|?| |?|? ? ?|? ?|? ? [?|]|? ?]; cbn [app undisturbed fold_left]; try apply IH. now rewrite IH, andb_assoc.
Qed.
Lemma hook_und b i n t : undisturbed b (hook_evs i n t) = true /\ used_after b (hook_evs i n t) = b.
Proof. unfold hook_evs, used_after. revert i. induction n as [|n IH]; intros i; cbn [seq map undisturbed fold_left]; auto. Qed.
Context (DE : a_eval_during_episode P = false).
Lemma body_und l w t s' tr r : train_body U P l (w, t) = (s', tr, r) -> undisturbed false tr = true /\ (forall l', r = Ok (false, l') -> used_after false tr = false).
Proof.
  intros H. unfold train_body in H.
  unfold pbind at 1 in H. unfold pcall at 1 in H. cbn [fst snd] in H. destruct (agent_act U (l_obs l) w) as [w1 [action|e1]]; [|injection H as <- <- <-; split; [reflexivity|discriminate]].
  unfold pbind at 1 in H. unfold pcall at 1 in H. cbn [fst snd] in H. destruct (env_step U action w1) as [w2 [[[[obs rw] done] nr]|e2]]; [|injection H as <- <- <-; split; [reflexivity|discriminate]].
  unfold pbind at 1 in H. unfold pget_t at 1 in H. unfold pbind at 1 in H. unfold pset_t at 1 in H. cbn [fst snd] in H.
  set (reset := opt_eqb (S (l_len l)) (a_max_episode_len P) || nr) in *.
  unfold pbind at 1 in H. unfold pcall at 1 in H. cbn [fst snd] in H. destruct (agent_observe U obs rw done reset w2) as [w3 [u|e3]]; [|injection H as <- <- <-; split; [reflexivity|discriminate]].
  unfold pbind at 1 in H. destruct (run_hooks 0 (step_hooks U) (S t) (w3, S t)) as [[[w4 t4] hev] hres] eqn:Eh.
  destruct (run_hooks_ok _ _ _ _ _ _ _ Eh) as (Et4 & k & -> & Hk). cbn [snd] in Et4. subst t4. destruct (hook_und false 0 k (S t)) as [O1 O2].
  destruct hres as [u'|e4]; [|injection H as <- <- <-; split; [exact O1|discriminate]]. cbn zeta in H.
  set (ee := done || reset || (S t =? a_steps P)) in *. set (idx := if ee then S (l_idx l) else l_idx l) in *.
  unfold pbind at 1 in H. destruct (eval_block U P (S t) idx ee (l_hist l) (w4, S t)) as [[[w5 t5] eev] eres] eqn:Ee.
  assert (B : (ee = false -> eev = []) /\ undisturbed false eev = true).
  { clear H. unfold eval_block in Ee. rewrite HE in Ee. rewrite DE, orb_false_r in Ee. destruct ee; [|unfold pret in Ee; injection Ee as <- <- <- <-; auto]. split; [discriminate|].
    unfold pbind, pcall, pget_w, pret in Ee. cbn [fst snd] in Ee. destruct (f (S t) idx w4) as [w6 [[sc|]|e]]; injection Ee as <- <- <- <-; reflexivity. }
  destruct B as [B1 B2].
  assert (PRE : forall x, undisturbed false (EAct :: EStep (Some (rw, done, nr)) :: EObserve rw done reset :: hook_evs 0 k (S t) ++ eev ++ x) = undisturbed (used_after false eev) x /\
                         used_after false (EAct :: EStep (Some (rw, done, nr)) :: EObserve rw done reset :: hook_evs 0 k (S t) ++ eev ++ x) = used_after (used_after false eev) x).
  { intros x. cbn [undisturbed negb andb]. rewrite !undisturbed_app, O1, O2, B2. split; [reflexivity|]. unfold used_after at 1. cbn [fold_left]. rewrite !fold_left_app. unfold used_after in *. now rewrite O2. }
  destruct eres as [[hist brk]|e5]; [|injection H as <- <- <-; split; [|discriminate]; destruct (PRE []) as [X _]; rewrite app_nil_r in X; rewrite X; reflexivity].
  destruct brk.
  - unfold pret in H. injection H as <- <- <-. split; [|discriminate]. destruct (PRE []) as [X _]. rewrite X. reflexivity.
  - destruct (next_block U P (S t) (S (l_len l)) idx obs ee hist (w5, t5)) as [[s6 nev] nres] eqn:En. injection H as <- <- <-. destruct (PRE nev) as [X1 X2]. cbn [app] in *. rewrite X1. setoid_rewrite X2.
    unfold next_block in En. destruct (ee && (S t =? a_steps P)) eqn:EB; [unfold pret in En; injection En as <- <- <-; split; [reflexivity|discriminate]|].
    unfold pbind, pcall, pemit, pret in En. clearbody idx ee. destruct ee; cbn [fst snd] in En.
    + destruct (env_reset U w5) as [w7 [o|e]]; [destruct (checkpoint_due _ _)|]; injection En as <- <- <-; (split; [reflexivity|]); intros; try discriminate; reflexivity.
    + rewrite (B1 eq_refl). destruct (checkpoint_due _ _); injection En as <- <- <-; (split; [reflexivity|]); intros; reflexivity.
Qed.
Lemma loop_und : forall fuel l w t s' tr r, train_loop U P fuel l (w, t) = (s', tr, r) -> undisturbed false tr = true.
Proof.
  induction fuel as [|fuel IH]; intros l w t s' tr r H; cbn [train_loop] in H; unfold pbind at 1 in H; unfold pget_t in H; cbn [fst snd] in H; (destruct (t <? a_steps P); [|unfold pret in H; injection H as <- <- <-; reflexivity]).
  - injection H as <- <- <-. reflexivity.
  - unfold pbind in H. destruct (train_body U P l (w, t)) as [[[w1 t1] tr1] [[brk l1]|e]] eqn:Eb; destruct (body_und _ _ _ _ _ _ Eb) as (B1 & B2); [|injection H as <- <- <-; exact B1]. destruct brk.
    + unfold pret in H. injection H as <- <- <-. now rewrite app_nil_r.
    + destruct (train_loop U P fuel l1 (w1, t1)) as [[s2 tr2] r2] eqn:El. injection H as <- <- <-. rewrite undisturbed_app, B1, (B2 _ eq_refl), (IH _ _ _ _ _ _ El). reflexivity.
Qed.
Lemma train_und w t0 s' tr r : train_agent U P (w, t0) = (s', tr, r) -> undisturbed false tr = true.
Proof.
  intros H. unfold train_agent in H. unfold pbind at 1 in H. unfold pcall in H. cbn [fst snd] in H. destruct (env_reset U w) as [w1 [obs|e]]; [|injection H as <- <- <-; reflexivity].
  unfold pbind at 1 in H. unfold pset_t in H. cbn [fst snd] in H. unfold pbind at 1 in H.
  assert (X : forall tr2 x, undisturbed false tr2 = true -> (x = Finish \/ x = Except) -> undisturbed false (tr2 ++ [ESave (snd s') x]) = true) by (intros tr2 x E _; rewrite undisturbed_app, E; reflexivity).
  destruct (agent_has_t U); unfold pemit, pret in H; destruct (train_loop U P (a_steps P - a_offset P) (mkLoc obs 0 0 []) (w1, a_offset P)) as [[s2 tr2] [l2|e]] eqn:El; injection H as <- <- <-; pose proof (loop_und _ _ _ _ _ _ _ El) as L; cbn [app undisturbed]; apply X; auto.
Qed.
End Occasions.

(** ** train_agent_batch *)
Section Batch.
Context {W Ob A : Type} (U : buserland W Ob A) (P : train_args) (EU : evuser W) (EP : evargs).
Notation V := (with_bevaluator U EU EP).
Definition req2 (e : bev) : list (nat * nat * option Q) := match e with BEval t ep s => [(t, ep, s)] | _ => [] end.
Notation ok := (good EU EP req2).
Lemma bgood_hooks t : forall hs i, ok (brun_hooks i (map (fun h t => lift (h t)) hs) t).
Proof. induction hs as [|h hs IH]; intros i; cbn [map brun_hooks]; [apply good_ret|]. apply good_bind; [now apply good_call|]. intros _. apply IH. Qed.
Lemma bgood_ticks : forall n, ok (tick_block V P n).
Proof.
  induction n as [|n IH]; cbn [tick_block]; [apply good_ret|]. apply good_bind; [apply good_get_t|]. intros t. apply good_bind; [apply good_set_t|]. intros _.
  apply good_bind; [destruct (checkpoint_due _ _); [now apply good_emit|apply good_ret]|]. intros _. apply good_bind; [apply bgood_hooks|]. intros _. exact IH.
Qed.
Lemma bgood_body l : ok (batch_body V P l).
Proof.
  unfold batch_body. apply good_bind; [now apply good_call|]. intros a. apply good_bind; [now apply good_call|]. intros outs. cbv zeta.
  apply good_bind; [now apply good_call|]. intros _. apply good_bind; [apply bgood_ticks|]. intros _. apply good_bind; [apply good_get_t|]. intros t. apply good_bind.
  - unfold beval_block. cbn [with_bevaluator bevaluator]. apply good_bind; [now apply good_consult|]. intros [sc|]; [|apply good_ret]. apply good_bind; [apply good_get_w|]. intros w. apply good_ret.
  - intros [hist brk]. destruct brk; [apply good_ret|]. destruct (a_steps P <=? t); [apply good_ret|]. apply good_bind; [now apply good_call|]. intros o. apply good_ret.
Qed.
Lemma bgood_loop : forall fuel l, ok (batch_loop V P fuel l).
Proof.
  induction fuel as [|fuel IH]; intros l; cbn [batch_loop]; [intros s s' tr x H; discriminate|]. apply good_bind; [apply bgood_body|]. intros [brk l']. destruct brk; [apply good_ret|apply IH].
Qed.
Lemma bgood_train : ok (train_agent_batch V P).
Proof.
  unfold train_agent_batch. apply good_bind; [now apply good_call|]. intros obs. apply good_bind; [apply good_set_t|]. intros _. apply good_bind; [destruct (bagent_has_t V); [now apply good_emit|apply good_ret]|].
  intros _ s s' tr x H. destruct (batch_loop V P _ _ s) as ((s1, l1), [l|e]) eqn:E; [|discriminate]. injection H as <- <- <-. rewrite flat_map_app. cbn [flat_map req2 app]. rewrite app_nil_r. exact (bgood_loop _ _ _ _ _ _ E).
Qed.
End Batch.

(** One request after every step of the vector environment. *)
Section BTimes.
Context {W Ob A : Type} (U : buserland W Ob A) (P : train_args) (f : nat -> nat -> W -> W * result (option Q)) (HE : bevaluator U = Some f).
Definition quiet (tr : list bev) : Prop := beval_times tr = [] /\ bsteps_made tr = 0.
Lemma quiet_app a b : quiet a -> quiet b -> quiet (a ++ b).
Proof. intros [A1 A2] [B1 B2]. split; [unfold beval_times in *; now rewrite flat_map_app, A1, B1|]. unfold bsteps_made in *. rewrite filter_app, app_length. lia. Qed.
Lemma hooks_quiet t : forall hs i (s s' : W * nat) tr r, brun_hooks i hs t s = (s', tr, r) -> quiet tr /\ snd s' = snd s.
Proof.
  induction hs as [|h hs IH]; intros i s s' tr r H; cbn [brun_hooks] in H; [unfold pret in H; injection H as <- <- <-; repeat split|].
  unfold pbind, pcall in H. destruct (h t (fst s)) as [w1 [u|e]]; [|injection H as <- <- <-; repeat split].
  destruct (brun_hooks (S i) hs t (w1, snd s)) as [[s2 l2] r2] eqn:Er. injection H as <- <- <-. destruct (IH _ _ _ _ _ Er) as [Q1 Q2]. split; [apply (quiet_app [BHook i t]); [split; reflexivity|exact Q1]|exact Q2].
Qed.
Lemma ticks_quiet : forall n (s s' : W * nat) tr, tick_block U P n s = (s', tr, Ok tt) -> quiet tr /\ snd s' = snd s + n.
Proof.
  induction n as [|n IH]; intros s s' tr H; cbn [tick_block] in H; [unfold pret in H; injection H as <- <-; split; [split; reflexivity|lia]|].
  unfold pbind at 1 in H. unfold pget_t in H. unfold pbind at 1 in H. unfold pset_t in H. unfold pbind at 1 in H. cbn [fst snd] in H.
  assert (C : exists ts, (if checkpoint_due (a_checkpoint_freq P) (S (snd s)) then pemit (BSave (S (snd s)) Checkpoint) else pret tt) (fst s, S (snd s)) = ((fst s, S (snd s)), ts, Ok tt) /\ quiet ts).
  { destruct (checkpoint_due _ _); eexists; (split; [reflexivity|]); split; reflexivity. }
  destruct C as (ts & C & QC). rewrite C in H. unfold pbind at 1 in H. destruct (brun_hooks 0 (bstep_hooks U) (S (snd s)) (fst s, S (snd s))) as [[s2 l2] [u|e]] eqn:Er; [|discriminate].
  destruct (hooks_quiet _ _ _ _ _ _ _ Er) as [Q1 Q2]. destruct (tick_block U P n s2) as [[s3 l3] r3] eqn:Et. injection H as <- <- ->. destruct (IH _ _ _ Et) as [Q3 Q4]. cbn [snd] in Q2.
  split; [cbn [app]; apply quiet_app; [exact QC|]; apply quiet_app; [exact Q1|exact Q3]|lia].
Qed.
Lemma batch_body_times l w t s' tr x : batch_body U P l (w, t) = (s', tr, Ok x) -> snd s' = t + num_envs U /\ bsteps_made tr = 1 /\ beval_times tr = [t + num_envs U].
Proof.
  intros H. unfold batch_body in H.
  unfold pbind at 1 in H. unfold pcall at 1 in H. cbn [fst snd] in H. destruct (batch_act U (bl_obss l) w) as [w1 [action|e1]]; [|discriminate].
  unfold pbind at 1 in H. unfold pcall at 1 in H. cbn [fst snd] in H. destruct (benv_step U action w1) as [w2 [outs|e2]]; [|discriminate]. cbv zeta in H.
  unfold pbind at 1 in H. unfold pcall at 1 in H. cbn [fst snd] in H. match type of H with context [batch_observe U ?a ?b ?c ?d w2] => destruct (batch_observe U a b c d w2) as [w3 [u|e3]] eqn:Eo; [|discriminate] end. clear Eo.
  unfold pbind at 1 in H. destruct (tick_block U P (num_envs U) (w3, t)) as [[[w4 t4] tev] [u'|e4]] eqn:Et; [|discriminate]. destruct u'. destruct (ticks_quiet _ _ _ _ Et) as [[Q1 Q1'] Q2]. cbn [snd] in Q2. subst t4.
  unfold pbind at 1 in H. unfold pget_t at 1 in H. cbn [snd] in H. unfold pbind at 1 in H.
  match type of H with context [beval_block U P ?a ?b ?c ?d] => destruct (beval_block U P a b c d) as [[[w5 t5] eev] [[hist brk]|e5]] eqn:Ee; [|discriminate] end.
  assert (B : t5 = t + num_envs U /\ beval_times eev = [t + num_envs U] /\ bsteps_made eev = 0).
  { clear H. unfold beval_block in Ee. rewrite HE in Ee. unfold pbind, pcall, pget_w, pret in Ee. cbn [fst snd] in Ee. match type of Ee with context [f ?a ?b ?c] => destruct (f a b c) as [w6 [[sc|]|e]]; [| |discriminate] end; injection Ee as <- <- <- _ _; repeat split. }
  destruct B as (-> & B1 & B2).
  assert (R : forall nev, quiet nev -> forall a, beval_times [a] = [] -> bsteps_made [a] = 0 -> bsteps_made (BAct :: BStep (Some (map (fun '(_, r, d, n) => (r, d, n)) outs)) :: a :: tev ++ eev ++ nev) = 1 /\ beval_times (BAct :: BStep (Some (map (fun '(_, r, d, n) => (r, d, n)) outs)) :: a :: tev ++ eev ++ nev) = [t + num_envs U]).
  { intros nev [N1 N2] a A1 A2. set (b := BStep _). change (BAct :: b :: a :: tev ++ eev ++ nev) with ([BAct; b] ++ [a] ++ tev ++ eev ++ nev). unfold bsteps_made, beval_times in *. rewrite !filter_app, !app_length, !flat_map_app, A1, A2, Q1, Q1', B1, B2, N1, N2. split; reflexivity. }
  destruct brk; [|destruct (a_steps P <=? t + num_envs U)].
  - unfold pret in H. injection H as <- <- <-. split; [reflexivity|]. apply R; [split|..]; reflexivity.
  - unfold pret in H. injection H as <- <- <-. split; [reflexivity|]. apply R; [split|..]; reflexivity.
  - unfold pbind, pcall, pret in H. cbn [fst snd] in H. match type of H with context [benv_reset U ?m w5] => destruct (benv_reset U m w5) as [w7 [o|e]]; [|discriminate] end. injection H as <- <- <-. split; [reflexivity|]. apply R; [split|..]; reflexivity.
Qed.
Lemma batch_loop_times : forall fuel l w t s' tr x, batch_loop U P fuel l (w, t) = (s', tr, Ok x) -> beval_times tr = map (fun i => t + i * num_envs U) (seq 1 (bsteps_made tr)).
Proof.
  induction fuel as [|fuel IH]; intros l w t s' tr x H; cbn [batch_loop] in H; [discriminate|].
  unfold pbind in H. destruct (batch_body U P l (w, t)) as [[[w1 t1] tr1] [[brk l1]|e]] eqn:Eb; [|discriminate]. destruct (batch_body_times _ _ _ _ _ _ Eb) as (B1 & B2 & B3). cbn [snd] in B1. subst t1. destruct brk.
  - unfold pret in H. injection H as <- <- <-. rewrite app_nil_r, B2, B3. cbn. now rewrite Nat.add_0_r.
  - destruct (batch_loop U P fuel l1 (w1, t + num_envs U)) as [[s2 tr2] [l2|e2]] eqn:El; [|discriminate]. injection H as <- <- <-. pose proof (IH _ _ _ _ _ _ El) as X. unfold beval_times, bsteps_made in *. rewrite flat_map_app, filter_app, app_length, B2, B3, X.
    cbn [Nat.add seq map app]. f_equal; [lia|]. rewrite <- (seq_shift _ 1), map_map. apply map_ext. intros i. lia.
Qed.
Lemma batch_train_times w t0 s' tr x : train_agent_batch U P (w, t0) = (s', tr, Ok x) -> beval_times tr = map (fun i => a_offset P + i * num_envs U) (seq 1 (bsteps_made tr)).
Proof.
  intros H. unfold train_agent_batch in H. unfold pbind at 1 in H. unfold pcall in H. cbn [fst snd] in H. destruct (benv_reset U None w) as [w1 [obs|e]]; [|discriminate].
  unfold pbind at 1 in H. unfold pset_t in H. cbn [fst snd] in H. unfold pbind at 1 in H.
  assert (X : forall ts, (ts = [] \/ ts = [BSetT (a_offset P)]) -> forall tr2 tr', beval_times tr2 = map (fun i => a_offset P + i * num_envs U) (seq 1 (bsteps_made tr2)) -> tr' = BReset None :: ts ++ tr2 ++ [BSave (snd s') Finish] -> beval_times tr' = map (fun i => a_offset P + i * num_envs U) (seq 1 (bsteps_made tr'))).
  { intros ts C tr2 tr' E ->. assert (G : beval_times (tr2 ++ [BSave (snd s') Finish]) = beval_times tr2 /\ bsteps_made (tr2 ++ [BSave (snd s') Finish]) = bsteps_made tr2).
    { unfold beval_times, bsteps_made. rewrite flat_map_app, filter_app, app_length. cbn. now rewrite app_nil_r, Nat.add_0_r. }
    destruct G as [G1 G2]. destruct C as [->| ->]; [change (beval_times (tr2 ++ [BSave (snd s') Finish]) = map (fun i => a_offset P + i * num_envs U) (seq 1 (bsteps_made (tr2 ++ [BSave (snd s') Finish]))))|change (beval_times (tr2 ++ [BSave (snd s') Finish]) = map (fun i => a_offset P + i * num_envs U) (seq 1 (bsteps_made (tr2 ++ [BSave (snd s') Finish]))))]; now rewrite G1, G2. }
  destruct (bagent_has_t U); unfold pemit, pret in H; (destruct (batch_loop U P (S (a_steps P - a_offset P)) (mkBLoc obs (repeat 0 (num_envs U)) 0 []) (w1, a_offset P)) as [[s2 tr2] [l2|e]] eqn:El; [|discriminate]); injection H as <- <- <-; pose proof (batch_loop_times _ _ _ _ _ _ _ El) as L; [apply (X [BSetT (a_offset P)] ltac:(auto) tr2)|apply (X [] ltac:(auto) tr2)]; auto.
Qed.
End BTimes.

(** ** Evaluations that leave a part of the world alone *)
Section Keep.
Context {W X : Type} (part : W -> X).
Definition keeps_call {Y} (f : W -> W * result Y) : Prop := forall w, part (fst (f w)) = part w.
Definition keeps {E Y} (m : @prog W E Y) : Prop := forall s, part (fst (fst (fst (m s)))) = part (fst s).
Lemma keeps_ret {E Y} (y : Y) : keeps (E := E) (pret y). Proof. intros s. reflexivity. Qed.
Lemma keeps_bind {E Y Z} (m : @prog W E Y) (k : Y -> prog Z) : keeps m -> (forall y, keeps (k y)) -> keeps (pbind m k).
Proof. intros M K s. unfold pbind. specialize (M s). destruct (m s) as ((s1, l1), [y|e]); [|exact M]. specialize (K y s1). destruct (k y s1) as ((s2, l2), r). cbn in *. congruence. Qed.
Lemma keeps_pcall {E Y} (v : result Y -> E) f : keeps_call f -> keeps (pcall v f).
Proof. intros F s. specialize (F (fst s)). unfold pcall. destruct (f (fst s)) as (w, r). exact F. Qed.
Lemma keeps_lift {E Y} (r : result Y) : keeps (fun s => (s, @nil E, r)). Proof. intros s. reflexivity. Qed.

Lemma keeps_run {Ob A} (U : userland W Ob A) M len fuel : keeps_call (env_reset U) -> (forall o, keeps_call (agent_act U o)) -> (forall a, keeps_call (env_step U a)) ->
  (forall o r d b, keeps_call (agent_observe U o r d b)) -> keeps (run_episodes U M len fuel).
Proof.
  intros K1 K2 K3 K4. unfold run_episodes. generalize (@None (Ob * Q * nat)) 0 (@nil (Q * nat)). induction fuel as [|fuel IH]; intros cur ts sc; cbn [eval_loop]; [apply keeps_lift|].
  apply keeps_bind; [destruct cur; [apply keeps_ret|]; apply keeps_bind; [now apply keeps_pcall|]; intros; apply keeps_ret|]. intros [[o r] l]. apply keeps_bind; [now apply keeps_pcall|]. intros a.
  apply keeps_bind; [now apply keeps_pcall|]. intros [[[o' r'] d] n]. cbv zeta. apply keeps_bind; [now apply keeps_pcall|]. intros _. match goal with |- keeps (if ?b then _ else _) => destruct b end; [apply keeps_ret|apply IH].
Qed.
Lemma keeps_brun {Ob A} (U : buserland W Ob A) M len fuel : (forall m, keeps_call (benv_reset U m)) -> (forall o, keeps_call (batch_act U o)) -> (forall a, keeps_call (benv_step U a)) ->
  (forall o r d b, keeps_call (batch_observe U o r d b)) -> keeps (batch_run_episodes U M len fuel).
Proof.
  intros K1 K2 K3 K4. unfold batch_run_episodes. apply keeps_bind; [now apply keeps_pcall|]. intros obss. generalize (mkELoc [] (seq 0 (num_envs U)) (num_envs U) (repeat 0%Q (num_envs U)) (repeat 0 (num_envs U))). revert obss.
  induction fuel as [|fuel IH]; intros obss l; cbn [batch_eval_loop]; [apply keeps_lift|].
  apply keeps_bind; [now apply keeps_pcall|]. intros a. apply keeps_bind; [now apply keeps_pcall|]. intros outs. destruct (account U len l outs) as ((l', resets), ends). apply keeps_bind; [apply keeps_lift|]. intros [te vs].
  cbv zeta. apply keeps_bind; [now apply keeps_pcall|]. intros _. destruct te; [apply keeps_ret|]. apply keeps_bind; [now apply keeps_pcall|]. intros o. apply IH.
Qed.
Lemma keeps_hooks t m : forall hs i w, Forall (fun h => forall t m, keeps_call (h t m)) hs -> part (fst (fst (ev_run_hooks i hs t m w))) = part w.
Proof.
  induction hs as [|h hs IH]; intros i w F; cbn [ev_run_hooks]; [reflexivity|]. inversion F as [|? ? F1 F2]; subst. specialize (F1 t m w). destruct (h t m w) as (w1, [u|e]); [|exact F1]. specialize (IH (S i) w1 F2).
  destruct (ev_run_hooks (S i) hs t m w1) as ((w2, es), r). cbn in *. congruence.
Qed.
Lemma keeps_consult EU EP t ep ws : keeps_call (ev_scores EU) -> Forall (fun h => forall t m, keeps_call (h t m)) (ev_hooks EU) -> part (fst (fst (consult EU EP t ep ws))) = part (fst ws).
Proof.
  intros K1 K2. unfold consult, evaluate_if_necessary. destruct (_ <=? t); [|reflexivity]. unfold evaluate_and_update. specialize (K1 (fst ws)). destruct (ev_scores EU (fst ws)) as (w1, [sc|e]); [|exact K1].
  destruct (mean_of sc) as [m|]; [|exact K1]. pose proof (keeps_hooks t m (ev_hooks EU) 0 w1 K2) as K3. destruct (ev_run_hooks 0 (ev_hooks EU) t m w1) as ((w2, es), [u|e]); cbn in *; [destruct (negb _)|]; cbn; congruence.
Qed.
End Keep.

(** ** The properties *)
Lemma first_call {W E X Y} (e : E) (f : W -> W * result X) (k : X -> prog Y) s s' tr r : pbind (pcall (fun _ => e) f) k s = (s', tr, r) -> exists tr', tr = e :: tr'.
Proof.
  unfold pbind, pcall. destruct (f (fst s)) as (w, [x|x]); [|intros H; injection H as <- <- <-; eauto]. destruct (k x (w, snd s)) as ((s2, l2), r2). intros H. injection H as <- <- <-. cbn. eauto.
Qed.

(** Wrong arguments raise before anything is called: a hook that does not support the function, the training environment shared with evaluations in the middle
    of episodes, not exactly one of n_steps and n_episodes, interval 0.  Otherwise the training environment is reset. *)
Theorem C102_arguments {W Ob A} (U : userland W Ob A) P EA hooks eval_act eval_observe eval_env fuel w t0 :
  let run := train_agent_with_evaluation U P EA hooks eval_act eval_observe eval_env fuel w t0 in
  (existsb (fun h => negb (h_train h)) hooks = true -> run = (w, [], Err ValueError)) /\
  (forallb h_train hooks = true -> eval_env = None -> a_eval_during_episode P = true -> run = (w, [], Err AssertionError)) /\
  (forallb h_train hooks = true -> (eval_env = None -> a_eval_during_episode P = false) ->
     ((e_n_steps EA = None <-> e_n_episodes EA = None) -> run = (w, [], Err AssertionError)) /\
     (~ (e_n_steps EA = None <-> e_n_episodes EA = None) ->
        (e_interval EA = 0 -> run = (w, [], Err ZeroDivisionError)) /\
        (e_interval EA <> 0 -> exists tr, snd (fst run) = EReset :: tr))).
Proof.
  cbv zeta. unfold train_agent_with_evaluation. split; [|split].
  - intros H. replace (forallb h_train hooks) with false; [reflexivity|]. symmetry. apply not_true_is_false. intros F. rewrite forallb_forall in F. apply existsb_exists in H. destruct H as (h & I & N). rewrite (F h I) in N. discriminate.
  - intros -> -> ->. reflexivity.
  - intros -> D. cbn [negb]. assert (D' : match eval_env with None => a_eval_during_episode P | Some _ => false end = false) by (destruct eval_env; auto). rewrite D'. unfold eval_mode. split.
    + destruct (e_n_steps EA), (e_n_episodes EA); intros [X Y]; try reflexivity; [discriminate (Y eq_refl)|discriminate (X eq_refl)].
    + intros N. assert (EM : exists m, match e_n_steps EA, e_n_episodes EA with Some n, None => Ok (NSteps n) | None, Some n => Ok (NEpisodes n) | _, _ => Err AssertionError end = Ok m).
      { destruct (e_n_steps EA), (e_n_episodes EA); eauto; exfalso; apply N; split; auto; discriminate. }
      destruct EM as (m & ->). unfold evaluator_init. cbn [evargs_of ev_interval]. split; [intros ->; reflexivity|]. intros I. destruct (Nat.eqb_spec (e_interval EA) 0) as [|_]; [contradiction|].
      set (V := with_evaluator _ _ _). destruct (train_agent V P _) as ((s, tr), r) eqn:E. cbn [fst snd]. exact (first_call _ _ _ _ _ _ _ E).
Qed.
Theorem C102_batch_arguments {W Ob A} (U : buserland W Ob A) P EA hooks eval_act eval_observe eval_env fuel w t0 :
  let run := train_agent_batch_with_evaluation U P EA hooks eval_act eval_observe eval_env fuel w t0 in
  (existsb (fun h => negb (h_batch h)) hooks = true -> run = (w, [], Err ValueError)) /\
  (forallb h_batch hooks = true -> (e_n_steps EA = None <-> e_n_episodes EA = None) -> run = (w, [], Err AssertionError)) /\
  (forallb h_batch hooks = true -> ~ (e_n_steps EA = None <-> e_n_episodes EA = None) ->
     (e_interval EA = 0 -> run = (w, [], Err ZeroDivisionError)) /\ (e_interval EA <> 0 -> exists tr, snd (fst run) = BReset None :: tr)).
Proof.
  cbv zeta. unfold train_agent_batch_with_evaluation. split; [|split].
  - intros H. replace (forallb h_batch hooks) with false; [reflexivity|]. symmetry. apply not_true_is_false. intros F. rewrite forallb_forall in F. apply existsb_exists in H. destruct H as (h & I & N). rewrite (F h I) in N. discriminate.
  - intros -> X. cbn [negb]. unfold eval_mode. destruct (e_n_steps EA), (e_n_episodes EA); destruct X as [X Y]; try reflexivity; [discriminate (Y eq_refl)|discriminate (X eq_refl)].
  - intros -> N. cbn [negb]. unfold eval_mode. assert (EM : exists m, match e_n_steps EA, e_n_episodes EA with Some n, None => Ok (NSteps n) | None, Some n => Ok (NEpisodes n) | _, _ => Err AssertionError end = Ok m).
    { destruct (e_n_steps EA), (e_n_episodes EA); eauto; exfalso; apply N; split; auto; discriminate. }
    destruct EM as (m & ->). unfold evaluator_init. cbn [evargs_of ev_interval]. split; [intros ->; reflexivity|]. intros I. destruct (Nat.eqb_spec (e_interval EA) 0) as [|_]; [contradiction|].
    set (V := with_bevaluator _ _ _). destruct (train_agent_batch V P _) as ((s, tr), r) eqn:E. cbn [fst snd]. exact (first_call _ _ _ _ _ _ _ E).
Qed.

(** Let training return.  The agent is evaluated on request only, and requests are made at every end of an episode (with eval_during_episode: after every step);
    there is an evaluation at the first request in a new interval of [eval_interval] steps, and at no other; the history returned are the scores of these evaluations;
    each score is the mean of the returns of a run of evaluation episodes; training ended early only if a score reached the successful score. *)
Definition reached (P : train_args) (hist : list Q) : Prop := exists sc, a_successful P = Some sc /\ ((sc <= float32_min)%Q \/ exists m, In m hist /\ (sc <= m)%Q).
Theorem C102_schedule {W Ob A} (U : userland W Ob A) P EA hooks eval_act eval_observe eval_env fuel w t0 w' tr hist :
  train_agent_with_evaluation U P EA hooks eval_act eval_observe eval_env fuel w t0 = (w', tr, Ok hist) ->
  map at_time (requests tr) = occasions P (a_offset P) tr /\ on_schedule (e_interval EA) (a_offset P) (requests tr) /\ hist = scored (requests tr) /\
  (exists m, eval_mode EA = Ok m /\ Forall (fun x => exists w1 w2 l, scores U P EA eval_act eval_observe eval_env fuel m w1 = (w2, Ok l) /\ l <> [] /\ (x * inject_Z (Z.of_nat (length l)) == total l)%Q) hist) /\
  (steps_made tr = a_steps P - a_offset P \/ reached P hist).
Proof.
  unfold train_agent_with_evaluation. destruct (negb _); [discriminate|]. destruct (match eval_env with None => _ | Some _ => _ end); [discriminate|]. destruct (eval_mode EA) as [m|] eqn:EM; [|discriminate].
  destruct (evaluator_init (evargs_of P EA)) as [s0|] eqn:EI; [|discriminate]. set (EU := mkEv _ _). destruct (train_agent _ P (w, s0, t0)) as ((s, tr'), r) eqn:E. intros H. injection H as <- <- ->.
  assert (HI : 1 <= ev_interval (evargs_of P EA)) by (unfold evaluator_init in EI; destruct (_ =? 0) eqn:Z in EI; [discriminate|cbn in *; lia]).
  pose proof (good_train U P EU (evargs_of P EA) _ _ _ _ E) as CH. cbn [fst snd] in CH.
  destruct (chain_init EU (evargs_of P EA) _ _ _ HI EI CH) as (A1 & A2 & A3). pose proof (train_occ (with_evaluator U EU (evargs_of P EA)) P _ eq_refl _ _ _ _ _ E) as O.
  pose proof (train_agent_ok _ _ _ _ _ _ _ E) as [(T1 & T2 & T3 & _ & _ & T6) _].
  assert (RQ : flat_map req1 tr' = requests tr') by reflexivity. rewrite RQ in *.
  assert (HS : hist = scored (requests tr')). { rewrite T6. clear. induction tr' as [|[|?| |?|? ? ?|? ?|? ? [?|]|? ?] tr IH]; cbn; try apply IH; [reflexivity|]. f_equal. apply IH. }
  split; [rewrite <- O; clear; induction tr' as [|[|?| |?|? ? ?|? ?|? ? ?|? ?] tr IH]; cbn; try apply IH; [reflexivity|]; f_equal; apply IH|]. split; [exact A1|]. split; [exact HS|]. split.
  - exists m. split; [reflexivity|]. rewrite HS. exact A3.
  - rewrite T2. destruct T3 as [T3|(_ & sc & S1 & S2)]; [left; lia|right]. exists sc. split; [exact S1|]. cbn [max_score with_evaluator] in S2. destruct A2 as (_ & [M|M] & _); [left; now rewrite <- M|right]. rewrite HS. eauto.
Qed.
(** The same for several environments; requests are made after every step of the vector environment. *)
Theorem C102_batch_schedule {W Ob A} (U : buserland W Ob A) P EA hooks eval_act eval_observe eval_env fuel w t0 w' tr hist : env_complete U -> 0 < num_envs U ->
  train_agent_batch_with_evaluation U P EA hooks eval_act eval_observe eval_env fuel w t0 = (w', tr, Ok hist) ->
  map at_time (brequests tr) = map (fun i => a_offset P + i * num_envs U) (seq 1 (bsteps_made tr)) /\ on_schedule (e_interval EA) (a_offset P) (brequests tr) /\ hist = scored (brequests tr) /\
  (exists m, eval_mode EA = Ok m /\ Forall (fun x => exists w1 w2 l, bscores U P EA eval_act eval_observe eval_env fuel m w1 = (w2, Ok l) /\ l <> [] /\ (x * inject_Z (Z.of_nat (length l)) == total l)%Q) hist) /\
  (a_steps P <= a_offset P + bsteps_made tr * num_envs U \/ reached P hist).
Proof.
  intros EC EN. unfold train_agent_batch_with_evaluation. destruct (negb _); [discriminate|]. destruct (eval_mode EA) as [m|] eqn:EM; [|discriminate].
  destruct (evaluator_init (evargs_of P EA)) as [s0|] eqn:EI; [|discriminate]. set (EU := mkEv _ _). destruct (train_agent_batch _ P (w, s0, t0)) as ((s, tr'), r) eqn:E. intros H. injection H as <- <- ->.
  assert (HI : 1 <= ev_interval (evargs_of P EA)) by (unfold evaluator_init in EI; destruct (_ =? 0) eqn:Z in EI; [discriminate|cbn in *; lia]).
  pose proof (bgood_train U P EU (evargs_of P EA) _ _ _ _ E) as CH. cbn [fst snd] in CH.
  destruct (chain_init EU (evargs_of P EA) _ _ _ HI EI CH) as (A1 & A2 & A3). pose proof (batch_train_times (with_bevaluator U EU (evargs_of P EA)) P _ eq_refl _ _ _ _ _ E) as O.
  assert (EC' : env_complete (with_bevaluator U EU (evargs_of P EA))). { intros a [w1 s1] w2 outs. cbn. unfold lift. cbn. destruct (benv_step U a w1) as (w3, r3) eqn:X. intros Y. injection Y as <- ->. exact (EC _ _ _ _ X). }
  pose proof (train_batch_ok _ _ EC' EN _ _ _ _ _ E) as [(n & T1 & T2 & T3 & _ & T4 & _ & _ & T6) _].
  assert (RQ : flat_map req2 tr' = brequests tr') by reflexivity. rewrite RQ in *.
  assert (HS : hist = scored (brequests tr')). { rewrite T6. clear. induction tr' as [|[?|?| |?|? ? ?|? ?|? ? [?|]|? ?|] tr IH]; cbn; try apply IH; [reflexivity|]. f_equal. apply IH. }
  split; [cbn [num_envs with_bevaluator] in O; rewrite <- O; clear; induction tr' as [|[?|?| |?|? ? ?|? ?|? ? ?|? ?|] tr IH]; cbn; try apply IH; [reflexivity|]; f_equal; apply IH|]. split; [exact A1|]. split; [exact HS|]. split.
  - exists m. split; [reflexivity|]. rewrite HS. exact A3.
  - cbn [num_envs with_bevaluator] in T2. rewrite T3, <- T2. destruct T4 as [T4|(_ & sc & S1 & S2)]; [now left|right]. exists sc. split; [exact S1|]. cbn [bmax_score with_bevaluator] in S2. destruct A2 as (_ & [M|M] & _); [left; now rewrite <- M|right]. rewrite HS. eauto.
Qed.

(** One environment for training and evaluation (no eval_env): an evaluation never takes place in the middle of an episode; after an evaluation no action is
    chosen before the environment was reset.  Whether or not something raised. *)
Theorem C102_shared_environment {W Ob A} (U : userland W Ob A) P EA hooks eval_act eval_observe fuel w t0 w' tr r :
  train_agent_with_evaluation U P EA hooks eval_act eval_observe None fuel w t0 = (w', tr, r) -> undisturbed false tr = true.
Proof.
  unfold train_agent_with_evaluation. destruct (negb _); [intros H; injection H as <- <- <-; reflexivity|]. destruct (a_eval_during_episode P) eqn:D; [intros H; injection H as <- <- <-; reflexivity|].
  destruct (eval_mode EA) as [m|] eqn:EM; [|intros H; injection H as <- <- <-; reflexivity]. destruct (evaluator_init (evargs_of P EA)) as [s0|] eqn:EI; [|intros H; injection H as <- <- <-; reflexivity]. set (EU := mkEv _ _).
  destruct (train_agent _ P (w, s0, t0)) as ((s, tr'), r') eqn:E. intros H. injection H as <- <- <-. exact (train_und (with_evaluator U EU (evargs_of P EA)) P _ eq_refl D _ _ _ _ _ E).
Qed.

(** With an environment of its own, evaluation leaves alone what neither this environment, nor the agent in evaluation mode, nor the evaluation hooks touch: the
    training environment, for example. *)
Theorem C102_separate_environment_partial {W Ob A X} (part : W -> X) (U : userland W Ob A) (BU : buserland W Ob A) P EA hooks EP
  eval_act eval_observe reset step beval_act beval_observe n breset bstep fuel :
  Forall (fun h => forall t q, keeps_call part (h_call h t q)) hooks ->
  (forall o, keeps_call part (eval_act o)) -> (forall o r d b, keeps_call part (eval_observe o r d b)) -> keeps_call part reset -> (forall a, keeps_call part (step a)) ->
  (forall o, keeps_call part (beval_act o)) -> (forall o r d b, keeps_call part (beval_observe o r d b)) -> (forall m, keeps_call part (breset m)) -> (forall a, keeps_call part (bstep a)) ->
  forall m t ep ws,
  part (fst (fst (consult (mkEv (scores U P EA eval_act eval_observe (Some (reset, step)) fuel m) (map h_call hooks)) EP t ep ws))) = part (fst ws) /\
  part (fst (fst (consult (mkEv (bscores BU P EA beval_act beval_observe (Some (n, breset, bstep)) fuel m) (map h_call hooks)) EP t ep ws))) = part (fst ws).
Proof.
  intros KH K1 K2 K3 K4 K5 K6 K7 K8 m t ep ws.
  assert (KH' : Forall (fun h => forall t q, keeps_call part (h t q)) (map h_call hooks)) by (induction KH; constructor; auto).
  split; apply keeps_consult; try exact KH'; intros w; cbn [ev_scores].
  - unfold scores. pose proof (keeps_run part (eval_user U eval_act eval_observe (Some (reset, step))) m (eval_len P EA) fuel K3 K1 K4 K2 (w, 0)) as K. destruct (run_episodes _ m _ fuel (w, 0)) as ((s, l), r). exact K.
  - unfold bscores. pose proof (keeps_brun part (beval_user BU beval_act beval_observe (Some (n, breset, bstep))) m (eval_len P EA) fuel K7 K5 K8 K6 (w, 0)) as K. destruct (batch_run_episodes _ m _ fuel (w, 0)) as ((s, l), r). exact K.
Qed.

(** Several environments without eval_env: evaluations are run in the training environments in the middle of episodes, and training goes on from the states the
    evaluation left.  One environment whose observation counts the steps since its last reset; world: this count and the observations the agent saw in training. *)
Definition w1 : Type := nat * list nat.
Definition count_env : buserland w1 nat nat := {|
  num_envs := 1;
  benv_reset := fun mask w => match mask with Some [true] => (w, Ok [fst w]) | _ => ((0, snd w), Ok [0]) end;
  batch_act := fun o w => ((fst w, snd w ++ o), Ok o);
  benv_step := fun _ w => ((S (fst w), snd w), Ok [(S (fst w), 1%Q, S (fst w) =? 5, false)]);
  batch_observe := fun o _ _ _ w => ((fst w, snd w ++ o), Ok tt);
  bstep_hooks := []; bevaluator := None; bmax_score := fun _ => 0%Q; bagent_has_t := false |}.
Definition c102_P : train_args := mkArgs 4 0 None None None false.
Definition c102_EA : eval_args := mkEvalArgs (Some 3) None 2 None true.
Definition c102_run := train_agent_batch_with_evaluation count_env c102_P c102_EA [] (fun o w => (w, Ok o)) (fun _ _ _ _ w => (w, Ok tt)) None 10 (0, []) 0.
(** In training the agent acts on 0, 1; then an evaluation of three steps; then it acts on 3, and on 4, where the episode ends. *)
Example C102_batch_ex : snd (fst (fst c102_run)) = [0; 1; 1; 2; 3; 4; 4; 5] /\ snd c102_run = Ok [3%Q; 3%Q].
Proof. vm_compute. auto. Qed.
Theorem C102_batch_shared_environment_refuted :
  ~ (forall (U : buserland w1 nat nat) P EA hooks eval_act eval_observe fuel w t0 w' tr hist i, i < num_envs U ->
     train_agent_batch_with_evaluation U P EA hooks eval_act eval_observe None fuel w t0 = (w', tr, Ok hist) -> bundisturbed i false tr = true).
Proof.
  intros H. assert (E : bundisturbed 0 false (snd (fst c102_run)) = true).
  { specialize (H count_env c102_P c102_EA [] (fun o w => (w, Ok o)) (fun _ _ _ _ w => (w, Ok tt)) 10 (0, []) 0 (fst (fst c102_run)) (snd (fst c102_run)) [3%Q; 3%Q] 0). apply H; [apply le_n|]. vm_compute. reflexivity. }
  vm_compute in E. discriminate E.
Qed.

(** One environment, episodes of 3 steps, evaluations of one episode every 4 steps: requests at 3, 6, 9, 10; evaluations at 6 and 9. *)
Definition count_env1 : userland w1 nat nat := {|
  env_reset := fun w => ((0, snd w), Ok 0);
  agent_act := fun o w => ((fst w, snd w ++ [o]), Ok o);
  env_step := fun _ w => ((S (fst w), snd w), Ok (S (fst w), 1%Q, S (fst w) =? 3, false));
  agent_observe := fun o _ _ _ w => ((fst w, snd w ++ [o]), Ok tt);
  step_hooks := []; evaluator := None; max_score := fun _ => 0%Q; agent_has_t := false |}.
Example C102_ex :
  let run := train_agent_with_evaluation count_env1 (mkArgs 10 0 None None None false) (mkEvalArgs None (Some 1) 4 (Some 2) true) [mkEHook true false (fun _ _ w => (w, Ok tt))] (fun o w => (w, Ok o)) (fun _ _ _ _ w => (w, Ok tt)) None 10 (0, []) 0 in
  requests (snd (fst run)) = [(3, 1, None); (6, 2, Some 2%Q); (9, 3, Some 2%Q); (10, 4, None)] /\ snd run = Ok [2%Q; 2%Q].
Proof. vm_compute. auto. Qed.
Print Assumptions C102_arguments.
Print Assumptions C102_batch_arguments.
Print Assumptions C102_schedule.
Print Assumptions C102_batch_schedule.
Print Assumptions C102_shared_environment.
Print Assumptions C102_separate_environment_partial.
Print Assumptions C102_batch_shared_environment_refuted.
