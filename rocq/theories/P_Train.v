From Verif Require Import Base P_Base M_Train S_Train.
From Coq Require Import ZifyBool ZifyNat.
Open Scope nat_scope.

Lemma advances_app P p tr1 p1 tr2 p2 : advances P p tr1 p1 -> advances P p1 tr2 p2 -> advances P p (tr1 ++ tr2) p2.
Proof. induction 1; intros; cbn [app]; [assumption|]. econstructor; eauto. Qed.
Lemma advances_one P p e p1 : advance P p e p1 -> advances P p [e] p1.
Proof. intros H. econstructor; [exact H|constructor]. Qed.
Lemma hook_calls_app a b : hook_calls (a ++ b) = hook_calls a ++ hook_calls b.
Proof. apply flat_map_app. Qed.
Lemma saves_app a b : saves (a ++ b) = saves a ++ saves b.
Proof. apply flat_map_app. Qed.
Lemma eval_scores_app a b : eval_scores (a ++ b) = eval_scores a ++ eval_scores b.
Proof. apply flat_map_app. Qed.
Lemma eval_times_app a b : eval_times (a ++ b) = eval_times a ++ eval_times b.
Proof. apply flat_map_app. Qed.
Lemma steps_made_app a b : steps_made (a ++ b) = steps_made a + steps_made b.
Proof. unfold steps_made. now rewrite filter_app, app_length. Qed.

Section Train.
Context {W Ob A : Type} (U : userland W Ob A) (P : train_args).

Definition hook_evs (i n t : nat) : list ev := map (fun j => EHook j t) (seq i n).
Lemma hook_evs_props i n t :
  hook_calls (hook_evs i n t) = map (pair t) (seq i n) /\ saves (hook_evs i n t) = [] /\ eval_scores (hook_evs i n t) = [] /\
  eval_times (hook_evs i n t) = [] /\ steps_made (hook_evs i n t) = 0.
Proof.
  unfold hook_evs. revert i. induction n as [|n IH]; intros i; cbn [seq map]; [cbn; auto|].
  destruct (IH (S i)) as (A1 & A2 & A3 & A4 & A5).
  cbn [hook_calls saves eval_scores eval_times flat_map app]. unfold steps_made in *. cbn [filter]. 
  unfold hook_calls, saves, eval_scores, eval_times in *. rewrite A1, A2, A3, A4, A5. auto.
Qed.
Lemma hook_evs_advances p i n t : settled p -> advances P p (hook_evs i n t) p.
Proof.
  intros H. unfold hook_evs. revert i. induction n as [|n IH]; intros i; cbn [seq map]; [constructor|].
  econstructor; [apply ad_hook; exact H|apply IH].
Qed.

Lemma run_hooks_ok t : forall hs i (s s' : W * nat) tr res,
  run_hooks i hs t s = (s', tr, res) -> snd s' = snd s /\
  exists k, tr = hook_evs i k t /\ match res with Ok _ => k = length hs | Err _ => True end.
Proof.
  induction hs as [|h hs IH]; intros i s s' tr res H; cbn [run_hooks] in H.
  - unfold pret in H. injection H as <- <- <-. split; [reflexivity|]. exists 0. auto.
  - unfold pbind, pcall in H. destruct (h t (fst s)) as [w1 [u|e]] eqn:Eh.
    + destruct (run_hooks (S i) hs t (w1, snd s)) as [[s2 l2] r2] eqn:Er. injection H as <- <- <-.
      destruct (IH _ _ _ _ _ Er) as (Hs & k & -> & Hk). cbn [snd] in Hs. split; [exact Hs|].
      exists (S k). split; [reflexivity|]. destruct r2; [|exact I]. cbn [length]. now rewrite Hk.
    + injection H as <- <- <-. split; [reflexivity|]. exists 1. auto.
Qed.

Definition body_ok (l : locals Ob) (w : W) (t : nat) (s' : W * nat) (tr : list ev) (res : result (bool * locals Ob)) : Prop :=
  match res with
  | Ok (brk, l') =>
      snd s' = S t /\ steps_made tr = 1 /\ hook_calls tr = map (pair (S t)) (seq 0 (length (step_hooks U))) /\
      saves tr = (if negb brk && multiple_of (a_checkpoint_freq P) (S t) then [(S t, Checkpoint)] else []) /\
      l_hist l' = l_hist l ++ eval_scores tr /\
      (exists p, advances P (Running (l_len l)) tr p /\ (brk = false -> p = Running (l_len l'))) /\
      (if brk then S t = a_steps P \/
          (eval_times tr = [S t] /\ exists sc, a_successful P = Some sc /\ Qle sc (max_score U (fst s')))
       else S t <> a_steps P)
  | Err _ =>
      steps_made tr = snd s' - t /\ t <= snd s' <= S t /\ saves tr = [] /\ exists p, advances P (Running (l_len l)) tr p
  end.

Lemma eval_block_ok p t idx ee hist (s s' : W * nat) tr res :
  eval_block U P t idx ee hist s = (s', tr, res) -> settled p -> (ee = true -> p = Ended \/ t = a_steps P) ->
  snd s' = snd s /\ steps_made tr = 0 /\ saves tr = [] /\ hook_calls tr = [] /\ advances P p tr p /\
  match res with
  | Ok (hist', brk) => hist' = hist ++ eval_scores tr /\
      (brk = true -> eval_times tr = [t] /\ exists sc, a_successful P = Some sc /\ Qle sc (max_score U (fst s')))
  | Err _ => True
  end.
Proof.
  intros H Hs Hee. unfold eval_block in H.
  destruct (evaluator U) as [evl|].
  2:{ injection H as <- <- <-. cbn. rewrite app_nil_r. repeat split; auto; [constructor|discriminate|discriminate]. }
  destruct (ee || a_eval_during_episode P) eqn:E.
  2:{ injection H as <- <- <-. cbn. rewrite app_nil_r. repeat split; auto; [constructor|discriminate|discriminate]. }
  unfold pbind, pcall, pget_w, pret in H. destruct (evl t idx (fst s)) as [w1 [sc|e]].
  - injection H as <- <- <-. cbn [snd fst app]. split; [reflexivity|]. split; [reflexivity|]. split; [reflexivity|]. split; [reflexivity|].
    split.
    + apply advances_one. apply ad_eval; [exact Hs|]. destruct ee; [destruct (Hee eq_refl); auto|]. cbn [orb] in E. auto.
    + split; [destruct sc; cbn; rewrite ?app_nil_r; reflexivity|]. intros Hb. split; [reflexivity|].
      destruct (a_successful P) as [q|]; [|discriminate]. exists q. split; [reflexivity|]. now apply Qle_bool_iff.
  - injection H as <- <- <-. cbn [snd fst app]. split; [reflexivity|]. split; [reflexivity|]. split; [reflexivity|]. split; [reflexivity|].
    split; [|exact I]. apply advances_one. apply ad_eval; [exact Hs|]. destruct ee; [destruct (Hee eq_refl); auto|]. cbn [orb] in E. auto.
Qed.

Lemma next_block_ok p t len idx obs ee hist (s s' : W * nat) tr res :
  next_block U P t len idx obs ee hist s = (s', tr, res) ->
  (ee = false -> p = Running len) -> (ee = true -> t <> a_steps P -> p = Ended) -> (t = a_steps P -> ee = true) ->
  snd s' = snd s /\ steps_made tr = 0 /\ hook_calls tr = [] /\ eval_scores tr = [] /\
  match res with Ok (_, l') => l_hist l' = hist | Err _ => True end /\
  match res with
  | Ok (brk, l') =>
      (if brk then t = a_steps P else t <> a_steps P) /\
      saves tr = (if negb brk && multiple_of (a_checkpoint_freq P) t then [(t, Checkpoint)] else []) /\
      exists p2, advances P p tr p2 /\ (brk = false -> p2 = Running (l_len l'))
  | Err _ => saves tr = [] /\ exists p2, advances P p tr p2
  end.
Proof.
  intros H H1 H2 H3. unfold next_block in H.
  destruct (ee && (t =? a_steps P)) eqn:E.
  - injection H as <- <- <-. cbn. repeat split; auto; [lia|]. exists p. split; [constructor|discriminate].
  - assert (Hne : t <> a_steps P). { intros Ht. rewrite (H3 Ht) in E. cbn [andb] in E. lia. }
    assert (Hck : forall q : phase, advances P q (if checkpoint_due (a_checkpoint_freq P) t then [ESave t Checkpoint] else []) q).
    { intros q. destruct (checkpoint_due _ _); [apply advances_one; constructor|constructor]. }
    unfold pbind, pcall, pemit, pret in H. destruct ee.
    + rewrite (H2 eq_refl Hne). destruct (env_reset U (fst s)) as [w1 [o|e]].
      * assert (Ha : forall x, advances P (Running 0) x (Running 0) -> advances P Ended (EReset :: x) (Running 0)) by (intros; econstructor; [constructor|assumption]).
        change checkpoint_due with multiple_of in *. destruct (multiple_of (a_checkpoint_freq P) t); injection H as <- <- <-; cbn [snd app l_hist l_len negb andb];
          (split; [reflexivity|]); (split; [reflexivity|]); (split; [reflexivity|]); (split; [reflexivity|]); (split; [reflexivity|]); (split; [exact Hne|]); (split; [reflexivity|]);
          exists (Running 0); (split; [apply Ha, Hck|reflexivity]).
      * injection H as <- <- <-. cbn. repeat split; auto. exists (Running 0). apply advances_one. constructor.
    + rewrite (H1 eq_refl). change checkpoint_due with multiple_of in *. destruct (multiple_of (a_checkpoint_freq P) t); injection H as <- <- <-; cbn [snd app l_hist l_len negb andb];
          (split; [reflexivity|]); (split; [reflexivity|]); (split; [reflexivity|]); (split; [reflexivity|]); (split; [reflexivity|]); (split; [exact Hne|]); (split; [reflexivity|]);
          exists (Running len); (split; [apply Hck|reflexivity]).
Qed.

Lemma train_body_ok l w t s' tr res : train_body U P l (w, t) = (s', tr, res) -> body_ok l w t s' tr res.
Proof.
  intros H. unfold train_body in H.
  unfold pbind at 1 in H. unfold pcall at 1 in H. cbn [fst snd] in H.
  destruct (agent_act U (l_obs l) w) as [w1 [action|e1]].
  2:{ injection H as <- <- <-. cbn. repeat split; try lia. exists (Acting (l_len l)). apply advances_one. constructor. }
  unfold pbind at 1 in H. unfold pcall at 1 in H. cbn [fst snd] in H.
  destruct (env_step U action w1) as [w2 [[[[obs r] done] nr]|e2]].
  2:{ injection H as <- <- <-. cbn. repeat split; try lia. exists (Acting (l_len l)).
      econstructor; [constructor|]. apply advances_one. constructor. }
  unfold pbind at 1 in H. unfold pget_t at 1 in H. unfold pbind at 1 in H. unfold pset_t at 1 in H. cbn [fst snd] in H.
  set (len := S (l_len l)) in *. set (reset := opt_eqb len (a_max_episode_len P) || nr) in *.
  unfold pbind at 1 in H. unfold pcall at 1 in H. cbn [fst snd] in H.
  set (p1 := if done || reset then Ended else Running len).
  assert (Hadv : advances P (Running (l_len l)) [EAct; EStep (Some (r, done, nr)); EObserve r done reset] p1).
  { econstructor; [constructor|]. econstructor; [constructor|]. apply advances_one. apply (ad_observe P len r done nr). }
  assert (Hset : settled p1) by (unfold p1, settled; destruct (done || reset); eauto).
  destruct (agent_observe U obs r done reset w2) as [w3 [u|e3]].
  2:{ injection H as <- <- <-. unfold body_ok, steps_made; cbn [snd filter length saves flat_map app]. split; [lia|]. split; [lia|]. split; [reflexivity|]. exists p1. exact Hadv. }
  unfold pbind at 1 in H.
  destruct (run_hooks 0 (step_hooks U) (S t) (w3, S t)) as [[[w4 t4] hev] hres] eqn:Eh.
  destruct (run_hooks_ok _ _ _ _ _ _ _ Eh) as (Et4 & k & -> & Hk). cbn [snd] in Et4. subst t4.
  destruct (hook_evs_props 0 k (S t)) as (Hp1 & Hp2 & Hp3 & Hp4 & Hp5).
  pose proof (hook_evs_advances p1 0 k (S t) Hset) as Hadv2.
  assert (Hadv3 : advances P (Running (l_len l)) ([EAct; EStep (Some (r, done, nr)); EObserve r done reset] ++ hook_evs 0 k (S t)) p1)
    by (eapply advances_app; eauto).
  destruct hres as [u'|e4].
  2:{ injection H as <- <- <-.
      change (EAct :: EStep (Some (r, done, nr)) :: EObserve r done reset :: hook_evs 0 k (S t)) with ([EAct; EStep (Some (r, done, nr)); EObserve r done reset] ++ hook_evs 0 k (S t)).
      unfold body_ok. rewrite steps_made_app, saves_app, Hp5, Hp2. cbn [snd]. change (steps_made [EAct; EStep (Some (r, done, nr)); EObserve r done reset]) with 1. split; [lia|]. split; [lia|]. split; [reflexivity|]. exists p1. exact Hadv3. }
  subst k. cbn zeta in H.
  set (ee := done || reset || (S t =? a_steps P)) in *. set (idx := if ee then S (l_idx l) else l_idx l) in *.
  set (pre := [EAct; EStep (Some (r, done, nr)); EObserve r done reset] ++ hook_evs 0 (length (step_hooks U)) (S t)) in *.
  unfold pbind at 1 in H.
  destruct (eval_block U P (S t) idx ee (l_hist l) (w4, S t)) as [[[w5 t5] eev] eres] eqn:Ee.
  destruct (eval_block_ok p1 (S t) idx ee (l_hist l) (w4, S t) _ _ _ Ee Hset) as (Et5 & He1 & He2 & He3 & He4 & He5).
  { unfold p1, ee. intros Hee. destruct (done || reset); [now left|right]. cbn [orb] in Hee. lia. }
  cbn [snd] in Et5. subst t5.
  destruct eres as [[hist brk]|e5].
  2:{ injection H as <- <- <-. unfold body_ok. change (EAct :: EStep (Some (r, done, nr)) :: EObserve r done reset :: hook_evs 0 (length (step_hooks U)) (S t) ++ eev) with
        (([EAct; EStep (Some (r, done, nr)); EObserve r done reset] ++ hook_evs 0 (length (step_hooks U)) (S t)) ++ eev).
      fold pre. rewrite steps_made_app, saves_app. unfold pre. rewrite steps_made_app, saves_app, Hp5, Hp2, He1, He2. cbn [snd].
      change (steps_made [EAct; EStep (Some (r, done, nr)); EObserve r done reset]) with 1. split; [lia|]. split; [lia|]. split; [reflexivity|]. exists p1. eapply advances_app; eauto. }
  destruct He5 as [He5 He6].
  assert (Hpre : steps_made pre = 1 /\ hook_calls pre = map (pair (S t)) (seq 0 (length (step_hooks U))) /\ saves pre = [] /\ eval_scores pre = [] /\ eval_times pre = []).
  { unfold pre. rewrite steps_made_app, hook_calls_app, saves_app, eval_scores_app, eval_times_app, Hp1, Hp2, Hp3, Hp4, Hp5. cbn. auto. }
  destruct Hpre as (Hq1 & Hq2 & Hq3 & Hq4 & Hq5).
  destruct brk.
  - unfold pret in H. injection H as <- <- <-. rewrite app_nil_r.
    change (EAct :: EStep (Some (r, done, nr)) :: EObserve r done reset :: hook_evs 0 (length (step_hooks U)) (S t) ++ eev) with (pre ++ eev).
    unfold body_ok. rewrite steps_made_app, hook_calls_app, saves_app, eval_scores_app, eval_times_app, Hq1, Hq2, Hq3, Hq4, Hq5, He1, He2, He3.
    cbn [negb andb app snd fst l_hist]. split; [reflexivity|]. split; [reflexivity|]. split; [now rewrite app_nil_r|].
    split; [reflexivity|]. split; [exact He5|]. split; [|right; destruct (He6 eq_refl); auto].
    exists p1. split; [eapply advances_app; eauto|discriminate].
  - destruct (next_block U P (S t) len idx obs ee hist (w5, S t)) as [[[w6 t6] nev] nres] eqn:En. injection H as <- <- <-.
    change (EAct :: EStep (Some (r, done, nr)) :: EObserve r done reset :: hook_evs 0 (length (step_hooks U)) (S t) ++ eev ++ nev) with (pre ++ eev ++ nev).
    destruct (next_block_ok p1 (S t) len idx obs ee hist (w5, S t) _ _ _ En) as (Et6 & Hn1 & Hn2 & Hn3 & Hn4 & Hn5).
    { intros Hee. unfold p1, ee in *. destruct (done || reset); [discriminate|reflexivity]. }
    { intros Hee Hne. unfold p1, ee in *. destruct (done || reset); [reflexivity|]. cbn [orb] in Hee. lia. }
    { unfold ee. intros ->. rewrite Nat.eqb_refl. apply orb_true_r. }
    cbn [snd] in Et6. subst t6. unfold body_ok.
    rewrite !steps_made_app, !saves_app, Hq1, Hq3, He1, He2, Hn1. destruct nres as [[brk l']|e6].
    + rewrite !hook_calls_app, !eval_scores_app, Hq2, Hq4, He3, Hn2, Hn3. destruct Hn5 as (Hn5 & Hn6 & p2 & Hn7 & Hn8).
      cbn [snd app]. split; [reflexivity|]. split; [reflexivity|]. split; [now rewrite !app_nil_r|].
      split; [exact Hn6|]. split; [rewrite app_nil_r, Hn4; exact He5|]. split.
      * exists p2. split; [|exact Hn8]. eapply advances_app; [exact Hadv3|]. eapply advances_app; eauto.
      * destruct brk; [left; exact Hn5|exact Hn5].
    + destruct Hn5 as [Hn5 (p2 & Hn7)]. cbn [snd app]. split; [lia|]. split; [lia|]. split; [exact Hn5|].
      exists p2. eapply advances_app; [exact Hadv3|]. eapply advances_app; eauto.
Qed.

Definition ckpts (t k : nat) : list (nat * suffix) := map (fun x => (x, Checkpoint)) (filter (multiple_of (a_checkpoint_freq P)) (seq (S t) k)).
Definition hooks_for (t n : nat) : list (nat * nat) := flat_map (fun x => map (pair x) (seq 0 (length (step_hooks U)))) (seq (S t) n).

Lemma train_loop_ok : forall fuel l w t s' tr res,
  train_loop U P fuel l (w, t) = (s', tr, res) -> a_steps P - t <= fuel ->
  t <= snd s' /\ steps_made tr = snd s' - t /\ (exists p, advances P (Running (l_len l)) tr p) /\
  match res with
  | Ok l' =>
      hook_calls tr = hooks_for t (snd s' - t) /\ saves tr = ckpts t (snd s' - t - 1) /\
      l_hist l' = l_hist l ++ eval_scores tr /\ (t < a_steps P -> t < snd s') /\
      (snd s' = Nat.max t (a_steps P) \/
       ((exists l0, eval_times tr = l0 ++ [snd s']) /\ exists sc, a_successful P = Some sc /\ Qle sc (max_score U (fst s'))))
  | Err _ => exists k, saves tr = ckpts t k /\ t + k <= snd s' <= S (t + k)
  end.
Proof.
  induction fuel as [|fuel IH]; intros l w t s' tr res H Hf; cbn [train_loop] in H;
    unfold pbind at 1 in H; unfold pget_t in H; cbn [fst snd] in H.
  - replace (t <? a_steps P) with false in H by lia. unfold pret in H. injection H as <- <- <-. cbn [fst snd].
    rewrite Nat.sub_diag. split; [lia|]. split; [reflexivity|]. split; [exists (Running (l_len l)); constructor|].
    split; [reflexivity|]. split; [reflexivity|]. split; [cbn; now rewrite app_nil_r|]. split; [lia|]. left. lia.
  - destruct (t <? a_steps P) eqn:Et.
    2:{ unfold pret in H. injection H as <- <- <-. cbn [fst snd].
        rewrite Nat.sub_diag. split; [lia|]. split; [reflexivity|]. split; [exists (Running (l_len l)); constructor|].
        split; [reflexivity|]. split; [reflexivity|]. split; [cbn; now rewrite app_nil_r|]. split; [lia|]. left. lia. }
    unfold pbind in H. destruct (train_body U P l (w, t)) as [[[w1 t1] tr1] res1] eqn:Eb.
    pose proof (train_body_ok _ _ _ _ _ _ Eb) as Hb. unfold body_ok in Hb. cbn [fst snd] in Hb.
    destruct res1 as [[brk l1]|e].
    2:{ injection H as <- <- <-. cbn [fst snd]. destruct Hb as (B1 & B2 & B3 & B4). split; [lia|]. split; [exact B1|].
        split; [exact B4|]. exists 0. split; [exact B3|lia]. }
    destruct Hb as (B1 & B2 & B3 & B4 & B5 & (p1 & B6 & B7) & B8). subst t1.
    destruct brk.
    + unfold pret in H. injection H as <- <- <-. cbn [fst snd] in *. rewrite app_nil_r.
      replace (S t - t) with 1 by lia. cbn [Nat.sub].
      split; [lia|]. split; [exact B2|]. split; [exists p1; exact B6|]. split.
      { rewrite B3. unfold hooks_for. cbn [seq flat_map]. now rewrite app_nil_r. }
      split; [exact B4|]. split; [exact B5|]. split; [lia|]. destruct B8 as [B8|[B8 B9]]; [left; lia|right].
      split; [exists []; exact B8|exact B9].
    + specialize (B7 eq_refl). subst p1.
      destruct (train_loop U P fuel l1 (w1, S t)) as [[[w2 t2] tr2] res2] eqn:El. injection H as <- <- <-.
      destruct (IH _ _ _ _ _ _ El) as (C1 & C2 & (p2 & C3) & C4); [lia|]. cbn [fst snd] in *.
      rewrite steps_made_app, B2, C2. split; [lia|]. split; [lia|]. split; [exists p2; eapply advances_app; eauto|].
      assert (Hck : forall k, saves tr1 ++ ckpts (S t) k = ckpts t (S k)).
      { intros k. rewrite B4. unfold ckpts. cbn [negb andb seq filter]. destruct (multiple_of _ _); reflexivity. }
      destruct res2 as [l2|e].
      * destruct C4 as (D1 & D2 & D3 & D4 & D5). specialize (D4 ltac:(lia)).
        rewrite hook_calls_app, saves_app, eval_scores_app, eval_times_app, B3, D1, D2, D3, B5. split.
        { replace (t2 - t) with (S (t2 - S t)) by lia. reflexivity. }
        split. { rewrite Hck. f_equal. lia. }
        split; [now rewrite app_assoc|]. split; [lia|]. destruct D5 as [D5|[(l0 & D5) D6]]; [left; lia|right].
        split; [|exact D6]. exists (eval_times tr1 ++ l0). now rewrite D5, app_assoc.
      * destruct C4 as (k & D1 & D2). rewrite saves_app, D1, Hck. exists (S k). split; [reflexivity|lia].
Qed.

Theorem train_agent_ok w t0 s' tr res :
  train_agent U P (w, t0) = (s', tr, res) ->
  match res with
  | Ok hist =>
      let n := snd s' - a_offset P in
      a_offset P <= snd s' /\ steps_made tr = n /\
      (snd s' = Nat.max (a_offset P) (a_steps P) \/
       ((exists l0, eval_times tr = l0 ++ [snd s']) /\ exists sc, a_successful P = Some sc /\ Qle sc (max_score U (fst s')))) /\
      hook_calls tr = hooks_for (a_offset P) n /\ saves tr = ckpts (a_offset P) (n - 1) ++ [(snd s', Finish)] /\
      hist = eval_scores tr
  | Err _ => tr = [EReset] \/ (steps_made tr = snd s' - a_offset P /\
      exists k, saves tr = ckpts (a_offset P) k ++ [(snd s', Except)] /\ a_offset P + k <= snd s' <= S (a_offset P + k))
  end /\ exists p, advances P Idle tr p.
Proof.
  intros H. unfold train_agent in H. unfold pbind at 1 in H. unfold pcall in H. cbn [fst snd] in H.
  destruct (env_reset U w) as [w1 [obs|e]].
  2:{ injection H as <- <- <-. split; [now left|]. exists (Running 0). apply advances_one. constructor. }
  unfold pbind at 1 in H. unfold pset_t in H. cbn [fst snd] in H. unfold pbind at 1 in H.
  match type of H with context [(if agent_has_t U then ?a else ?b) ?s] =>
    assert (Hs : exists ts, (if agent_has_t U then a else b) s = (s, ts, Ok tt) /\ steps_made ts = 0 /\ saves ts = [] /\ hook_calls ts = [] /\ eval_scores ts = [] /\ eval_times ts = [] /\
      (forall q, advances P q ts q)) end.
  { destruct (agent_has_t U); cbn; eexists; (split; [reflexivity|]); repeat split; intros; [apply advances_one|]; constructor. }
  destruct Hs as (ts & Es & S1 & S2 & S3 & S4 & S5 & S6). rewrite Es in H.
  destruct (train_loop U P (a_steps P - a_offset P) (mkLoc obs 0 0 []) (w1, a_offset P)) as [[[w2 t2] tr2] res2] eqn:El.
  destruct (train_loop_ok _ _ _ _ _ _ _ El) as (C1 & C2 & (p2 & C3) & C4); [lia|]. cbn [fst snd l_len l_hist] in *.
  destruct res2 as [l2|e]; injection H as <- <- <-; cbn [fst snd app].
  - destruct C4 as (D1 & D2 & D3 & D4 & D5).
    change (EReset :: ts ++ tr2 ++ [ESave t2 Finish]) with ([EReset] ++ ts ++ tr2 ++ [ESave t2 Finish]).
    rewrite !steps_made_app, !hook_calls_app, !saves_app, !eval_scores_app, !eval_times_app, S1, S2, S3, S4, S5, D1, D2, C2.
    split.
    + split; [lia|]. split; [cbn; lia|]. split.
      { destruct D5 as [D5|[(l0 & D5) D6]]; [now left|right]. split; [|exact D6]. exists l0. cbn. rewrite D5, app_nil_r. reflexivity. }
      split; [cbn; now rewrite app_nil_r|]. split; [reflexivity|]. rewrite D3. cbn. now rewrite app_nil_r.
    + exists p2. econstructor; [constructor|]. eapply advances_app; [apply S6|]. eapply advances_app; [exact C3|]. apply advances_one. constructor.
  - change (EReset :: ts ++ tr2 ++ [ESave t2 Except]) with ([EReset] ++ ts ++ tr2 ++ [ESave t2 Except]).
    split.
    + right. rewrite !steps_made_app, !saves_app, S1, S2, C2. split; [cbn; lia|]. destruct C4 as (k & -> & D2). exists k. split; [reflexivity|exact D2].
    + exists p2. econstructor; [constructor|]. eapply advances_app; [apply S6|]. eapply advances_app; [exact C3|]. apply advances_one. constructor.
Qed.

Lemma run_hooks_total t : forall hs i (s : W * nat), Forall (fun h => forall t (w : W), exists w' x, h t w = (w', Ok x)) hs ->
  exists w' tr, run_hooks i hs t s = ((w', snd s), tr, Ok tt).
Proof.
  induction hs as [|h hs IH]; intros i [w tt0] Hh; cbn [run_hooks].
  - exists w, []. reflexivity.
  - assert (Ha : forall t w, exists w' x, h t w = (w', Ok x)) by (inversion Hh; auto). assert (Hb := Forall_inv_tail Hh).
    unfold pbind, pcall. cbn [fst snd]. destruct (Ha t w) as (w1 & x & ->). destruct (IH (S i) (w1, tt0) Hb) as (w2 & tr & ->).
    cbn [snd]. eauto.
Qed.

Theorem train_agent_total w t0 : never_raises U -> exists s' tr hist, train_agent U P (w, t0) = (s', tr, Ok hist).
Proof.
  intros (N1 & N2 & N3 & N4 & N5 & N6).
  assert (Hbody : forall l w t, exists w' tr r, train_body U P l (w, t) = ((w', S t), tr, Ok r)).
  { intros l w1 t. unfold train_body. unfold pbind at 1, pcall at 1. cbn [fst snd]. destruct (N2 (l_obs l) w1) as (w2 & x & ->).
    unfold pbind at 1, pcall at 1. cbn [fst snd]. destruct (N3 x w2) as (w3 & [[[o r] d] nr] & ->).
    unfold pbind at 1, pget_t at 1. unfold pbind at 1, pset_t at 1. cbn [fst snd].
    unfold pbind at 1, pcall at 1. cbn [fst snd]. destruct (N4 o r d (opt_eqb (S (l_len l)) (a_max_episode_len P) || nr) w3) as (w4 & u & ->).
    unfold pbind at 1. destruct (run_hooks_total (S t) (step_hooks U) 0 (w4, S t) N5) as (w5 & tr5 & ->). cbn [fst snd].
    set (ee := d || _ || _). set (idx := if ee then _ else _).
    assert (He : exists w6 tr6 h b, eval_block U P (S t) idx ee (l_hist l) (w5, S t) = ((w6, S t), tr6, Ok (h, b))).
    { unfold eval_block, pbind, pcall, pret, pget_w. destruct (evaluator U) as [f|] eqn:Ef; [|eauto 6].
      destruct (ee || _); [|eauto 6]. cbn [fst snd]. destruct (N6 f eq_refl (S t) idx w5) as (w6 & sc & ->). eauto 8. }
    destruct He as (w6 & tr6 & h & b & He). unfold pbind at 1. rewrite He.
    destruct b; [unfold pret; eauto 6|].
    assert (Hn : exists w7 tr7 r7, next_block U P (S t) (S (l_len l)) idx o ee h (w6, S t) = ((w7, S t), tr7, Ok r7)).
    { unfold next_block, pbind, pcall, pret, pemit. destruct (ee && _); [eauto|]. cbn [fst snd].
      destruct ee; cbn [fst snd]; [destruct (N1 w6) as (w7 & o7 & ->)|]; destruct (checkpoint_due _ _); eauto. }
    destruct Hn as (w7 & tr7 & r7 & ->). eauto. }
  assert (Hloop : forall fuel l w t, a_steps P - t <= fuel -> exists s' tr r, train_loop U P fuel l (w, t) = (s', tr, Ok r)).
  { induction fuel as [|fuel IH]; intros l w1 t Hf; cbn [train_loop]; unfold pbind at 1, pget_t at 1; cbn [fst snd].
    - replace (t <? a_steps P) with false by lia. unfold pret. eauto.
    - destruct (t <? a_steps P) eqn:E; [|unfold pret; eauto].
      destruct (Hbody l w1 t) as (w2 & tr2 & [brk l2] & Eb). unfold pbind at 1. rewrite Eb. destruct brk; [unfold pret; eauto|].
      destruct (IH l2 w2 (S t)) as (s3 & tr3 & r3 & ->); [lia|]. eauto. }
  unfold train_agent. unfold pbind at 1, pcall at 1. cbn [fst snd]. destruct (N1 w) as (w1 & obs & ->).
  unfold pbind at 1, pset_t at 1. cbn [fst snd]. unfold pbind at 1.
  destruct (Hloop (a_steps P - a_offset P) (mkLoc obs 0 0 []) w1 (a_offset P) (le_n _)) as (s3 & tr3 & r3 & El).
  destruct (agent_has_t U); unfold pemit, pret; rewrite El; eauto.
Qed.
End Train.
