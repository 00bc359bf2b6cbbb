From Verif Require Import Base P_Base M_Train S_Train P_Train.
From Coq Require Import ZifyBool ZifyNat.
Open Scope nat_scope.

Lemma bhook_calls_app a b : bhook_calls (a ++ b) = bhook_calls a ++ bhook_calls b.
Proof. apply flat_map_app. Qed.
Lemma bsaves_app a b : bsaves (a ++ b) = bsaves a ++ bsaves b.
Proof. apply flat_map_app. Qed.
Lemma beval_scores_app a b : beval_scores (a ++ b) = beval_scores a ++ beval_scores b.
Proof. apply flat_map_app. Qed.
Lemma beval_times_app a b : beval_times (a ++ b) = beval_times a ++ beval_times b.
Proof. apply flat_map_app. Qed.
Lemma view_of_app i a b : view_of i (a ++ b) = view_of i a ++ view_of i b.
Proof. apply flat_map_app. Qed.
Lemma bsteps_made_app a b : bsteps_made (a ++ b) = bsteps_made a + bsteps_made b.
Proof. unfold bsteps_made. now rewrite filter_app, app_length. Qed.

Lemma nth_error_combine {X Y} : forall (a : list X) (b : list Y) i x y, nth_error a i = Some x -> nth_error b i = Some y -> nth_error (combine a b) i = Some (x, y).
Proof. induction a as [|x0 a IH]; intros [|y0 b] [|i] x y H1 H2; cbn in *; try discriminate; [congruence|]. eauto. Qed.
Lemma nth_error_repeat' {X} (x : X) n i : i < n -> nth_error (repeat x n) i = Some x.
Proof. revert i. induction n; intros [|i] H; cbn; [lia|lia|reflexivity|]. apply IHn. lia. Qed.
Lemma nth_error_some {X} (l : list X) i : i < length l -> exists x, nth_error l i = Some x.
Proof. intros H. destruct (nth_error l i) eqn:E; [eauto|]. apply nth_error_None in E. lia. Qed.

Section Batch.
Context {W Ob A : Type} (U : buserland W Ob A) (P : train_args).
Notation N := (num_envs U).

Definition bckpts (t k : nat) : list (nat * suffix) := map (fun x => (x, Checkpoint)) (filter (multiple_of (a_checkpoint_freq P)) (seq (S t) k)).
Definition bhooks_for (t n : nat) : list (nat * nat) := flat_map (fun x => map (pair x) (seq 0 (length (bstep_hooks U)))) (seq (S t) n).
Lemma bckpts_app t a b : bckpts t (a + b) = bckpts t a ++ bckpts (t + a) b.
Proof. unfold bckpts. rewrite seq_app, filter_app, map_app. reflexivity. Qed.
Lemma bhooks_for_app t a b : bhooks_for t (a + b) = bhooks_for t a ++ bhooks_for (t + a) b.
Proof. unfold bhooks_for. rewrite seq_app, flat_map_app. reflexivity. Qed.

(** Events that concern neither the environments nor the evaluations. *)
Definition quiet (tr : list bev) : Prop := bsteps_made tr = 0 /\ beval_times tr = [] /\ beval_scores tr = [] /\ forall i, view_of i tr = [].
Lemma quiet_app a b : quiet a -> quiet b -> quiet (a ++ b).
Proof.
  intros (A1 & A2 & A3 & A4) (B1 & B2 & B3 & B4). unfold quiet. rewrite bsteps_made_app, beval_times_app, beval_scores_app, A1, A2, A3, B1, B2, B3.
  repeat split; auto. intros i. now rewrite view_of_app, A4, B4.
Qed.

Lemma brun_hooks_ok t : forall hs i (s s' : W * nat) tr res,
  brun_hooks i hs t s = (s', tr, res) -> snd s' = snd s /\ bsaves tr = [] /\ quiet tr /\
  match res with Ok _ => bhook_calls tr = map (pair t) (seq i (length hs)) | Err _ => True end.
Proof.
  induction hs as [|h hs IH]; intros i s s' tr res H; cbn [brun_hooks] in H.
  - unfold pret in H. injection H as <- <- <-. unfold quiet. cbn. auto 10.
  - unfold pbind, pcall in H. destruct (h t (fst s)) as [w1 [u|e]] eqn:Eh.
    + destruct (brun_hooks (S i) hs t (w1, snd s)) as [[s2 l2] r2] eqn:Er. injection H as <- <- <-.
      destruct (IH _ _ _ _ _ Er) as (Hs & H1 & H2 & H3). cbn [snd] in Hs. split; [exact Hs|]. split; [exact H1|].
      split; [apply (quiet_app [BHook i t]); [unfold quiet; cbn; auto|exact H2]|]. destruct r2; [|exact I].
      cbn [length seq map]. change (bhook_calls ([BHook i t] ++ l2) = (t, i) :: map (pair t) (seq (S i) (length hs))).
      rewrite bhook_calls_app, H3. reflexivity.
    + injection H as <- <- <-. unfold quiet; cbn. auto 10.
Qed.

Lemma tick_block_ok : forall n (s s' : W * nat) tr res,
  tick_block U P n s = (s', tr, res) -> snd s <= snd s' <= snd s + n /\ bsaves tr = bckpts (snd s) (snd s' - snd s) /\ quiet tr /\
  match res with Ok _ => snd s' = snd s + n /\ bhook_calls tr = bhooks_for (snd s) n | Err _ => True end.
Proof.
  induction n as [|n IH]; intros s s' tr res H; cbn [tick_block] in H.
  - unfold pret in H. injection H as <- <- <-. rewrite Nat.sub_diag. unfold quiet. cbn. repeat split; auto; lia.
  - unfold pbind at 1 in H. unfold pget_t in H. unfold pbind at 1 in H. unfold pset_t in H. cbn [fst snd] in H. unfold pbind at 1 in H.
    match type of H with context [(if checkpoint_due ?f ?t then ?a else ?b) ?s0] =>
      assert (Hc : exists cs, (if checkpoint_due f t then a else b) s0 = (s0, cs, Ok tt) /\ bsaves cs = bckpts (snd s) 1 /\ bhook_calls cs = [] /\ quiet cs) end.
    { unfold bckpts. change checkpoint_due with multiple_of. cbn [seq filter]. destruct (multiple_of _ _); unfold pemit, pret, quiet; eexists; (split; [reflexivity|]); cbn; auto 10. }
    destruct Hc as (cs & Ec & C1 & C2 & C3). rewrite Ec in H. unfold pbind at 1 in H.
    destruct (brun_hooks 0 (bstep_hooks U) (S (snd s)) (fst s, S (snd s))) as [[[w1 t1] hev] hres] eqn:Eh.
    destruct (brun_hooks_ok _ _ _ _ _ _ _ Eh) as (H1 & H2 & H3 & H4). cbn [snd] in H1. subst t1.
    destruct hres as [u|e].
    + destruct (tick_block U P n (w1, S (snd s))) as [[[w2 t2] tr2] res2] eqn:Et. injection H as <- <- <-.
      destruct (IH _ _ _ _ Et) as (D1 & D2 & D3 & D4). cbn [snd] in *. split; [lia|]. split.
      { cbn [app]. rewrite !bsaves_app, C1, H2, D2. cbn [app]. replace (t2 - snd s) with (1 + (t2 - S (snd s))) by lia.
        rewrite bckpts_app. f_equal. f_equal; lia. }
      split; [cbn [app]; auto using quiet_app|]. destruct res2; [|exact I]. destruct D4 as [D4 D5]. split; [lia|].
      cbn [app]. rewrite !bhook_calls_app, C2, H4, D5. change (S n) with (1 + n). rewrite bhooks_for_app. cbn [app]. f_equal.
      { unfold bhooks_for. cbn. now rewrite app_nil_r. } f_equal; lia.
    + injection H as <- <- <-. cbn [snd app]. split; [lia|]. split; [|split; [auto using quiet_app|exact I]].
      rewrite bsaves_app, C1, H2, app_nil_r. f_equal; lia.
Qed.

Lemma beval_block_ok t idx hist (s s' : W * nat) tr res :
  beval_block U P t idx hist s = (s', tr, res) ->
  snd s' = snd s /\ bsteps_made tr = 0 /\ bsaves tr = [] /\ bhook_calls tr = [] /\ (forall i, view_of i tr = []) /\
  match res with
  | Ok (hist', brk) => hist' = hist ++ beval_scores tr /\
      (brk = true -> beval_times tr = [t] /\ exists sc, a_successful P = Some sc /\ Qle sc (bmax_score U (fst s')))
  | Err _ => True
  end.
Proof.
  intros H. unfold beval_block in H. destruct (bevaluator U) as [f|].
  2:{ injection H as <- <- <-. cbn. rewrite app_nil_r. repeat split; auto; discriminate. }
  unfold pbind, pcall, pget_w, pret in H. destruct (f t idx (fst s)) as [w1 [[sc|]|e]]; injection H as <- <- <-; cbn.
  - repeat split; auto. destruct (a_successful P) as [q|]; [|discriminate]. exists q. split; [reflexivity|]. now apply Qle_bool_iff.
  - rewrite app_nil_r. repeat split; auto; discriminate.
  - auto 10.
Qed.

Lemma map_length_outs (f : Ob * Q * bool * bool -> Q * bool * bool) outs : length (map f outs) = length outs.
Proof. apply map_length. Qed.

Hypothesis Hcomplete : env_complete U.

Definition bbody_ok (l : blocals Ob) (t : nat) (s' : W * nat) (tr : list bev) (res : result (bool * blocals Ob)) : Prop :=
  t <= snd s' /\ bsaves tr = bckpts t (snd s' - t) /\
  match res with
  | Ok (brk, l') =>
      snd s' = t + N /\ bsteps_made tr = 1 /\ bhook_calls tr = bhooks_for t N /\ bl_hist l' = bl_hist l ++ beval_scores tr /\
      length (bl_len l') = N /\
      (forall i k, nth_error (bl_len l) i = Some k -> exists p, advances P (Running k) (view_of i tr) p /\
         (brk = false -> exists k', nth_error (bl_len l') i = Some k' /\ p = Running k')) /\
      (if brk then a_steps P <= t + N \/
          (beval_times tr = [t + N] /\ exists sc, a_successful P = Some sc /\ Qle sc (bmax_score U (fst s')))
       else t + N < a_steps P)
  | Err _ => forall i k, nth_error (bl_len l) i = Some k -> exists p, advances P (Running k) (view_of i tr) p
  end.

Lemma batch_body_ok l w t s' tr res : length (bl_len l) = N ->
  batch_body U P l (w, t) = (s', tr, res) -> bbody_ok l t s' tr res.
Proof.
  intros Hlen H. unfold batch_body in H.
  unfold pbind at 1 in H. unfold pcall at 1 in H. cbn [fst snd] in H.
  destruct (batch_act U (bl_obss l) w) as [w1 [actions|e1]].
  2:{ injection H as <- <- <-. unfold bbody_ok. cbn [snd]. rewrite Nat.sub_diag. split; [lia|]. split; [reflexivity|].
      intros i k _. exists (Acting k). cbn. apply advances_one. constructor. }
  unfold pbind at 1 in H. unfold pcall at 1 in H. cbn [fst snd] in H.
  destruct (benv_step U actions w1) as [w2 [outs|e2]] eqn:Estep.
  2:{ injection H as <- <- <-. unfold bbody_ok. cbn [snd]. rewrite Nat.sub_diag. split; [lia|]. split; [reflexivity|].
      intros i k _. exists (Acting k). cbn. econstructor; [constructor|]. apply advances_one. constructor. }
  pose proof (Hcomplete _ _ _ _ Estep) as Hout.
  set (obss := map (fun '(o, _, _, _) => o) outs) in *. set (rs := map (fun '(_, r, _, _) => r) outs) in *.
  set (dones := map (fun '(_, _, d, _) => d) outs) in *. set (needs := map (fun '(_, _, _, n) => n) outs) in *.
  set (mout := map (fun '(_, r, d, n) => (r, d, n)) outs) in *.
  set (lens := map S (bl_len l)) in *.
  set (resets0 := match a_max_episode_len P with None => repeat false N | Some m => map (fun k => k =? m) lens end) in *.
  set (resets := map (fun '(a, b) => a || b) (combine resets0 needs)) in *.
  cbn zeta in H. set (ends := map (fun '(a, b) => a || b) (combine resets dones)) in *.
  unfold pbind at 1 in H. unfold pcall at 1 in H. cbn [fst snd] in H.
  (* what environment i sees *)
  assert (Hview : forall i k, nth_error (bl_len l) i = Some k -> exists e : bool,
     nth_error ends i = Some e /\ nth_error lens i = Some (S k) /\
     advances P (Running k) (view_of i [BAct; BStep (Some mout); BObserve rs dones resets]) (if e then Ended else Running (S k))).
  { intros i k Hk. assert (Hi : i < N). { rewrite <- Hlen. apply nth_error_Some. congruence. }
    destruct (nth_error_some outs i) as ([[[o r] d] n] & Eo); [lia|].
    assert (Hl : nth_error lens i = Some (S k)) by (unfold lens; now apply map_nth_error).
    set (b := (match a_max_episode_len P with Some m => S k =? m | None => false end) || n).
    assert (Hr0 : nth_error resets0 i = Some (match a_max_episode_len P with Some m => S k =? m | None => false end)).
    { unfold resets0. destruct (a_max_episode_len P); [now apply (map_nth_error (fun k => k =? n0))|now apply nth_error_repeat']. }
    assert (Hn : nth_error needs i = Some n) by (unfold needs; now rewrite (map_nth_error _ _ _ Eo)).
    assert (Hd : nth_error dones i = Some d) by (unfold dones; now rewrite (map_nth_error _ _ _ Eo)).
    assert (Hrr : nth_error rs i = Some r) by (unfold rs; now rewrite (map_nth_error _ _ _ Eo)).
    assert (Hm : nth_error mout i = Some (r, d, n)) by (unfold mout; now rewrite (map_nth_error _ _ _ Eo)).
    assert (Hb : nth_error resets i = Some b). { unfold resets. now rewrite (map_nth_error _ _ _ (nth_error_combine _ _ _ _ _ Hr0 Hn)). }
    assert (He : nth_error ends i = Some (b || d)). { unfold ends. now rewrite (map_nth_error _ _ _ (nth_error_combine _ _ _ _ _ Hb Hd)). }
    exists (b || d). split; [exact He|]. split; [exact Hl|].
    cbn [view_of flat_map view app]. rewrite Hm, Hrr, Hd, Hb. cbn [app].
    econstructor; [constructor|]. econstructor; [constructor|]. apply advances_one. rewrite orb_comm. apply (ad_observe P (S k) r d n). }
  set (pre := [BAct; BStep (Some mout); BObserve rs dones resets]) in *.
  destruct (batch_observe U obss rs dones resets w2) as [w3 [u|e3]].
  2:{ injection H as <- <- <-. unfold bbody_ok. cbn [snd]. rewrite Nat.sub_diag. split; [lia|]. split; [reflexivity|].
      intros i k Hk. destruct (Hview i k Hk) as (e & _ & _ & Ha). eexists. exact Ha. }
  unfold pbind at 1 in H.
  destruct (tick_block U P N (w3, t)) as [[[w4 t4] tev] tres] eqn:Et.
  destruct (tick_block_ok _ _ _ _ _ Et) as (T1 & T2 & (T3 & T4 & T5 & T6) & T7). cbn [snd] in *.
  destruct tres as [u'|e4].
  2:{ injection H as <- <- <-. unfold bbody_ok. cbn [snd]. split; [lia|].
      change (BAct :: BStep (Some mout) :: BObserve rs dones resets :: tev) with (pre ++ tev).
      split; [rewrite bsaves_app; exact T2|]. intros i k Hk. destruct (Hview i k Hk) as (e & _ & _ & Ha).
      rewrite view_of_app, T6, app_nil_r. eexists. exact Ha. }
  destruct T7 as [-> T7].
  unfold pbind at 1 in H. unfold pget_t in H. cbn [fst snd] in H. unfold pbind at 1 in H.
  set (idx := bl_idx l + count_true ends) in *.
  destruct (beval_block U P (t + N) idx (bl_hist l) (w4, t + N)) as [[[w5 t5] eev] eres] eqn:Ee.
  destruct (beval_block_ok _ _ _ _ _ _ _ Ee) as (Et5 & E1 & E2 & E3 & E4 & E5). cbn [snd] in Et5. subst t5.
  replace (t + N - t) with N in T2 by lia.
  assert (Lends : length ends = N).
  { unfold ends, resets, resets0, dones, needs. rewrite map_length, combine_length, map_length, combine_length, !map_length.
    destruct (a_max_episode_len P); rewrite ?map_length, ?repeat_length; unfold lens; rewrite ?map_length; lia. }
  destruct eres as [[hist brk]|e5].
  2:{ injection H as <- <- <-. unfold bbody_ok. cbn [snd]. split; [lia|]. replace (t + N - t) with N by lia.
      change (BAct :: BStep (Some mout) :: BObserve rs dones resets :: tev ++ eev) with (pre ++ tev ++ eev).
      split; [rewrite !bsaves_app, E2, T2, app_nil_r; reflexivity|]. intros i k Hk. destruct (Hview i k Hk) as (e & _ & _ & Ha).
      rewrite !view_of_app, T6, E4, !app_nil_r. eexists. exact Ha. }
  destruct E5 as [E5 E6].
  assert (Hcommon : bsaves (pre ++ tev ++ eev) = bckpts t N /\ bsteps_made (pre ++ tev ++ eev) = 1 /\ bhook_calls (pre ++ tev ++ eev) = bhooks_for t N /\
     beval_scores (pre ++ tev ++ eev) = beval_scores eev /\ beval_times (pre ++ tev ++ eev) = beval_times eev /\ forall i, view_of i (pre ++ tev ++ eev) = view_of i pre).
  { rewrite !bsaves_app, !bsteps_made_app, !bhook_calls_app, !beval_scores_app, !beval_times_app, T2, T3, T4, T5, T7, E1, E2, E3.
    cbn [app]. rewrite !app_nil_r. repeat split; auto. intros i. now rewrite !view_of_app, T6, E4, !app_nil_r. }
  destruct Hcommon as (G1 & G2 & G3 & G4 & G5 & G6).
  assert (Hstop : forall (H : ((w5, t + N), BAct :: BStep (Some mout) :: BObserve rs dones resets :: tev ++ eev ++ [], Ok (true, mkBLoc obss lens idx hist)) = (s', tr, res)),
     (a_steps P <= t + N \/ (beval_times eev = [t + N] /\ exists sc, a_successful P = Some sc /\ Qle sc (bmax_score U w5))) -> bbody_ok l t s' tr res).
  { intros H' Hs. injection H' as <- <- <-. rewrite app_nil_r.
    change (BAct :: BStep (Some mout) :: BObserve rs dones resets :: tev ++ eev) with (pre ++ tev ++ eev).
    unfold bbody_ok. cbn [fst snd bl_hist bl_len]. rewrite G1, G2, G3, G4, G5. replace (t + N - t) with N by lia.
    split; [lia|]. split; [reflexivity|]. split; [reflexivity|]. split; [reflexivity|]. split; [reflexivity|]. split; [exact E5|].
    split; [unfold lens; now rewrite map_length|]. split; [|exact Hs].
    intros i k Hk. destruct (Hview i k Hk) as (e & _ & _ & Ha). rewrite G6. eexists. split; [exact Ha|discriminate]. }
  destruct brk.
  - apply Hstop; [exact H|]. right. apply E6. reflexivity.
  - destruct (a_steps P <=? t + N) eqn:Es.
    + apply Hstop; [exact H|]. left. lia.
    + unfold pbind, pcall, pret in H. cbn [fst snd] in H.
      set (lens2 := map (fun '(k, e) => if e : bool then 0 else k) (combine lens ends)) in *.
      assert (Hr : forall i k, nth_error (bl_len l) i = Some k -> exists k', nth_error lens2 i = Some k' /\
                advances P (Running k) (view_of i ((pre ++ tev ++ eev) ++ [BReset (Some (map negb ends))])) (Running k')).
      { intros i k Hk. destruct (Hview i k Hk) as (e & He & Hl & Ha).
        exists (if e then 0 else S k). split.
        - unfold lens2. now rewrite (map_nth_error _ _ _ (nth_error_combine _ _ _ _ _ Hl He)).
        - rewrite view_of_app, G6. eapply advances_app; [exact Ha|]. cbn [view_of flat_map view]. rewrite (map_nth_error _ _ _ He).
          destruct e; cbn [negb app]; [apply advances_one; constructor|constructor]. }
      destruct (benv_reset U (Some (map negb ends)) w5) as [w6 [obs2|e6]]; injection H as <- <- <-;
        change (BAct :: BStep (Some mout) :: BObserve rs dones resets :: tev ++ eev ++ [BReset (Some (map negb ends))]) with (pre ++ tev ++ eev ++ [BReset (Some (map negb ends))]);
        rewrite (app_assoc tev), (app_assoc pre); unfold bbody_ok; rewrite bsaves_app, G1; cbn [fst snd bl_hist bl_len bsaves flat_map]; rewrite app_nil_r;
        replace (t + N - t) with N by lia; (split; [lia|]); (split; [reflexivity|]).
      * rewrite bsteps_made_app, bhook_calls_app, beval_scores_app, G2, G3, G4. cbn [bhook_calls beval_scores flat_map app]. rewrite !app_nil_r.
        split; [reflexivity|]. split; [reflexivity|]. split; [reflexivity|]. split; [exact E5|]. split.
        { unfold lens2. rewrite map_length, combine_length. unfold lens. rewrite map_length. lia. }
        split; [|lia]. intros i k Hk. destruct (Hr i k Hk) as (k' & A1 & A2). exists (Running k'). split; [exact A2|]. intros _. exists k'. auto.
      * intros i k Hk. destruct (Hr i k Hk) as (k' & A1 & A2). eexists. exact A2.
Qed.

Hypothesis HN : 0 < N.

Lemma batch_loop_ok : forall fuel l w t s' tr res, length (bl_len l) = N ->
  batch_loop U P fuel l (w, t) = (s', tr, res) ->
  t <= snd s' /\ bsaves tr = bckpts t (snd s' - t) /\
  (forall i k, nth_error (bl_len l) i = Some k -> exists p, advances P (Running k) (view_of i tr) p) /\
  match res with
  | Ok l' => exists n, 1 <= n /\ snd s' = t + n * N /\ bsteps_made tr = n /\ bhook_calls tr = bhooks_for t (n * N) /\
      bl_hist l' = bl_hist l ++ beval_scores tr /\ (forall m, 1 <= m < n -> t + m * N < a_steps P) /\
      (a_steps P <= snd s' \/
       ((exists l0, beval_times tr = l0 ++ [snd s']) /\ exists sc, a_successful P = Some sc /\ Qle sc (bmax_score U (fst s'))))
  | Err _ => True
  end.
Proof.
  induction fuel as [|fuel IH]; intros l w t s' tr res Hlen H; cbn [batch_loop] in H.
  - injection H as <- <- <-. cbn [snd]. rewrite Nat.sub_diag. split; [lia|]. split; [reflexivity|]. split; [|exact I].
    intros i k _. exists (Running k). constructor.
  - unfold pbind in H. destruct (batch_body U P l (w, t)) as [[[w1 t1] tr1] res1] eqn:Eb.
    pose proof (batch_body_ok _ _ _ _ _ _ Hlen Eb) as Hb. unfold bbody_ok in Hb. cbn [fst snd] in Hb. destruct Hb as (B1 & B2 & Hb).
    destruct res1 as [[brk l1]|e].
    2:{ injection H as <- <- <-. cbn [fst snd]. auto. }
    destruct Hb as (-> & B3 & B4 & B5 & B6 & B7 & B8). replace (t + N - t) with N in B2 by lia.
    destruct brk.
    + unfold pret in H. injection H as <- <- <-. cbn [fst snd]. rewrite app_nil_r. split; [lia|]. split; [replace (t + N - t) with N by lia; exact B2|].
      split. { intros i k Hk. destruct (B7 i k Hk) as (p & Ha & _). eauto. }
      exists 1. rewrite Nat.mul_1_l. split; [lia|]. split; [lia|]. split; [exact B3|]. split; [exact B4|]. split; [exact B5|]. split; [lia|].
      destruct B8 as [B8|[B8 B9]]; [now left|right]. split; [exists []; exact B8|exact B9].
    + destruct (batch_loop U P fuel l1 (w1, t + N)) as [[[w2 t2] tr2] res2] eqn:El. injection H as <- <- <-.
      destruct (IH _ _ _ _ _ _ B6 El) as (C1 & C2 & C3 & C4). cbn [fst snd] in *. split; [lia|]. split.
      { rewrite bsaves_app, B2, C2. replace (t2 - t) with (N + (t2 - (t + N))) by lia. now rewrite bckpts_app. }
      split.
      { intros i k Hk. destruct (B7 i k Hk) as (p & Ha & Hp). destruct (Hp eq_refl) as (k' & Hk' & ->). destruct (C3 i k' Hk') as (p2 & Ha2).
        exists p2. rewrite view_of_app. eapply advances_app; eauto. }
      destruct res2 as [l2|e]; [|exact I]. destruct C4 as (n & D1 & D2 & D3 & D4 & D5 & D6 & D7).
      exists (S n). cbn [Nat.mul]. split; [lia|]. split; [lia|]. rewrite bsteps_made_app, bhook_calls_app, beval_scores_app, beval_times_app, B3, D3, B4, D4, D5, B5.
      split; [reflexivity|]. split; [now rewrite bhooks_for_app|]. split; [now rewrite app_assoc|]. split.
      { intros m Hm. destruct m as [|[|m]]; [lia|lia|]. specialize (D6 (S m) ltac:(lia)). cbn [Nat.mul] in *. lia. }
      destruct D7 as [D7|[(l0 & D7) D8]]; [now left|right]. split; [|exact D8]. exists (beval_times tr1 ++ l0). now rewrite D7, app_assoc.
Qed.

Theorem train_batch_ok w t0 s' tr res :
  train_agent_batch U P (w, t0) = (s', tr, res) ->
  match res with
  | Ok hist => exists n, 1 <= n /\ snd s' = a_offset P + n * N /\ bsteps_made tr = n /\
      (forall m, 1 <= m < n -> a_offset P + m * N < a_steps P) /\
      (a_steps P <= snd s' \/
       ((exists l0, beval_times tr = l0 ++ [snd s']) /\ exists sc, a_successful P = Some sc /\ Qle sc (bmax_score U (fst s')))) /\
      bhook_calls tr = bhooks_for (a_offset P) (n * N) /\ bsaves tr = bckpts (a_offset P) (n * N) ++ [(snd s', Finish)] /\
      hist = beval_scores tr
  | Err _ => tr = [BReset None] \/ bsaves tr = bckpts (a_offset P) (snd s' - a_offset P) ++ [(snd s', Except)]
  end /\ forall i, i < N -> exists p, advances P Idle (view_of i tr) p.
Proof.
  intros H. unfold train_agent_batch in H. unfold pbind at 1 in H. unfold pcall in H. cbn [fst snd] in H.
  destruct (benv_reset U None w) as [w1 [obs|e]].
  2:{ injection H as <- <- <-. split; [now left|]. intros i _. exists (Running 0). apply advances_one. constructor. }
  unfold pbind at 1 in H. unfold pset_t in H. cbn [fst snd] in H. unfold pbind at 1 in H.
  match type of H with context [(if bagent_has_t U then ?a else ?b) ?s] =>
    assert (Hs : exists ts, (if bagent_has_t U then a else b) s = (s, ts, Ok tt) /\ quiet ts /\ bsaves ts = [] /\ bhook_calls ts = []) end.
  { destruct (bagent_has_t U); unfold pemit, pret, quiet; eexists; (split; [reflexivity|]); cbn; auto 10. }
  destruct Hs as (ts & Es & (S1 & S2 & S3 & S4) & S5 & S6). rewrite Es in H.
  destruct (batch_loop U P _ (mkBLoc obs (repeat 0 N) 0 []) (w1, a_offset P)) as [[[w2 t2] tr2] res2] eqn:El.
  destruct (batch_loop_ok _ (mkBLoc obs (repeat 0 N) 0 []) _ _ _ _ _ (repeat_length 0 N) El) as (C1 & C2 & C3 & C4). cbn [fst snd bl_len bl_hist] in *.
  destruct res2 as [l2|e]; injection H as <- <- <-; cbn [fst snd app].
  - change (BReset None :: ts ++ tr2 ++ [BSave t2 Finish]) with ([BReset None] ++ ts ++ tr2 ++ [BSave t2 Finish]).
    split.
    + destruct C4 as (n & D1 & D2 & D3 & D4 & D5 & D6 & D7). exists n.
      rewrite !bsteps_made_app, !bhook_calls_app, !bsaves_app, !beval_scores_app, !beval_times_app, S1, S2, S3, S5, S6, D3, D4, C2.
      split; [exact D1|]. split; [exact D2|]. split; [cbn; lia|]. split; [exact D6|]. split.
      { destruct D7 as [D7|[(l0 & D7) D8]]; [now left|right]. split; [|exact D8]. exists l0. cbn. rewrite D7, app_nil_r. reflexivity. }
      split; [cbn; now rewrite app_nil_r|]. split; [cbn; do 2 f_equal; lia|]. rewrite D5. cbn. now rewrite app_nil_r.
    + intros i Hi. destruct (C3 i 0 (nth_error_repeat' 0 N i Hi)) as (p & Ha). exists p.
      rewrite !view_of_app, S4. cbn [view_of flat_map view app]. rewrite app_nil_r. econstructor; [constructor|exact Ha].
  - change (BReset None :: ts ++ tr2 ++ [BSave t2 Except; BClose]) with ([BReset None] ++ ts ++ tr2 ++ [BSave t2 Except; BClose]).
    split.
    + right. rewrite !bsaves_app, S5, C2. reflexivity.
    + intros i Hi. destruct (C3 i 0 (nth_error_repeat' 0 N i Hi)) as (p & Ha). exists p.
      rewrite !view_of_app, S4. cbn [view_of flat_map view app]. rewrite app_nil_r. econstructor; [constructor|exact Ha].
Qed.

Lemma brun_hooks_total t : forall hs i (s : W * nat), Forall (fun h => forall t (w : W), exists w' x, h t w = (w', Ok x)) hs ->
  exists w' tr, brun_hooks i hs t s = ((w', snd s), tr, Ok tt).
Proof.
  induction hs as [|h hs IH]; intros i [w tt0] Hh; cbn [brun_hooks].
  - exists w, []. reflexivity.
  - assert (Ha : forall t w, exists w' x, h t w = (w', Ok x)) by (inversion Hh; auto). assert (Hb := Forall_inv_tail Hh).
    unfold pbind, pcall. cbn [fst snd]. destruct (Ha t w) as (w1 & x & ->). destruct (IH (S i) (w1, tt0) Hb) as (w2 & tr & ->).
    cbn [snd]. eauto.
Qed.
Lemma tick_total : Forall (fun h => forall t (w : W), exists w' x, h t w = (w', Ok x)) (bstep_hooks U) ->
  forall n (s : W * nat), exists w' tr, tick_block U P n s = ((w', snd s + n), tr, Ok tt).
Proof.
  intros Hh. induction n as [|n IH]; intros [w t]; cbn [tick_block].
  - exists w, []. cbn [snd]. now rewrite Nat.add_0_r.
  - unfold pbind, pget_t, pset_t, pemit, pret. cbn [fst snd].
    destruct (brun_hooks_total (S t) (bstep_hooks U) 0 (w, S t) Hh) as (w1 & tr1 & E1). cbn [snd] in E1.
    destruct (IH (w1, S t)) as (w2 & tr2 & E2). cbn [snd] in *. replace (t + S n) with (S t + n) by lia.
    destruct (checkpoint_due _ _); rewrite E1, E2; eauto.
Qed.

Theorem train_batch_total w t0 : bnever_raises U -> exists s' tr hist, train_agent_batch U P (w, t0) = (s', tr, Ok hist).
Proof.
  intros (N1 & N2 & N3 & N4 & N5 & N6).
  assert (Hbody : forall l w t, exists w' tr r, batch_body U P l (w, t) = ((w', t + N), tr, Ok r)).
  { intros l w1 t. unfold batch_body. unfold pbind at 1, pcall at 1. cbn [fst snd]. destruct (N2 (bl_obss l) w1) as (w2 & x & ->).
    unfold pbind at 1, pcall at 1. cbn [fst snd]. destruct (N3 x w2) as (w3 & outs & ->). cbn zeta.
    unfold pbind at 1, pcall at 1. cbn [fst snd]. match goal with |- context [batch_observe U ?a ?b ?c ?d w3] => destruct (N4 a b c d w3) as (w4 & u & ->) end.
    unfold pbind at 1. destruct (tick_total N5 N (w4, t)) as (w5 & tr5 & ->). cbn [fst snd].
    unfold pbind at 1, pget_t at 1. cbn [fst snd].
    match goal with |- context [beval_block U P ?a ?b ?c] => assert (He : exists w6 tr6 h bb, beval_block U P a b c (w5, t + N) = ((w6, t + N), tr6, Ok (h, bb))) end.
    { unfold beval_block, pbind, pcall, pret, pget_w. destruct (bevaluator U) as [f|] eqn:Ef; [|eauto 6]. cbn [fst snd].
      match goal with |- context [f ?a ?b w5] => destruct (N6 f eq_refl a b w5) as (w6 & [sc|] & ->) end; cbn [fst snd]; eauto 8. }
    destruct He as (w6 & tr6 & h & bb & He). unfold pbind at 1. rewrite He.
    destruct bb; [unfold pret; eauto 6|]. destruct (_ <=? _); [unfold pret; eauto 6|].
    unfold pbind, pcall, pret. cbn [fst snd]. match goal with |- context [benv_reset U ?m w6] => destruct (N1 m w6) as (w7 & o7 & ->) end. eauto. }
  assert (Hloop : forall fuel l w t, length (bl_len l) = N -> a_steps P - t < fuel -> exists s' tr r, batch_loop U P fuel l (w, t) = (s', tr, Ok r)).
  { induction fuel as [|fuel IH]; intros l w1 t Hlen Hf; [lia|]. cbn [batch_loop].
    destruct (Hbody l w1 t) as (w2 & tr2 & [brk l2] & Eb). unfold pbind at 1. rewrite Eb. destruct brk; [unfold pret; eauto|].
    pose proof (batch_body_ok _ _ _ _ _ _ Hlen Eb) as (_ & _ & _ & _ & _ & _ & B6 & _ & B8).
    destruct (IH l2 w2 (t + N) B6) as (s3 & tr3 & r3 & ->); [lia|]. eauto. }
  unfold train_agent_batch. unfold pbind at 1, pcall at 1. cbn [fst snd]. destruct (N1 None w) as (w1 & obs & ->).
  unfold pbind at 1, pset_t at 1. cbn [fst snd]. unfold pbind at 1.
  destruct (Hloop (S (a_steps P - a_offset P)) (mkBLoc obs (repeat 0 N) 0 []) w1 (a_offset P) (repeat_length (0:nat) N) ltac:(lia)) as (s3 & tr3 & r3 & El).
  destruct (bagent_has_t U); unfold pemit, pret; rewrite El; eauto.
Qed.
End Batch.
