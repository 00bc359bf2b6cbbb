From Verif Require Import Base P_Base M_Wrappers S_Wrappers.
From Coq Require Import Lqa ZifyBool ZifyNat.
Open Scope nat_scope.

Lemma run_snoc {S O R} (step : S -> O -> S * R) s ops o :
  run step s (ops ++ [o]) = let (s1, rs) := run step s ops in let (s2, r) := step s1 o in (s2, rs ++ [r]).
Proof.
  revert s. induction ops as [|x ops IH]; intros s; cbn [app run].
  - destruct (step s o). reflexivity.
  - destruct (step s x) as [s1 r1]. rewrite IH. destruct (run step s1 ops) as [s2 rs]. destruct (step s2 o). reflexivity.
Qed.
Lemma run_snoc_eq {S O R} (step : S -> O -> S * R) s ops o s1 rs s2 r :
  run step s ops = (s1, rs) -> step s1 o = (s2, r) -> run step s (ops ++ [o]) = (s2, rs ++ [r]).
Proof. intros H1 H2. rewrite run_snoc, H1, H2. reflexivity. Qed.
Lemma run_len {S O R} (step : S -> O -> S * R) : forall ops s s' rs, run step s ops = (s', rs) -> length rs = length ops.
Proof.
  induction ops as [|x ops IH]; intros s s' rs H; cbn [run] in H; [injection H as _ <-; reflexivity|].
  destruct (step s x) as [s1 r1]. destruct (run step s1 ops) as [s2 r2] eqn:E. injection H as _ <-. cbn. f_equal. eauto.
Qed.

Lemma skipn_repeat {X} (x : X) m n : skipn m (repeat x n) = repeat x (n - m).
Proof. revert n. induction m as [|m IH]; intros [|n]; cbn [skipn repeat Nat.sub]; auto. Qed.
Lemma lastn_repeat {X} (x : X) m n : lastn m (repeat x n) = repeat x (Nat.min m n).
Proof. unfold lastn. rewrite repeat_length, skipn_repeat. f_equal. lia. Qed.

(** ** C25 *)
Section C25.
Context {W Ob A J : Type} (k : nat) (Hk : 1 <= k).

Lemma stacked_alt (fs : list Ob) : stacked k fs = match fs with [] => [] | f :: _ => lastn k (repeat f k ++ fs) end.
Proof.
  unfold stacked. destruct fs as [|f fs]; [reflexivity|]. rewrite (lastn_app k (repeat f k) (f :: fs)), lastn_repeat. f_equal. f_equal. lia.
Qed.
Lemma stacked_length (fs : list Ob) : fs <> [] -> length (stacked k fs) = k.
Proof. intros H. unfold stacked. destruct fs as [|f fs]; [congruence|]. rewrite app_length, repeat_length, lastn_length. lia. Qed.
Lemma push_all_ok (fr : list Ob) o : push_all k fr o = stacked k [o].
Proof.
  rewrite stacked_alt. unfold push_all.
  assert (G : forall m, Nat.iter m (fun fr => deque_append (Some k) fr o) fr = match m with 0 => fr | _ => lastn k (fr ++ repeat o m) end).
  { induction m as [|m IH]; [reflexivity|]. change (Nat.iter (S m) (fun fr => deque_append (Some k) fr o) fr) with (deque_append (Some k) (Nat.iter m (fun fr => deque_append (Some k) fr o) fr) o). rewrite IH.
    unfold deque_append, trunc. replace (repeat o (S m)) with (repeat o m ++ [o]) by (rewrite <- repeat_cons; reflexivity). destruct m as [|m]; [reflexivity|]. rewrite lastn_lastn_app, <- app_assoc. reflexivity. }
  rewrite G. destruct k as [|k']; [lia|]. rewrite lastn_app, repeat_length, Nat.sub_diag. cbn [lastn]. unfold lastn at 1. rewrite Nat.sub_0_r, skipn_all. cbn [app].
  rewrite (lastn_app (S k') (repeat o (S k')) [o]). rewrite !lastn_repeat. cbn [length]. replace (lastn (S k') [o]) with [o] by (symmetry; apply lastn_all; cbn; lia).
  rewrite <- repeat_cons. replace (Nat.min (S k') (S k')) with (S k') by lia. replace (Nat.min (S k' - 1) (S k')) with k' by lia. reflexivity.
Qed.
Lemma append_ok (fs : list Ob) o : fs <> [] -> deque_append (Some k) (stacked k fs) o = stacked k (fs ++ [o]).
Proof. intros H. rewrite !stacked_alt. destruct fs as [|f fs]; [congruence|]. unfold deque_append, trunc. rewrite lastn_lastn_app, <- app_assoc. reflexivity. Qed.
Lemma frames_nonempty (rs : list (reply Ob J)) fs : frames_of rs = Some fs -> fs <> [].
Proof.
  revert fs. induction rs as [|r rs IH] using rev_ind; intros fs H; [discriminate|]. unfold frames_of in *. rewrite fold_left_app in H. cbn [fold_left frames_step] in H.
  destruct r as [[o|]|[o|]]; auto; [injection H as <-; discriminate|]. destruct (fold_left frames_step rs None); [|discriminate]. injection H as <-. destruct l; discriminate.
Qed.

Definition fs_rel (e : env W Ob A J) (cmds : list (cmd A)) (w0 : W) (fr0 : list Ob) : Prop :=
  let '(w, rs) := run (env_do e) w0 cmds in
  let '((w', fr), rs') := run (env_do (frame_stack k e)) (w0, fr0) cmds in
  w' = w /\ length rs' = length rs /\
  (match frames_of rs with Some fs => fr = stacked k fs | None => True end) /\
  match rev rs, rev rs' with
  | r :: _, r' :: _ => match frames_of rs with Some fs => r' = with_obs (stacked k fs) r | None => True end
  | [], [] => True
  | _, _ => False
  end.
Lemma get_ob_ok (fs : list Ob) : fs <> [] -> get_ob k (stacked k fs) = Ok (stacked k fs).
Proof. intros H. unfold get_ob. rewrite (stacked_length fs H), Nat.eqb_refl. reflexivity. Qed.
Lemma frame_stack_ok e w0 fr0 : forall cmds, fs_rel e cmds w0 fr0.
Proof.
  induction cmds as [|c cmds IH] using rev_ind; [cbn; auto|]. unfold fs_rel in *. rewrite !run_snoc.
  destruct (run (env_do e) w0 cmds) as [w rs]. destruct (run (env_do (frame_stack k e)) (w0, fr0) cmds) as [[w' fr] rs'].
  destruct IH as (-> & Hl & Hfr & _). unfold frames_of in *.
  destruct c as [|a]; cbn [env_do frame_stack e_reset e_step].
  - destruct (e_reset e w) as [w1 [o|x]]; rewrite !rev_app_distr, fold_left_app; cbn [rev app fold_left frames_step]; rewrite !app_length; cbn [length].
    + rewrite push_all_ok, get_ob_ok by discriminate. cbn [with_obs]. repeat split; auto; lia.
    + split; [reflexivity|]. split; [lia|]. split; [exact Hfr|]. destruct (fold_left frames_step rs None); auto.
  - destruct (e_step e a w) as [w1 [o|x]]; rewrite !rev_app_distr, fold_left_app; cbn [rev app fold_left frames_step]; rewrite !app_length; cbn [length].
    + destruct (fold_left frames_step rs None) as [fs|] eqn:Ef.
      * assert (Hn := frames_nonempty rs fs Ef). rewrite Hfr, append_ok, get_ob_ok by (auto; destruct fs; discriminate). cbn [rbind with_obs]. repeat split; auto; lia.
      * repeat split; auto; lia.
    + split; [reflexivity|]. split; [lia|]. split; [exact Hfr|]. destruct (fold_left frames_step rs None); auto.
Qed.
End C25.

(** ** C25, several environments *)
Section C25V.
Context {W Ob A J : Type} (n k : nat) (Hn : 1 <= n) (Hk : 1 <= k) (e : venv W Ob A J).
Lemma vpush_nth : forall mask frames (obs : list Ob) i m f o, nth_error mask i = Some m -> nth_error frames i = Some f -> nth_error obs i = Some o ->
  nth_error (vpush k mask frames obs) i = Some (if m : bool then f else push_all k f o).
Proof. induction mask as [|m0 mask IH]; intros [|f0 frames] [|o0 obs] [|i] m f o H1 H2 H3; cbn [nth_error vpush] in *; try discriminate; [injection H1 as <-; injection H2 as <-; injection H3 as <-; reflexivity|]. eauto. Qed.
Lemma vpush_len : forall mask frames (obs : list Ob), length (vpush k mask frames obs) = length frames.
Proof. induction mask as [|m0 mask IH]; intros [|f0 frames] [|o0 obs]; cbn; auto. Qed.
Lemma vappend_nth : forall frames (obs : list Ob) i f o, nth_error frames i = Some f -> nth_error obs i = Some o ->
  nth_error (vappend k frames obs) i = Some (deque_append (Some k) f o).
Proof. induction frames as [|f0 frames IH]; intros [|o0 obs] [|i] f o H1 H2; cbn [nth_error vappend] in *; try discriminate; [congruence|]. eauto. Qed.
Lemma vappend_len : forall frames (obs : list Ob), length (vappend k frames obs) = length frames.
Proof. induction frames as [|f0 frames IH]; intros [|o0 obs]; cbn; auto. Qed.
Lemma nth_some {X} (l : list X) i : i < length l -> exists x, nth_error l i = Some x.
Proof. intros H. destruct (nth_error l i) eqn:E; [eauto|]. apply nth_error_None in E. lia. Qed.
Lemma vframes_nonempty i (h : list (vcmd A * vreply Ob J)) fs : vframes_of i h = Some fs -> fs <> [].
Proof.
  revert fs. induction h as [|[c r] h IH] using rev_ind; intros fs H; [discriminate|]. unfold vframes_of in *. rewrite fold_left_app in H. cbn [fold_left vframes_step] in H.
  destruct c as [m|a], r as [[obs|]|[outs|]]; auto.
  - destruct (match m with None => false | Some mask => nth i mask false end); auto. destruct (nth_error obs i); [injection H as <-; discriminate|auto].
  - destruct (fold_left (vframes_step i) h None) as [l|]; [|discriminate]. destruct (nth_error outs i); [injection H as <-; destruct l; discriminate|auto].
Qed.
Lemma combine_snoc {X Y} (a : list X) (b : list Y) x y : length a = length b -> combine (a ++ [x]) (b ++ [y]) = combine a b ++ [(x, y)].
Proof. revert b. induction a as [|x0 a IH]; intros [|y0 b] H; cbn in *; try lia; [reflexivity|]. f_equal. apply IH. lia. Qed.

Lemma vstacks_nth (h : list (vcmd A * vreply Ob J)) : forall is l, vstacks k h is = Some l -> length l = length is /\ forall j i, nth_error is j = Some i -> exists fs, vframes_of i h = Some fs /\ nth_error l j = Some (stacked k fs).
Proof.
  induction is as [|i is IH]; intros l H; cbn [vstacks] in H; [injection H as <-; split; [reflexivity|intros [|j]; discriminate]|].
  destruct (vframes_of i h) as [fs|] eqn:E; [|discriminate]. destruct (vstacks k h is) as [l'|] eqn:E2; [|discriminate]. injection H as <-.
  destruct (IH _ eq_refl) as [L1 L2]. split; [cbn; lia|]. intros [|j] i' H; cbn [nth_error] in *; [injection H as <-; eauto|eauto].
Qed.

Definition vfs_rel (cmds : list (vcmd A)) (w0 : W) : Prop :=
  let '(w, rs) := run (venv_do e) w0 cmds in
  let '((w', fr), rs') := run (venv_do (vector_frame_stack n k e)) (w0, repeat [] n) cmds in
  let h := combine cmds rs in
  w' = w /\ length fr = n /\
  (forall i fs, i < n -> vframes_of i h = Some fs -> nth_error fr i = Some (stacked k fs)) /\
  match rev rs, rev rs' with
  | r :: _, r' :: _ => forall s, vstacks k h (seq 0 n) = Some s -> r' = vwith_obs s r
  | [], [] => True
  | _, _ => False
  end.
Lemma nth_error_seq0 i m : i < m -> nth_error (seq 0 m) i = Some i.
Proof. intros H. rewrite (nth_error_nth' (seq 0 m) 0) by (rewrite seq_length; lia). rewrite seq_nth by lia. reflexivity. Qed.
Lemma stacks_eq fr (h : list (vcmd A * vreply Ob J)) s : length fr = n -> (forall i fs, i < n -> vframes_of i h = Some fs -> nth_error fr i = Some (stacked k fs)) -> vstacks k h (seq 0 n) = Some s -> fr = s /\ vget_ob n k fr = Ok fr.
Proof.
  intros Hl Hfr Hs. destruct (vstacks_nth h _ _ Hs) as [L1 L2]. rewrite seq_length in L1.
  assert (E : fr = s). { apply list_ext. intros i. destruct (le_lt_dec n i) as [Hi|Hi]; [rewrite !(proj2 (nth_error_None _ _)) by lia; reflexivity|].
    destruct (L2 i i (nth_error_seq0 i n Hi)) as (fs & F1 & F2). rewrite (Hfr i fs Hi F1). congruence. }
  split; [exact E|]. destruct (L2 0 0 (nth_error_seq0 0 n Hn)) as (fs & F1 & F2). unfold vget_ob. rewrite Hl, Nat.eqb_refl. cbn [passert rbind]. rewrite <- E in F2.
  destruct fr as [|f fr]; [discriminate|]. cbn in F2. injection F2 as ->. rewrite (stacked_length k Hk fs) by (eapply vframes_nonempty; eauto). rewrite Nat.eqb_refl. reflexivity.
Qed.
Lemma vector_frame_stack_ok w0 : v_complete n e -> forall cmds, masks_ok n cmds -> vfs_rel cmds w0.
Proof.
  intros [C1 C2]. induction cmds as [|c cmds IH] using rev_ind; intros Hm.
  - unfold vfs_rel. cbn [run combine]. repeat split; auto; [apply repeat_length|]. intros i fs _ H. discriminate H.
  - apply Forall_app in Hm. destruct Hm as [Hm Hc]. specialize (IH Hm). apply Forall_inv in Hc. unfold vfs_rel in *. rewrite !run_snoc.
    destruct (run (venv_do e) w0 cmds) as [w rs] eqn:Er. destruct (run (venv_do (vector_frame_stack n k e)) (w0, repeat [] n) cmds) as [[w' fr] rs'].
    pose proof (run_len _ _ _ _ _ Er) as Lrs. destruct IH as (-> & Hl & Hfr & _).
    destruct c as [m|a]; cbn [venv_do vector_frame_stack v_reset v_step].
    + destruct (v_reset e m w) as [w1 [obs|x]] eqn:Ev.
      * pose proof (C1 _ _ _ _ Ev) as Lo. set (mask := match m with None => repeat false n | Some m => m end).
        assert (Lm : length mask = n) by (unfold mask; destruct m; [exact Hc|apply repeat_length]).
        rewrite !rev_app_distr. cbn [rev app]. rewrite combine_snoc by lia. set (h := combine cmds rs) in *.
        assert (Hfr' : forall i fs, i < n -> vframes_of i (h ++ [(VCReset m, VRReset (Ok obs))]) = Some fs -> nth_error (vpush k mask fr obs) i = Some (stacked k fs)).
        { intros i fs Hi Hf. unfold vframes_of in Hf. rewrite fold_left_app in Hf. cbn [fold_left vframes_step] in Hf.
          destruct (nth_some mask i ltac:(lia)) as (b & Eb). destruct (nth_some fr i ltac:(lia)) as (f & Ef). destruct (nth_some obs i ltac:(lia)) as (o & Eo).
          rewrite (vpush_nth _ _ _ _ _ _ _ Eb Ef Eo). rewrite Eo in Hf.
          assert (Hb : (match m with None => false | Some mask => nth i mask false end) = b). { unfold mask in Eb. destruct m as [m|]; [exact (nth_error_nth _ _ _ Eb)|]. apply nth_error_In, repeat_spec in Eb. auto. }
          rewrite Hb in Hf. destruct b; [rewrite (Hfr i fs Hi Hf) in Ef; congruence|]. injection Hf as <-. now rewrite push_all_ok. }
        assert (Hl' : length (vpush k mask fr obs) = n) by (now rewrite vpush_len).
        split; [reflexivity|]. split; [exact Hl'|]. split; [exact Hfr'|].
        intros s Hs. destruct (stacks_eq _ _ _ Hl' Hfr' Hs) as [E1 E2]. rewrite E2, E1. reflexivity.
      * rewrite !rev_app_distr. cbn [rev app]. rewrite combine_snoc by lia. split; [reflexivity|]. split; [exact Hl|].
        assert (Hsame : forall i, vframes_of i (combine cmds rs ++ [(VCReset m, VRReset (Err x))]) = vframes_of i (combine cmds rs)) by (intros i; unfold vframes_of; rewrite fold_left_app; reflexivity).
        split; [intros i fs Hi Hf; rewrite Hsame in Hf; eauto|]. reflexivity.
    + destruct (v_step e a w) as [w1 [outs|x]] eqn:Ev.
      * pose proof (C2 _ _ _ _ Ev) as Lo. rewrite !rev_app_distr. cbn [rev app]. rewrite combine_snoc by lia. set (h := combine cmds rs) in *.
        assert (Hfr' : forall i fs, i < n -> vframes_of i (h ++ [(VCStep a, VRStep (Ok outs))]) = Some fs -> nth_error (vappend k fr (map o_obs outs)) i = Some (stacked k fs)).
        { intros i fs Hi Hf. unfold vframes_of in Hf. rewrite fold_left_app in Hf. cbn [fold_left vframes_step] in Hf. fold (vframes_of i h) in Hf.
          destruct (nth_some outs i ltac:(lia)) as (o & Eo). rewrite Eo in Hf. destruct (vframes_of i h) as [l|] eqn:Eh; [|discriminate]. injection Hf as <-.
          rewrite (vappend_nth _ _ _ _ _ (Hfr i l Hi Eh) (map_nth_error o_obs _ _ Eo)). now rewrite append_ok by (try exact Hk; exact (vframes_nonempty i h l Eh)). }
        assert (Hl' : length (vappend k fr (map o_obs outs)) = n) by (now rewrite vappend_len).
        split; [reflexivity|]. split; [exact Hl'|]. split; [exact Hfr'|].
        intros s Hs. destruct (stacks_eq _ _ _ Hl' Hfr' Hs) as [E1 E2]. rewrite E2. cbn [rbind]. rewrite E1. reflexivity.
      * rewrite !rev_app_distr. cbn [rev app]. rewrite combine_snoc by lia. split; [reflexivity|]. split; [exact Hl|].
        assert (Hsame : forall i, vframes_of i (combine cmds rs ++ [(VCStep a, VRStep (Err x))]) = vframes_of i (combine cmds rs)) by (intros i; unfold vframes_of; rewrite fold_left_app; reflexivity).
        split; [intros i fs Hi Hf; rewrite Hsame in Hf; eauto|]. reflexivity.
Qed.
End C25V.

(** ** C26 *)
Section C26.
Context {W Ob A J : Type} (m : nat) (e : env W Ob A J).
Lemma time_limit_ok w0 : forall cmds,
  let '((w, el), rs) := run (env_do (continuing_time_limit m (logged e))) ((w0, []), None) cmds in
  let h := snd w in
  el = steps_since h /\
  forall a, let '(w1, r) := e_step (continuing_time_limit m (logged e)) a (w, el) in
    match steps_since h with
    | None => r = Err AssertionError /\ fst w1 = w
    | Some n =>
        match e_step e a (fst w) with
        | (w2, Ok o) => fst w1 = (w2, h ++ [(CStep a, RStep (Ok o))]) /\ r = Ok (mkOut (o_obs o) (o_rew o) (o_done o) ((m <=? S n) || o_needs o) (o_info o))
        | (w2, Err x) => fst w1 = (w2, h ++ [(CStep a, RStep (Err x))]) /\ r = Err x
        end
    end.
Proof.
  induction cmds as [|c cmds IH] using rev_ind.
  - cbn [run snd steps_since fold_left]. split; [reflexivity|]. intros a. cbn. auto.
  - rewrite run_snoc. destruct (run (env_do (continuing_time_limit m (logged e))) ((w0, []), None) cmds) as [[[w h] el] rs]. cbn zeta in IH. cbn [snd fst] in IH. destruct IH as [-> _].
    assert (G : forall w h, forall a, let '(w1, r) := e_step (continuing_time_limit m (logged e)) a ((w, h), steps_since h) in
      match steps_since h with
      | None => r = Err AssertionError /\ fst w1 = (w, h)
      | Some n =>
        match e_step e a w with
        | (w2, Ok o) => fst w1 = (w2, h ++ [(CStep a, RStep (Ok o))]) /\ r = Ok (mkOut (o_obs o) (o_rew o) (o_done o) ((m <=? S n) || o_needs o) (o_info o))
        | (w2, Err x) => fst w1 = (w2, h ++ [(CStep a, RStep (Err x))]) /\ r = Err x
        end
      end).
    { clear. intros w h a. cbn [e_step continuing_time_limit logged]. destruct (steps_since h) as [n|]; [|cbn; auto]. destruct (e_step e a w) as [w2 [o|x]]; cbn [fst]; (split; [reflexivity|]); [|reflexivity].
      destruct (m <=? S n); reflexivity. }
    destruct c as [|a]; cbn [env_do].
    + cbn [e_reset continuing_time_limit logged]. destruct (e_reset e w) as [w1 r1]. cbn zeta. cbn [snd fst]. assert (E : steps_since (h ++ [(@CReset A, RReset r1)]) = Some 0). { unfold steps_since. rewrite fold_left_app. reflexivity. }
      split; [now rewrite E|]. intros a. specialize (G w1 (h ++ [(CReset, RReset r1)]) a). rewrite E in *. exact G.
    + destruct (e_step (continuing_time_limit m (logged e)) a ((w, h), steps_since h)) as [[[w1 h1] el1] r1] eqn:Es. cbn zeta. cbn [snd fst].
      cbn [e_step continuing_time_limit logged] in Es. destruct (steps_since h) as [n|] eqn:En.
      * destruct (e_step e a w) as [w2 [o|x]]; injection Es as <- <- <- <-.
        -- assert (E : steps_since (h ++ [(CStep a, RStep (Ok o))]) = Some (S n)). { unfold steps_since in *. rewrite fold_left_app, En. reflexivity. }
           split; [now rewrite E|]. intros b. specialize (G w2 (h ++ [(CStep a, RStep (Ok o))]) b). rewrite E in *. exact G.
        -- assert (E : steps_since (h ++ [(CStep a, RStep (@Err (out Ob J) x))]) = Some n). { unfold steps_since in *. rewrite fold_left_app, En. reflexivity. }
           split; [now rewrite E|]. intros b. specialize (G w2 (h ++ [(CStep a, RStep (Err x))]) b). rewrite E in *. exact G.
      * injection Es as <- <- <- <-. split; [now rewrite En|]. intros b. specialize (G w h b). rewrite En in *. exact G.
Qed.
End C26.

(** ** C27 *)
Section C27.
Context {W A J : Type} (e : env W (list Z) A J).
Lemma skip_loop_ok skip a : forall n i total buf w h last w' buf' h' total' o,
  i + n = skip -> (n = 0 -> False) ->
  skip_loop skip (logged e) a n i total buf (w, h) last = ((w', h'), buf', Ok (total', o)) ->
  exists outs lst, h' = h ++ step_calls a (outs ++ [lst]) /\ length outs < n /\ Forall (fun x => over x = false) outs /\
    (S (length outs) = n \/ over lst = true) /\ (total' == total + rewards (outs ++ [lst]))%Q /\ o = lst /\
    (S (length outs) = n ->
       (match rev outs with p :: _ => fst buf' = o_obs p | [] => (fst buf' = fst buf) end) /\ snd buf' = o_obs lst).
Proof.
  induction n as [|n IH]; intros i total buf w h last w' buf' h' total' o Hi Hn H; [elim Hn; reflexivity|]. clear Hn. cbn [skip_loop logged e_step] in H.
  destruct (e_step e a w) as [w1 [o1|x]] eqn:Es; [|discriminate].
  set (buf1 := if S (S i) =? skip then (o_obs o1, snd buf) else buf) in *. set (buf2 := if S i =? skip then (fst buf1, o_obs o1) else buf1) in *.
  destruct (o_done o1 || o_needs o1) eqn:Eo.
  - injection H as <- <- <- <- <-. exists [], o1. split; [reflexivity|]. split; [cbn; lia|]. split; [constructor|]. split; [right; exact Eo|].
    split; [unfold rewards; cbn; lra|]. split; [reflexivity|]. cbn [length rev]. intros Hl. assert (n = 0) by lia. subst n. unfold buf2, buf1.
    replace (S i =? skip) with true by lia. replace (S (S i) =? skip) with false by lia. cbn. auto.
  - destruct n as [|n].
    + cbn [skip_loop] in H. injection H as <- <- <- <- <-. exists [], o1. split; [reflexivity|]. split; [cbn; lia|]. split; [constructor|]. split; [left; reflexivity|].
      split; [unfold rewards; cbn; lra|]. split; [reflexivity|]. cbn [length rev]. intros _. unfold buf2, buf1.
      replace (S i =? skip) with true by lia. replace (S (S i) =? skip) with false by lia. cbn. auto.
    + apply IH in H; [|lia|lia]. destruct H as (outs & lst & E1 & E2 & E3 & E4 & E5 & E6 & E7).
      exists (o1 :: outs), lst. split; [rewrite E1, <- app_assoc; reflexivity|]. split; [cbn; lia|]. split; [constructor; assumption|]. split; [cbn [length]; lia|].
      split. { rewrite E5. unfold rewards. cbn [app map fold_right]. lra. }
      split; [exact E6|]. cbn [length]. intros Hl. destruct (E7 ltac:(lia)) as [F1 F2]. split; [|exact F2].
      cbn [rev]. destruct (rev outs) as [|p t] eqn:Er; cbn [app].
      * assert (outs = []) by (apply (f_equal (@rev _)) in Er; rewrite rev_involutive in Er; exact Er). subst outs. cbn [length] in Hl. rewrite F1. unfold buf2, buf1.
        replace (S i =? skip) with false by lia. replace (S (S i) =? skip) with true by lia. reflexivity.
      * exact F1.
Qed.
Lemma max_and_skip_ok skip a w h buf w' h' buf' r : 1 <= skip ->
  e_step (max_and_skip skip (logged e)) a ((w, h), buf) = (((w', h'), buf'), Ok r) ->
  exists outs lst, h' = h ++ step_calls a (outs ++ [lst]) /\ length outs < skip /\ Forall (fun x => over x = false) outs /\
    (S (length outs) = skip \/ over lst = true) /\ (o_rew r == rewards (outs ++ [lst]))%Q /\
    o_done r = o_done lst /\ o_needs r = o_needs lst /\ o_info r = o_info lst /\
    (S (length outs) = skip -> forall before prev, outs = before ++ [prev] -> o_obs r = pixmax (o_obs prev) (o_obs lst)).
Proof.
  intros Hs H. cbn [e_step max_and_skip] in H.
  destruct (skip_loop skip (logged e) a skip 0 0 buf (w, h) None) as [[[w1 h1] buf1] [[total o]|x]] eqn:El; [|discriminate]. injection H as <- <- <- <-.
  apply skip_loop_ok in El; [|lia|lia]. destruct El as (outs & lst & E1 & E2 & E3 & E4 & E5 & E6 & E7). subst o.
  exists outs, lst. cbn [o_rew o_done o_needs o_info o_obs]. split; [exact E1|]. split; [exact E2|]. split; [exact E3|]. split; [exact E4|]. split; [rewrite E5; lra|].
  split; [reflexivity|]. split; [reflexivity|]. split; [reflexivity|]. intros Hl before prev Ho. destruct (E7 Hl) as [F1 F2]. rewrite Ho, rev_app_distr in F1. cbn [rev app] in F1. now rewrite F1, F2.
Qed.
End C27.

(** ** C28 *)
Section C28.
Context {W Ob A J : Type} (lives : W -> Z) (noop : A) (e : env W Ob A J).
Notation EL := (episodic_life (fun wl : W * list (cmd A * reply Ob J) => lives (fst wl)) noop (logged e)).
Lemma run_snoc_inv {S O R} (step : S -> O -> S * R) s ops o s2 rs : run step s (ops ++ [o]) = (s2, rs) ->
  exists s1 rs1 r, run step s ops = (s1, rs1) /\ step s1 o = (s2, r) /\ rs = rs1 ++ [r].
Proof. rewrite run_snoc. destruct (run step s ops) as [s1 rs1]. destruct (step s1 o) as [s3 r] eqn:E. intros H. injection H as <- <-. eauto 7. Qed.
Lemma game_over_snoc (h : list (cmd A * reply Ob J)) x : game_over (h ++ [x]) = match x with (CStep _, RStep (Ok o)) => over o | _ => false end.
Proof. unfold game_over. rewrite rev_app_distr. cbn [rev app]. destruct x as [[|a] [[?|?]|[?|?]]]; reflexivity. Qed.

(** After a step that did not raise. *)
Lemma episodic_after_step w0 cmds a w h lv nrr rs o :
  run (env_do EL) ((w0, []), (0%Z, true)) (cmds ++ [CStep a]) = (((w, h), (lv, nrr)), rs ++ [RStep (Ok o)]) ->
  nrr = game_over h /\ lv = lives w.
Proof.
  intros H. apply run_snoc_inv in H. destruct H as ([[w1 h1] [lv1 nrr1]] & rs1 & r & _ & Hs & Hr). cbn [env_do e_step episodic_life logged] in Hs.
  destruct (e_step e a w1) as [w2 [o2|x]]; injection Hs as <- <- <- <- <-.
  - split; [|reflexivity]. rewrite game_over_snoc. reflexivity.
  - apply app_inj_tail in Hr. destruct Hr as [_ Hr]. discriminate.
Qed.
Lemma episodic_lives w0 cmds w h lv nrr rs r :
  run (env_do EL) ((w0, []), (0%Z, true)) cmds = (((w, h), (lv, nrr)), rs ++ [r]) -> ok_reply r = true -> lv = lives w.
Proof.
  destruct cmds as [|c cmds _] using rev_ind; intros H Hok; [cbn in H; injection H as _ _ _ _ H; destruct rs; discriminate|].
  apply run_snoc_inv in H. destruct H as ([[w1 h1] [lv1 nrr1]] & rs1 & r1 & _ & Hs & Hr). apply app_inj_tail in Hr. destruct Hr as [_ <-].
  destruct c as [|a]; cbn [env_do e_step e_reset episodic_life logged] in Hs.
  - destruct nrr1; [destruct (e_reset e w1) as [w2 [o2|x]]|destruct (e_step e noop w1) as [w2 [o2|x]]]; injection Hs as <- <- <- <- <-; try discriminate; reflexivity.
  - destruct (e_step e a w1) as [w2 [o2|x]]; injection Hs as <- <- <- <- <-; [reflexivity|discriminate].
Qed.
End C28.

(** ** C29 *)
Section C29.
Context {W Ob A J : Type} (e : env W Ob A J).
Lemma reward_wrapper_ok f w cmds : run (env_do (reward_wrapper f e)) w cmds = let (w', rs) := run (env_do e) w cmds in (w', map (with_reward f) rs).
Proof.
  revert w. induction cmds as [|c cmds IH]; intros w; cbn [run]; [reflexivity|]. destruct c as [|a]; cbn [env_do reward_wrapper e_reset e_step].
  - destruct (e_reset e w) as [w1 r]. rewrite IH. destruct (run (env_do e) w1 cmds). reflexivity.
  - destruct (e_step e a w) as [w1 [o|x]]; rewrite IH; destruct (run (env_do e) w1 cmds); reflexivity.
Qed.
Lemma scale_reward_ok scale w orig cmds : let (w', rs) := run (env_do e) w cmds in
  exists orig', run (env_do (scale_reward scale e)) (w, orig) cmds = ((w', orig'), map (with_reward (Qmult scale)) rs).
Proof.
  revert w orig. induction cmds as [|c cmds IH]; intros w orig; cbn [run]; [eexists; reflexivity|]. destruct c as [|a]; cbn [env_do scale_reward e_reset e_step].
  - destruct (e_reset e w) as [w1 r]. specialize (IH w1 orig). destruct (run (env_do e) w1 cmds). destruct IH as [o' ->]. exists o'. reflexivity.
  - destruct (e_step e a w) as [w1 [o|x]].
    + specialize (IH w1 (Some (o_rew o))). destruct (run (env_do e) w1 cmds). destruct IH as [o' ->]. exists o'. reflexivity.
    + specialize (IH w1 orig). destruct (run (env_do e) w1 cmds). destruct IH as [o' ->]. exists o'. reflexivity.
Qed.
Lemma action_wrapper_ok {A'} (f : A' -> A) w cmds :
  run (env_do (action_wrapper f e)) w cmds = run (env_do e) w (map (fun c => match c with CReset => CReset | CStep a => CStep (f a) end) cmds).
Proof.
  revert w. induction cmds as [|c cmds IH]; intros w; cbn [run map]; [reflexivity|]. destruct c as [|a]; cbn [env_do action_wrapper e_reset e_step].
  - destruct (e_reset e w) as [w1 r]. now rewrite IH.
  - destruct (e_step e (f a) w) as [w1 r]. now rewrite IH.
Qed.
End C29.
Lemma sign_ok x : ((x > 0 -> sign x = 1) /\ (x < 0 -> sign x = -1) /\ (x == 0 -> sign x = 0))%Q.
Proof.
  unfold sign. destruct (Qle_bool x 0) eqn:E1.
  - apply Qle_bool_iff in E1. destruct (Qle_bool 0 x) eqn:E2.
    + apply Qle_bool_iff in E2. repeat split; intros; try reflexivity; exfalso; lra.
    + assert (~ (0 <= x)%Q) by (intros H; apply Qle_bool_iff in H; congruence). repeat split; intros; try reflexivity; exfalso; lra.
  - assert (~ (x <= 0)%Q) by (intros H; apply Qle_bool_iff in H; congruence). repeat split; intros; try reflexivity; exfalso; lra.
Qed.
Definition affine (l h x : Q) : Q := ((x + 1) * ((h - l) / 2) + l)%Q.
Lemma normalize_nth : forall low high a i l h x, nth_error low i = Some l -> nth_error high i = Some h -> nth_error a i = Some x ->
  nth_error (normalize_action low high a) i = Some (affine l h x).
Proof.
  unfold normalize_action. induction low as [|l0 low IH]; intros [|h0 high] [|a0 a] [|i] l h x H1 H2 H3; cbn [nth_error combine map] in *; try discriminate.
  - injection H1 as ->. injection H2 as ->. injection H3 as ->. reflexivity.
  - eauto.
Qed.
Lemma affine_ok l h x : (affine l h x == (h - l) / 2 * x + (h + l) / 2)%Q.
Proof. unfold affine. field. Qed.
Lemma affine_range l h x : (l < h -> (-1 <= x <= 1 <-> l <= affine l h x <= h))%Q.
Proof. intros H. unfold affine. split; intros [H1 H2]; split; (assert ((h - l) / 2 > 0)%Q by (apply Qlt_shift_div_l; lra)); set (c := ((h - l) / 2)%Q) in *; assert (h == l + 2 * c)%Q by (unfold c; field); nra. Qed.
Lemma affine_inj l h x y : (l < h -> affine l h x == affine l h y -> x == y)%Q.
Proof.
  intros H E. unfold affine in E. assert (Hc : ((h - l) / 2 > 0)%Q) by (apply Qlt_shift_div_l; lra). set (c := ((h - l) / 2)%Q) in *.
  assert (E' : ((x + 1) * c == (y + 1) * c)%Q) by lra. apply Qmult_inj_r in E'; [lra|]. intros Hz. rewrite Hz in Hc. lra.
Qed.
Lemma affine_surj l h y : (l < h -> affine l h ((y - l) * 2 / (h - l) - 1) == y)%Q.
Proof. intros H. unfold affine. field. lra. Qed.

(** ** C57 *)
Section C57.
Context {W Ob A J : Type} (e : env W Ob A J).
Lemma latest_snoc (h : list (cmd A * reply Ob J)) c r : latest_obs (h ++ [(c, r)]) = match r with RReset (Ok o) => Some o | RStep (Ok o) => Some (o_obs o) | _ => None end.
Proof. unfold latest_obs. rewrite rev_app_distr. cbn [rev app]. destruct r as [[?|?]|[?|?]]; reflexivity. Qed.
Lemma noop_loop_ok noop : forall n w h w' h' o obs, 1 <= n ->
  noop_loop (logged e) noop n (w, h) obs = ((w', h'), Ok o) ->
  exists h1, h' = h ++ h1 /\ latest_obs h1 = Some o /\ game_over h1 = false /\ length (filter (fun cr => match fst cr with CStep _ => true | CReset => false end) h1) = n.
Proof.
  induction n as [|n IH]; intros w h w' h' o obs Hn H; [lia|]. cbn [noop_loop logged e_step e_reset] in H.
  destruct (e_step e noop w) as [w1 [o1|x]]; [|discriminate]. destruct (o_done o1 || o_needs o1) eqn:Eo.
  - destruct (e_reset e w1) as [w2 [o2|x]]; [|discriminate]. destruct n as [|n].
    + cbn [noop_loop] in H. injection H as <- <- <-. exists [(CStep noop, RStep (Ok o1)); (CReset, RReset (Ok o2))]. rewrite <- app_assoc. cbn. auto.
    + apply IH in H; [|lia]. destruct H as (h1 & E1 & E2 & E3 & E4). exists ([(CStep noop, RStep (Ok o1)); (CReset, RReset (Ok o2))] ++ h1). rewrite E1, <- !app_assoc.
      split; [reflexivity|]. unfold latest_obs, game_over in *. rewrite rev_app_distr. destruct (rev h1) as [|y t]; [discriminate|]. cbn [app]. split; [exact E2|]. split; [exact E3|]. cbn [filter fst app length]. lia.
  - destruct n as [|n].
    + cbn [noop_loop] in H. injection H as <- <- <-. exists [(CStep noop, RStep (Ok o1))]. repeat split; auto.
    + apply IH in H; [|lia]. destruct H as (h1 & E1 & E2 & E3 & E4). exists ([(CStep noop, RStep (Ok o1))] ++ h1). rewrite E1, <- !app_assoc.
      split; [reflexivity|]. unfold latest_obs, game_over in *. rewrite rev_app_distr. destruct (rev h1) as [|y t]; [discriminate|]. cbn [app]. split; [exact E2|]. split; [exact E3|]. cbn [filter fst app length]. lia.
Qed.
Lemma noop_reset_ok noops noop w h w' h' o : e_reset (noop_reset noops noop (logged e)) (w, h) = ((w', h'), Ok o) ->
  exists r h1, h' = h ++ (CReset, RReset r) :: h1 /\ latest_obs h1 = Some o /\ game_over h1 = false /\
  length (filter (fun cr => match fst cr with CStep _ => true | CReset => false end) h1) = noops.
Proof.
  cbn [e_reset noop_reset logged]. destruct (e_reset e w) as [w1 [o1|x]]; [|discriminate]. destruct (noops =? 0) eqn:En; [discriminate|]. intros H.
  apply noop_loop_ok in H; [|lia]. destruct H as (h1 & E1 & E2 & E3 & E4). exists (Ok o1), h1. rewrite E1, <- app_assoc. auto.
Qed.
Lemma fire_reset_ok one two w h w' h' o : e_reset (fire_reset one two (logged e)) (w, h) = ((w', h'), Ok o) ->
  game_over h' = false /\ exists h1 o2, o = o_obs o2 /\
    (if over o2 then exists r, h' = h1 ++ [(CStep two, RStep (Ok o2)); (CReset, RReset r)] else h' = h1 ++ [(CStep two, RStep (Ok o2))]).
Proof.
  cbn [e_reset fire_reset logged]. destruct (e_reset e w) as [w1 [o1|x]]; [|discriminate]. intros H.
  destruct (fire_step (logged e) one (w1, h ++ [(CReset, RReset (Ok o1))])) as [[w2 h2] [o2|x]] eqn:E1; [|discriminate]. clear E1.
  unfold fire_step in H. cbn [e_step e_reset logged] in H. destruct (e_step e two w2) as [w3 [o3|x]]; [|discriminate].
  destruct (o_done o3 || o_needs o3) eqn:Eo.
  - destruct (e_reset e w3) as [w4 [o4|x]]; [|discriminate]. injection H as <- <- <-. split; [rewrite game_over_snoc; reflexivity|].
    exists h2, o3. split; [reflexivity|]. unfold over. rewrite Eo. exists (Ok o4). now rewrite <- app_assoc.
  - injection H as <- <- <-. split; [rewrite game_over_snoc; exact Eo|]. exists h2, o3. split; [reflexivity|]. unfold over. now rewrite Eo.
Qed.
End C57.

(** ** C58 *)
Section C58.
Context {W Ob A J : Type} (e : env W Ob A J).
Lemma timestep_limited_ok limit w0 cmds a :
  let '((w, t), rs) := run (env_do (timestep_limited limit (logged e))) ((w0, []), 1) cmds in
  let n := S (steps_in_episode (snd w)) in
  match e_step e a (fst w), e_step (timestep_limited limit (logged e)) a (w, t) with
  | (_, Ok o), (_, r) => r = Ok (mkOut (o_obs o) (o_rew o) ((limit <=? n) || o_done o) (o_needs o) (o_info o))
  | (_, Err x), (_, r) => r = Err x
  end.
Proof.
  assert (I : forall cmds, let '((w, t), rs) := run (env_do (timestep_limited limit (logged e))) ((w0, []), 1) cmds in t = S (steps_in_episode (snd w))).
  { clear cmds. induction cmds as [|c cmds IH] using rev_ind; [reflexivity|]. rewrite run_snoc. destruct (run (env_do (timestep_limited limit (logged e))) ((w0, []), 1) cmds) as [[[w h] t] rs]. cbn [snd] in IH.
    destruct c as [|b]; cbn [env_do timestep_limited logged e_reset e_step].
    - destruct (e_reset e w) as [w1 r]. cbn [snd]. unfold steps_in_episode. rewrite fold_left_app. reflexivity.
    - destruct (e_step e b w) as [w1 [o|x]]; cbn [snd]; unfold steps_in_episode in *; rewrite fold_left_app; cbn [fold_left]; lia. }
  specialize (I cmds). destruct (run (env_do (timestep_limited limit (logged e))) ((w0, []), 1) cmds) as [[[w h] t] rs]. cbn [snd fst] in *. subst t.
  cbn [timestep_limited logged e_step]. cbn zeta. destruct (e_step e a w) as [w1 [o|x]]; [|reflexivity]. destruct (limit <=? S (steps_in_episode h)); reflexivity.
Qed.
Lemma repeat_loop_ok a : forall n total w h last w' h' r, 1 <= n ->
  repeat_loop (logged e) a n total (w, h) last = ((w', h'), Ok r) ->
  exists outs lst, h' = h ++ step_calls a (outs ++ [lst]) /\ length outs < n /\ Forall (fun x => o_done x = false) outs /\
    (S (length outs) = n \/ o_done lst = true) /\ (o_rew r == total + rewards (outs ++ [lst]))%Q /\
    o_obs r = o_obs lst /\ o_done r = o_done lst /\ o_needs r = o_needs lst /\ o_info r = o_info lst.
Proof.
  induction n as [|n IH]; intros total w h last w' h' r Hn H; [lia|]. cbn [repeat_loop logged e_step] in H. destruct (e_step e a w) as [w1 [o1|x]]; [|discriminate].
  destruct (o_done o1) eqn:Eo.
  - injection H as <- <- <-. exists [], o1. cbn [o_rew o_obs o_done o_needs o_info app length]. split; [reflexivity|]. split; [lia|]. split; [constructor|]. split; [auto|]. split; [unfold rewards; cbn; lra|]. auto.
  - destruct n as [|n].
    + cbn [repeat_loop] in H. injection H as <- <- <-. exists [], o1. cbn [o_rew o_obs o_done o_needs o_info app length]. split; [reflexivity|]. split; [lia|]. split; [constructor|]. split; [auto|]. split; [unfold rewards; cbn; lra|]. auto.
    + apply IH in H; [|lia]. destruct H as (outs & lst & E1 & E2 & E3 & E4 & E5 & E6). exists (o1 :: outs), lst. split; [rewrite E1, <- app_assoc; reflexivity|]. split; [cbn; lia|].
      split; [constructor; assumption|]. split; [cbn [length]; lia|]. split; [|exact E6]. rewrite E5. unfold rewards. cbn [app map fold_right]. lra.
Qed.
End C58.
