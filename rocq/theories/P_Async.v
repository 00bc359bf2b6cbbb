From Verif Require Import Base P_Base M_Train S_Train P_Train M_Async S_Async.
From Coq Require Import ZifyBool ZifyNat Sorted.
Open Scope nat_scope.

(** * Counting elements of a list under list_set *)
Definition b2n (b : bool) : nat := if b then 1 else 0.
Definition count {X} (f : X -> bool) (l : list X) : nat := length (filter f l).
Lemma count_set {X} (f : X -> bool) : forall (l : list X) i x y, nth_error l i = Some x ->
  count f (list_set l i y) + b2n (f x) = count f l + b2n (f y).
Proof.
  unfold count. induction l as [|h t IH]; intros [|i] x y H; cbn in *; try discriminate.
  - injection H as ->. destruct (f x), (f y); cbn; lia.
  - specialize (IH i x y H). destruct (f h); cbn; lia.
Qed.
Lemma list_set_length {X} : forall (l : list X) i y, length (list_set l i y) = length l.
Proof. induction l; intros [|i] y; cbn; auto. Qed.
Lemma nth_list_set_eq {X} : forall (l : list X) i x y, nth_error l i = Some x -> nth_error (list_set l i y) i = Some y.
Proof. induction l; intros [|i] x y H; cbn in *; try discriminate; eauto. Qed.
Lemma nth_list_set_neq {X} : forall (l : list X) i j y, i <> j -> nth_error (list_set l i y) j = nth_error l j.
Proof. induction l; intros [|i] [|j] y H; cbn in *; auto; try lia. Qed.
Lemma count_le {X} (f : X -> bool) l : count f l <= length l.
Proof. unfold count. induction l as [|h t IH]; cbn; [lia|]. destruct (f h); cbn; lia. Qed.
Lemma count_zero {X} (f : X -> bool) l i x : count f l = 0 -> nth_error l i = Some x -> f x = false.
Proof.
  unfold count. revert i. induction l as [|h t IH]; intros [|i] H E; cbn in *; try discriminate.
  - injection E as ->. destruct (f x); [discriminate|reflexivity].
  - destruct (f h); [discriminate|]. eauto.
Qed.
Lemma count_ext {X} (f g : X -> bool) l : Forall (fun x => f x = g x) l -> count f l = count g l.
Proof. unfold count. induction 1 as [|x l E H IH]; cbn; [reflexivity|]. rewrite E. destruct (g x); cbn; auto. Qed.

(** * Projections *)
Lemma obtained_app a b : obtained (a ++ b) = obtained a ++ obtained b. Proof. apply flat_map_app. Qed.
Lemma finishers_app a b : finishers (a ++ b) = finishers a ++ finishers b. Proof. apply flat_map_app. Qed.
Lemma aview_app i a b : aview i (a ++ b) = aview i a ++ aview i b. Proof. apply flat_map_app. Qed.
Lemma ahook_calls_app i a b : ahook_calls i (a ++ b) = ahook_calls i a ++ ahook_calls i b. Proof. apply flat_map_app. Qed.
Lemma obtained_by_app i a b : obtained_by i (a ++ b) = obtained_by i a ++ obtained_by i b.
Proof. unfold obtained_by. now rewrite obtained_app, filter_app, map_app. Qed.

Section Proofs.
Context (P : async_args) (Hsteps : 1 <= as_steps P).
Notation steps := (as_steps P).
Notation PA := (protocol_args P).

Definition after_count (p : pc) : bool :=
  match p with PcHook _ | PcCheck | PcEval | PcEpisodes | PcRecheck | PcFinish | PcSuccess | PcDone | PcRaised => true | _ => false end.
Definition leaving (g : shared) (k : worker) : Prop :=
  match wk_pc k with
  | PcEval | PcEpisodes | PcRecheck => wk_done k || wk_reset k = true \/ steps <= wk_gt k \/ sh_stop g = true
  | PcFinish | PcSuccess | PcDone => steps <= wk_gt k \/ sh_stop g = true
  | _ => True
  end.
Definition phase_ok (k : worker) (p : phase) : Prop :=
  match wk_pc k with
  | PcReset true => p = Idle
  | PcReset false => p = Ended
  | PcAct | PcException => p = Running (wk_len k)
  | PcStep => p = Acting (wk_len k)
  | PcObserve => p = Stepped (wk_len k) (wk_r k) (wk_done k) (wk_needs k) /\
      wk_reset k = (match as_max_episode_len P with Some m => wk_len k =? m | None => false end) || wk_needs k
  | PcCount | PcHook _ | PcCheck | PcEval | PcEpisodes | PcRecheck => p = if wk_done k || wk_reset k then Ended else Running (wk_len k)
  | _ => True
  end.
Definition all_hooks (l : list nat) : list (nat * nat) := flat_map (fun t => map (pair t) (seq 0 (as_nhooks P))) l.
Definition hooks_ok (i : nat) (k : worker) (tr : list (nat * aev)) : Prop :=
  match wk_pc k with
  | PcRaised => True
  | PcHook j => j <= as_nhooks P /\ exists l, obtained_by i tr = l ++ [wk_gt k] /\ ahook_calls i tr = all_hooks l ++ map (pair (wk_gt k)) (seq 0 j)
  | _ => ahook_calls i tr = all_hooks (obtained_by i tr)
  end.
Definition winv (i : nat) (k : worker) (g : shared) (tr : list (nat * aev)) : Prop :=
  (steps <= wk_gt k -> after_count (wk_pc k) = true) /\ leaving g k /\
  (exists p, advances PA Idle (aview i tr) p /\ phase_ok k p) /\ hooks_ok i k tr.

Definition past (k : worker) : bool := steps <=? wk_gt k.
Definition at_end (k : worker) : bool := wk_gt k =? steps.
Definition finished (k : worker) : bool := at_end k && match wk_pc k with PcSuccess | PcDone => true | _ => false end.

Definition ginv (s : state) (tr : list (nat * aev)) : Prop :=
  let (g, ws) := s in
  map snd (obtained tr) = seq 1 (sh_counter g) /\
  count past ws = sh_counter g - (steps - 1) /\
  count at_end ws = b2n (steps <=? sh_counter g) /\
  length (finishers tr) = count finished ws /\
  (forall i k, nth_error ws i = Some k -> winv i k g tr).

(** What one step of one worker emits and changes. *)
Ltac proj := rewrite ?aview_app, ?obtained_by_app, ?ahook_calls_app; unfold obtained_by, obtained, ahook_calls, aview;
  cbn [map flat_map filter app]; rewrite ?Nat.eqb_refl; cbn [app map snd]; rewrite ?app_nil_r.

Lemma advances_snoc p l q e r : advances PA p l q -> advance PA q e r -> advances PA p (l ++ [e]) r.
Proof. intros H1 H2. eapply advances_app; [exact H1|]. now apply advances_one. Qed.

Lemma raised_view i k tr p e (H : advances PA Idle (aview i tr ++ [e]) p) :
  exists q, advances PA Idle (aview i tr ++ e :: (if i =? 0 then [ESave (wk_gt k) Except] else [])) q.
Proof.
  destruct (i =? 0); [|eauto]. exists p. change (e :: [ESave (wk_gt k) Except]) with ([e] ++ [ESave (wk_gt k) Except]).
  rewrite app_assoc. eapply advances_snoc; [exact H|constructor].
Qed.

Lemma settled_flag (b : bool) k : settled (if b then Ended else Running k).
Proof. destruct b; [now left|right; eauto]. Qed.

(** Effect of one worker step on the counter, on the worker's number and on the record. *)
Definition count_step (g g' : shared) (k k' : worker) (es : list aev) : Prop :=
  (sh_counter g' = sh_counter g /\ wk_gt k' = wk_gt k /\ flat_map (fun e => match e with AGot t => [t] | _ => [] end) es = []) \/
  (sh_counter g' = S (sh_counter g) /\ wk_gt k' = S (sh_counter g) /\ wk_pc k = PcCount /\ wk_pc k' = PcHook 0 /\ es = [AGot (S (sh_counter g))]).
Definition fin (es : list aev) : nat := length (filter (fun e => match e with AUser (ESave _ Finish) => true | _ => false end) es).

Lemma user_cases i c g k e next g' k' es : user i c g k e next = (g', k', es) ->
  (g' = g /\ k' = set_pc k PcRaised /\ es = AUser e :: (if i =? 0 then [AUser (ESave (wk_gt k) Except)] else [])) \/
  (c_raise c = false /\ g' = fst next /\ k' = snd next /\ es = [AUser e]).
Proof. unfold user, raised. destruct (c_raise c); intros H; injection H as <- <- <-; [left|right]; auto. Qed.

Lemma wstep_count i c g k g' k' es : wstep P i c g k = (g', k', es) ->
  count_step g g' k k' es /\ (sh_stop g = true -> sh_stop g' = true) /\
  (sh_killed g = false -> wk_pc k <> PcFinish -> fin es = 0 /\ (finished k' = finished k \/ wk_pc k = PcCount)) /\
  (sh_killed g = false -> wk_pc k = PcFinish -> fin es = b2n (at_end k) /\ finished k' = at_end k) /\
  (sh_killed g = true -> k' = k /\ es = []).
Proof.
  unfold wstep. destruct (sh_killed g) eqn:Ek.
  { intros H. injection H as <- <- <-. split; [left; auto|]. repeat split; auto; try discriminate. }
  assert (Hraise : forall e, count_step g g k (set_pc k PcRaised) (AUser e :: (if i =? 0 then [AUser (ESave (wk_gt k) Except)] else []))).
  { intros e. left. repeat split. destruct e, (i =? 0); reflexivity. }
  assert (Hfin : forall e, (forall t, e <> ESave t Finish) -> fin (AUser e :: (if i =? 0 then [AUser (ESave (wk_gt k) Except)] else [])) = 0).
  { intros e He. unfold fin. cbn [filter]. destruct e; try (destruct (i =? 0); reflexivity). destruct s; try (destruct (i =? 0); reflexivity). now elim (He t). }
  assert (Hu : forall e next g' k' es, user i c g k e next = (g', k', es) -> (forall t, e <> ESave t Finish) ->
     sh_counter (fst next) = sh_counter g -> wk_gt (snd next) = wk_gt k -> (sh_stop g = true -> sh_stop (fst next) = true) ->
     finished (snd next) = false -> finished k = false ->
     count_step g g' k k' es /\ (sh_stop g = true -> sh_stop g' = true) /\ fin es = 0 /\ finished k' = finished k).
  { intros e next g1 k1 es1 H He H1 H2 H3 H4 H5. destruct (user_cases _ _ _ _ _ _ _ _ _ H) as [(-> & -> & ->)|(_ & -> & -> & ->)].
    - split; [apply Hraise|]. split; [auto|]. split; [now apply Hfin|]. rewrite H5. unfold finished, set_pc. cbn. now rewrite andb_false_r.
    - split; [left; repeat split; auto; destruct e; reflexivity|]. split; [exact H3|]. split; [|congruence].
      unfold fin. cbn [filter]. destruct e; try reflexivity. destruct s; try reflexivity. now elim (He t). }
  assert (Hnf : match wk_pc k with PcSuccess | PcDone => True | _ => finished k = false end).
  { unfold finished. destruct (wk_pc k); auto using andb_false_r. }
  destruct (wk_pc k) eqn:Epc; intros H.
  all: try (eapply Hu in H; [destruct H as (A1 & A2 & A3 & A4); split; [exact A1|]; split; [exact A2|]; split; [auto|]; split; congruence
    |discriminate|reflexivity|reflexivity|auto|unfold finished; cbn; try destruct first; now rewrite andb_false_r|exact Hnf]).
  - (* count *) injection H as <- <- <-. split; [right; auto|]. cbn. repeat split; auto; congruence.
  - (* hooks *) destruct (i0 <? as_nhooks P).
    + eapply Hu in H; [destruct H as (A1 & A2 & A3 & A4); split; [exact A1|]; split; [exact A2|]; split; [auto|]; split; congruence
        |discriminate|reflexivity|reflexivity|auto|unfold finished; cbn; now rewrite andb_false_r|exact Hnf].
    + injection H as <- <- <-. split; [left; auto|]. split; [auto|]. split; [|split; congruence]. intros _ _. split; [reflexivity|]. left.
      rewrite Hnf. unfold finished, set_pc; cbn. now rewrite andb_false_r.
  - (* check *) destruct (wk_done k || wk_reset k || (steps <=? wk_gt k) || sh_stop g); injection H as <- <- <-;
      (split; [left; auto|]; split; [auto|]; split; [|split; congruence]; intros _ _; split; [reflexivity|]; left;
      rewrite Hnf; unfold finished, set_pc; cbn; try destruct (as_has_eval P); now rewrite andb_false_r).
  - (* eval *) eapply Hu in H; [destruct H as (A1 & A2 & A3 & A4); split; [exact A1|]; split; [exact A2|]; split; [auto|]; split; congruence
      |discriminate| | | | |exact Hnf]; destruct (match c_score c with Some _ => _ | None => _ end); cbn; auto; unfold finished; cbn; now rewrite andb_false_r.
  - (* episodes *) injection H as <- <- <-. split; [left; auto|]. split; [auto|]. split; [|split; congruence]. intros _ _. split; [reflexivity|]. left.
      rewrite Hnf. unfold finished; cbn. now rewrite andb_false_r.
  - (* recheck *) destruct ((steps <=? wk_gt k) || sh_stop g); injection H as <- <- <-;
      (split; [left; auto|]; split; [auto|]; split; [|split; congruence]; intros _ _; split; [reflexivity|]; left;
      rewrite Hnf; unfold finished, set_pc; cbn; now rewrite andb_false_r).
  - (* exception *) destruct ((i =? 0) && sh_exn g); injection H as <- <- <-; (split; [left; auto|]; split; [auto|]; split; [|split; congruence]).
    + intros _ _. split; [reflexivity|]. now left.
    + intros _ _. split; [reflexivity|]. left. rewrite Hnf; unfold finished, set_pc; cbn. now rewrite andb_false_r.
  - (* finish *) injection H as <- <- <-. split; [left; split; [auto|split; [auto|destruct (wk_gt k =? steps); reflexivity]]|]. split; [auto|]. split; [congruence|].
    split; [|congruence]. intros _ _. unfold finished, at_end, set_pc. cbn. split; [destruct (wk_gt k =? steps); reflexivity|apply andb_true_r].
  - (* success *) injection H as <- <- <-. split; [left; split; [auto|split; [auto|destruct (wk_success k); reflexivity]]|]. split; [auto|]. split; [|split; congruence].
    intros _ _. split; [destruct (wk_success k); reflexivity|]. left. unfold finished, at_end, set_pc. cbn. now rewrite Epc.
  - injection H as <- <- <-. split; [left; auto|]. repeat split; auto; congruence.
  - injection H as <- <- <-. split; [left; auto|]. repeat split; auto; congruence.
Qed.

Lemma winv_step i c g k g' k' es tr : wstep P i c g k = (g', k', es) -> winv i k g tr -> winv i k' g' (tr ++ map (pair i) es).
Proof.
  intros H (I1 & I2 & (p & I3 & I4) & I5). unfold wstep in H. destruct (sh_killed g) eqn:Ekill.
  { injection H as <- <- <-. cbn [map]. rewrite app_nil_r. split; [exact I1|]. split; [exact I2|]. split; [eauto|exact I5]. }
  (* the raising case, common to all calls *)
  assert (HR : forall e q, advance PA p e q -> (forall t e' s, e <> EEval t e' s) ->
     winv i (set_pc k PcRaised) g (tr ++ map (pair i) (AUser e :: (if i =? 0 then [AUser (ESave (wk_gt k) Except)] else [])))).
  { intros e q Hq He. split; [reflexivity|]. split; [exact I|]. split; [|exact I].
    destruct (raised_view i k tr q e (advances_snoc _ _ _ _ _ I3 Hq)) as (q' & Hq'). exists q'. split; [|exact I].
    rewrite aview_app. replace (aview i (map (pair i) _)) with (e :: (if i =? 0 then [ESave (wk_gt k) Except] else [])); [exact Hq'|].
    unfold aview. cbn [map flat_map]. rewrite Nat.eqb_refl. destruct e; try (now elim (He t episodes score)); destruct (i =? 0) eqn:E0; cbn [map flat_map app]; rewrite ?E0; try reflexivity;
    now rewrite Nat.eqb_refl. }
  unfold leaving in I2. unfold phase_ok in I4. unfold hooks_ok in I5.
  destruct (wk_pc k) eqn:Epc.
  - (* reset *) destruct (user_cases _ _ _ _ _ _ _ _ _ H) as [(-> & -> & ->)|(_ & -> & -> & ->)].
    + destruct first; subst p; eapply HR; try constructor; discriminate.
    + unfold winv, leaving, phase_ok, hooks_ok. cbn [fst snd wk_pc wk_gt wk_len]. cbn [after_count] in I1. split; [intros Hg; now apply I1 in Hg|].
      destruct first; (split; [exact I|]); (split; [exists (Running 0)|]); subst p; proj; auto;
        (split; [|reflexivity]); eapply advances_snoc; try exact I3; constructor.
  - (* act *) subst p. destruct (user_cases _ _ _ _ _ _ _ _ _ H) as [(-> & -> & ->)|(_ & -> & -> & ->)]; [eapply HR; [constructor|discriminate]|].
    unfold winv, leaving, phase_ok, hooks_ok, set_pc. cbn [fst snd wk_pc wk_gt wk_len]. cbn [after_count] in I1. split; [intros Hg; now apply I1 in Hg|].
    split; [exact I|]. split; [|proj; exact I5]. exists (Acting (wk_len k)). proj. split; [|reflexivity]. eapply advances_snoc; [exact I3|constructor].
  - (* step *) subst p. destruct (user_cases _ _ _ _ _ _ _ _ _ H) as [(-> & -> & ->)|(Hc & -> & -> & ->)].
    { destruct (c_raise c) eqn:Hc.
      - eapply HR; [apply ad_raised|discriminate].
      - unfold user in H. rewrite Hc in H. cbn in H. discriminate H. }
    rewrite Hc. unfold winv, leaving, phase_ok, hooks_ok. cbn [fst snd wk_pc wk_gt wk_len wk_r wk_done wk_needs wk_reset]. cbn [after_count] in I1.
    split; [intros Hg; now apply I1 in Hg|]. split; [exact I|]. split; [|proj; exact I5].
    eexists. proj. split; [|split; reflexivity]. eapply advances_snoc; [exact I3|constructor].
  - (* observe *) destruct I4 as [-> I4].
    assert (Ha : advance PA (Stepped (wk_len k) (wk_r k) (wk_done k) (wk_needs k)) (EObserve (wk_r k) (wk_done k) (wk_reset k))
       (if wk_done k || wk_reset k then Ended else Running (wk_len k))).
    { rewrite I4. apply (ad_observe PA (wk_len k) (wk_r k) (wk_done k) (wk_needs k)). }
    destruct (user_cases _ _ _ _ _ _ _ _ _ H) as [(-> & -> & ->)|(Hc & -> & -> & ->)]; [eapply HR; [exact Ha|discriminate]|].
    unfold winv, leaving, phase_ok, hooks_ok, set_pc. cbn [fst snd wk_pc wk_gt wk_len wk_done wk_reset]. cbn [after_count] in I1. split; [intros Hg; now apply I1 in Hg|].
    split; [exact I|]. split; [|proj; exact I5]. eexists. proj. split; [|reflexivity]. eapply advances_snoc; [exact I3|exact Ha].
  - (* count *) injection H as <- <- <-. unfold winv, leaving, phase_ok, hooks_ok. cbn [fst snd wk_pc wk_gt wk_len wk_done wk_reset].
    split; [reflexivity|]. split; [exact I|]. split; [exists p; proj; auto|]. split; [lia|]. exists (obtained_by i tr). proj. auto.
  - (* hooks *) destruct (i0 <? as_nhooks P) eqn:Eh.
    + subst p. assert (Ha : advance PA (if wk_done k || wk_reset k then Ended else Running (wk_len k)) (EHook i0 (wk_gt k)) (if wk_done k || wk_reset k then Ended else Running (wk_len k))) by (constructor; apply settled_flag).
      destruct (user_cases _ _ _ _ _ _ _ _ _ H) as [(-> & -> & ->)|(Hc & -> & -> & ->)]; [eapply HR; [exact Ha|discriminate]|].
      unfold winv, leaving, phase_ok, hooks_ok, set_pc. cbn [fst snd wk_pc wk_gt wk_len wk_done wk_reset].
      split; [reflexivity|]. split; [exact I|]. split; [eexists; proj; split; [|reflexivity]; eapply advances_snoc; [exact I3|exact Ha]|].
      destruct I5 as (_ & l & J1 & J2). split; [lia|]. exists l. rewrite ahook_calls_app, J2. proj. split; [exact J1|].
      rewrite seq_S, map_app, app_assoc. reflexivity.
    + injection H as <- <- <-. unfold winv, leaving, phase_ok, hooks_ok, set_pc. cbn [fst snd wk_pc wk_gt wk_len wk_done wk_reset map]. rewrite app_nil_r.
      split; [reflexivity|]. split; [exact I|]. split; [exists p; auto|]. destruct I5 as (Hj & l & J1 & J2). replace i0 with (as_nhooks P) in J2 by lia.
      rewrite J1, J2. unfold all_hooks. rewrite flat_map_app. cbn [flat_map]. now rewrite app_nil_r.
  - (* check *) destruct (wk_done k || wk_reset k || (steps <=? wk_gt k) || sh_stop g) eqn:Ec; injection H as <- <- <-; cbn [map]; rewrite app_nil_r;
      unfold winv, leaving, phase_ok, hooks_ok, set_pc; cbn [fst snd wk_pc wk_gt wk_len wk_done wk_reset].
    + destruct (as_has_eval P); (split; [reflexivity|]); (split; [destruct (wk_done k || wk_reset k); [now left|right; destruct (sh_stop g); [now right|left; cbn in Ec; lia]]|]); split; eauto.
    + assert (wk_gt k < steps) by lia. split; [lia|]. split; [exact I|]. split; [|exact I5]. exists p. split; [exact I3|]. subst p. destruct (wk_done k || wk_reset k); [discriminate|reflexivity].
  - (* eval *) subst p. destruct (user_cases _ _ _ _ _ _ _ _ _ H) as [(-> & -> & ->)|(Hc & -> & -> & ->)].
    + split; [reflexivity|]. split; [exact I|]. split; [|exact I]. exists (if wk_done k || wk_reset k then Ended else Running (wk_len k)). split; [|exact I].
      rewrite aview_app. unfold aview at 2. cbn [map flat_map]. rewrite Nat.eqb_refl. cbn [app]. destruct (i =? 0) eqn:E0; cbn [map flat_map app]; rewrite ?Nat.eqb_refl; cbn [app]; rewrite ?app_nil_r; [|exact I3].
      eapply advances_snoc; [exact I3|constructor].
    + assert (Hh : ahook_calls i (tr ++ map (pair i) [AUser (EEval (wk_gt k) (wk_ge k) (if c_raise c then None else c_score c))]) =
          all_hooks (obtained_by i (tr ++ map (pair i) [AUser (EEval (wk_gt k) (wk_ge k) (if c_raise c then None else c_score c))]))) by (proj; exact I5).
      assert (Hv : aview i (tr ++ map (pair i) [AUser (EEval (wk_gt k) (wk_ge k) (if c_raise c then None else c_score c))]) = aview i tr) by (proj; reflexivity).
      destruct (match c_score c with Some _ => _ | None => _ end); unfold winv, leaving, phase_ok, hooks_ok, set_pc; rewrite Hv; cbn [fst snd wk_pc wk_gt wk_len wk_done wk_reset sh_stop];
        (split; [reflexivity|]); (split; [auto|]); split; eauto.
  - (* episodes *) injection H as <- <- <-. cbn [map]. rewrite app_nil_r. unfold winv, leaving, phase_ok, hooks_ok; cbn [fst snd wk_pc wk_gt wk_len wk_done wk_reset sh_stop].
    split; [reflexivity|]. split; [auto|]. split; eauto.
  - (* recheck *) destruct ((steps <=? wk_gt k) || sh_stop g) eqn:Ec; injection H as <- <- <-; cbn [map]; rewrite app_nil_r;
      unfold winv, leaving, phase_ok, hooks_ok, set_pc; cbn [fst snd wk_pc wk_gt wk_len wk_done wk_reset sh_stop].
    + split; [reflexivity|]. split; [destruct (sh_stop g); [now right|left; lia]|]. split; eauto.
    + apply orb_false_iff in Ec. destruct Ec as [Ec1 Ec2]. split; [lia|]. split; [exact I|]. split; [|exact I5]. exists p. split; [exact I3|].
      destruct I2 as [I2|[I2|I2]]; [|lia|congruence]. subst p. now rewrite I2.
  - (* exception *) destruct ((i =? 0) && sh_exn g); injection H as <- <- <-.
    + unfold winv, leaving, phase_ok, hooks_ok; rewrite ?Epc. split; [exact I1|]. split; [exact I|]. split; [|proj; exact I5].
      exists p. proj. split; [|exact I4]. eapply advances_snoc; [exact I3|constructor].
    + cbn [map]; rewrite app_nil_r. unfold winv, leaving, phase_ok, hooks_ok, set_pc; cbn [fst snd wk_pc wk_gt wk_len wk_done wk_reset sh_stop].
      cbn [after_count] in I1. split; [intros Hg; now apply I1 in Hg|]. split; [exact I|]. split; eauto.
  - (* finish *) injection H as <- <- <-. unfold winv, leaving, phase_ok, hooks_ok, set_pc; cbn [fst snd wk_pc wk_gt wk_len wk_done wk_reset sh_stop].
    split; [reflexivity|]. split; [auto|]. destruct (wk_gt k =? steps); (split; [|proj; exact I5]); exists p; proj; auto. split; [|exact I].
    eapply advances_snoc; [exact I3|constructor].
  - (* success *) injection H as <- <- <-. unfold winv, leaving, phase_ok, hooks_ok, set_pc; cbn [fst snd wk_pc wk_gt wk_len wk_done wk_reset sh_stop].
    split; [reflexivity|]. split; [auto|]. destruct (wk_success k); (split; [|proj; exact I5]); exists p; proj; auto.
  - injection H as <- <- <-. cbn [map]. rewrite app_nil_r. unfold winv, leaving, phase_ok, hooks_ok. rewrite Epc. split; [reflexivity|]. split; [exact I2|]. split; [exists p; auto|exact I5].
  - injection H as <- <- <-. cbn [map]. rewrite app_nil_r. unfold winv, leaving, phase_ok, hooks_ok. rewrite Epc. split; [reflexivity|]. split; [exact I2|]. split; [exists p; auto|exact I5].
Qed.

Lemma proj_other i j es : i <> j -> aview j (map (pair i) es) = [] /\ obtained_by j (map (pair i) es) = [] /\ ahook_calls j (map (pair i) es) = [].
Proof.
  intros Hij. assert (E : (i =? j) = false) by lia. unfold aview, obtained_by, obtained, ahook_calls.
  induction es as [|e es (IH1 & IH2 & IH3)]; [auto|]. cbn [map flat_map]. rewrite E. cbn [app]. split; [exact IH1|]. split.
  - rewrite filter_app, map_app, IH2. destruct e; try reflexivity. cbn [filter]. now rewrite E.
  - rewrite IH3. destruct e as [[]| |]; reflexivity.
Qed.
Lemma winv_other i j k g g' tr es : i <> j -> (sh_stop g = true -> sh_stop g' = true) -> winv j k g tr -> winv j k g' (tr ++ map (pair i) es).
Proof.
  intros Hij Hs (I1 & I2 & (p & I3 & I4) & I5). destruct (proj_other i j es Hij) as (E1 & E2 & E3). split; [exact I1|]. split.
  - unfold leaving in *. destruct (wk_pc k); auto; clear -I2 Hs; intuition.
  - split; [exists p; now rewrite aview_app, E1, app_nil_r|]. unfold hooks_ok in *. rewrite ahook_calls_app, obtained_by_app, E2, E3, !app_nil_r. exact I5.
Qed.

Lemma obtained_map i es : map snd (obtained (map (pair i) es)) = flat_map (fun e => match e with AGot t => [t] | _ => [] end) es.
Proof. unfold obtained. induction es as [|e es IH]; [reflexivity|]. cbn [map flat_map]. rewrite map_app, IH. now destruct e. Qed.
Lemma finishers_map i es : length (finishers (map (pair i) es)) = fin es.
Proof.
  unfold finishers, fin. induction es as [|e es IH]; [reflexivity|]. cbn [map flat_map filter]. rewrite app_length, IH.
  destruct e as [[]| |]; try reflexivity. destruct s; reflexivity.
Qed.

Lemma ginv_step s x s' es tr : astep P s x = (s', es) -> ginv s tr -> ginv s' (tr ++ es).
Proof.
  destruct s as [g ws]. intros H (G1 & G2 & G3 & G4 & G5). destruct x as [i c| |]; cbn [astep] in H.
  - destruct (nth_error ws i) as [k|] eqn:Ei.
    2:{ injection H as <- <-. rewrite app_nil_r. cbn. auto. }
    destruct (wstep P i c g k) as [[g' k'] evs] eqn:Ew. injection H as <- <-. cbn [ginv].
    destruct (wstep_count _ _ _ _ _ _ _ Ew) as (C1 & C2 & C3 & C4 & C5).
    pose proof (count_set past ws i k k' Ei) as S1. pose proof (count_set at_end ws i k k' Ei) as S2. pose proof (count_set finished ws i k k' Ei) as S3.
    pose proof (G5 i k Ei) as (I1 & _).
    rewrite obtained_app, map_app, obtained_map, G1, finishers_app, app_length, finishers_map, G4.
    assert (Hn : forall j kj, nth_error (list_set ws i k') j = Some kj -> winv j kj g' (tr ++ map (pair i) evs)).
    { intros j kj Hj. destruct (Nat.eq_dec i j) as [->|Hij].
      - rewrite (nth_list_set_eq _ _ _ _ Ei) in Hj. injection Hj as <-. eapply winv_step; [exact Ew|]. auto.
      - rewrite nth_list_set_neq in Hj by exact Hij. eapply winv_other; eauto. }
    assert (Hf : fin evs + count finished ws = count finished (list_set ws i k')).
    { destruct (sh_killed g) eqn:Ek.
      - destruct (C5 eq_refl) as [-> ->]. cbn. lia.
      - destruct (wk_pc k) eqn:Epc; try (destruct (C3 eq_refl ltac:(discriminate)) as [-> [Hfe|Hfe]]; [rewrite Hfe in S3; clear -S3; lia|congruence]).
        + destruct (C3 eq_refl ltac:(discriminate)) as [-> _].
          assert (finished k = false) by (unfold finished; rewrite Epc; apply andb_false_r).
          destruct C1 as [(_ & _ & Hbad)|(_ & _ & _ & Hp & _)].
          * unfold wstep in Ew. rewrite Ek, Epc in Ew. injection Ew as _ <- <-. discriminate Hbad.
          * assert (finished k' = false) by (unfold finished; rewrite Hp; apply andb_false_r). rewrite H, H0 in S3. clear -S3. lia.
        + destruct (C4 eq_refl eq_refl) as [-> Hfe]. assert (finished k = false) by (unfold finished; rewrite Epc; apply andb_false_r). rewrite Hfe, H in S3. cbn in S3. clear -S3. lia. }
    destruct C1 as [(E1 & E2 & E3)|(E1 & E2 & E3 & E4 & E5)].
    + rewrite E3, app_nil_r, E1. split; [reflexivity|]. assert (past k' = past k /\ at_end k' = at_end k) as [Hp Ha] by (unfold past, at_end; now rewrite E2).
      rewrite Hp in S1. rewrite Ha in S2. split; [clear -S1 G2; lia|]. split; [clear -S2 G3; lia|]. split; [clear -Hf; lia|exact Hn].
    + rewrite E5, E1. cbn [flat_map app]. split; [rewrite seq_S; reflexivity|].
      assert (Hlt : wk_gt k < steps). { clear -I1 E3. destruct (le_lt_dec steps (wk_gt k)) as [Hl|]; [|lia]. apply I1 in Hl. rewrite E3 in Hl. discriminate Hl. }
      assert (past k = false /\ at_end k = false) as [Hp Ha] by (clear -Hlt; unfold past, at_end; lia). rewrite Hp in S1. rewrite Ha in S2. cbn [b2n] in *.
      assert (past k' = (steps <=? S (sh_counter g)) /\ at_end k' = (S (sh_counter g) =? steps)) as [Hp' Ha'] by (unfold past, at_end; rewrite E2; auto).
      rewrite Hp' in S1. rewrite Ha' in S2. rewrite E5 in Hf.
      split; [clear -S1 G2 Hsteps; destruct (steps <=? S (sh_counter g)) eqn:El; cbn [b2n] in *; lia|]. split.
      { clear -S2 G3 Hsteps. unfold b2n in *. destruct (S (sh_counter g) =? steps) eqn:Ee, (steps <=? sh_counter g) eqn:El, (steps <=? S (sh_counter g)) eqn:El'; lia. }
      split; [clear -Hf; lia|]. rewrite <- E5. exact Hn.
  - injection H as <- <-. rewrite app_nil_r. cbn [ginv sh_counter]. split; [exact G1|]. split; [exact G2|]. split; [exact G3|]. split; [exact G4|]. intros j kj Hj.
    replace tr with (tr ++ map (pair (S j)) []) by apply app_nil_r. eapply winv_other; [lia| |now apply G5]. auto.
  - injection H as <- <-. rewrite app_nil_r. cbn [ginv sh_counter]. split; [exact G1|]. split; [exact G2|]. split; [exact G3|]. split; [exact G4|]. intros j kj Hj.
    replace tr with (tr ++ map (pair (S j)) []) by apply app_nil_r. eapply winv_other; [lia| |now apply G5]. auto.
Qed.

Lemma ginv_run : forall xs s s' es tr, arun P s xs = (s', es) -> ginv s tr -> ginv s' (tr ++ es).
Proof.
  induction xs as [|x xs IH]; intros s s' es tr H G; cbn [arun] in H.
  - injection H as <- <-. now rewrite app_nil_r.
  - destruct (astep P s x) as [s1 t1] eqn:E1. destruct (arun P s1 xs) as [s2 t2] eqn:E2. injection H as <- <-. rewrite app_assoc.
    eapply IH; [exact E2|]. eapply ginv_step; eauto.
Qed.
Lemma count_repeat {X} (f : X -> bool) x n : f x = false -> count f (repeat x n) = 0.
Proof. intros H. unfold count. induction n; cbn; [reflexivity|]. now rewrite H. Qed.
Lemma ginv0 n : ginv (mkSh 0 0 false false false, repeat worker0 n) [].
Proof.
  cbn [ginv sh_counter]. split; [reflexivity|].
  rewrite (count_repeat past) by (unfold past; change (wk_gt worker0) with 0; lia). rewrite (count_repeat at_end) by (unfold at_end; change (wk_gt worker0) with 0; lia).
  rewrite (count_repeat finished) by (apply andb_false_iff; right; reflexivity).
  split; [lia|]. split; [destruct (as_steps P); [lia|reflexivity]|]. split; [reflexivity|]. intros i k Hk. apply nth_error_In, repeat_spec in Hk. subst k.
  split; [change (wk_gt worker0) with 0; lia|]. split; [exact I|]. split; [|reflexivity]. exists Idle. split; [constructor|reflexivity].
Qed.

Lemma arun_length : forall xs s s' es, arun P s xs = (s', es) -> length (snd s') = length (snd s).
Proof.
  induction xs as [|x xs IH]; intros s s' es H; cbn [arun] in H; [now injection H as <- <-|].
  destruct (astep P s x) as [s1 t1] eqn:E1. destruct (arun P s1 xs) as [s2 t2] eqn:E2. injection H as <- <-. rewrite (IH _ _ _ E2).
  destruct s as [g ws]. destruct x; cbn [astep] in E1.
  - destruct (nth_error ws idx); [|now injection E1 as <- <-]. destruct (wstep _ _ _ _ _) as [[? ?] ?]. injection E1 as <- <-. apply list_set_length.
  - now injection E1 as <- <-.
  - now injection E1 as <- <-.
Qed.

Lemma sorted_seq : forall n a, StronglySorted lt (seq a n).
Proof. induction n; intros a; cbn; constructor; [apply IHn|]. apply Forall_forall. intros x H. apply in_seq in H. lia. Qed.
Lemma sorted_filter_map {X} (f : X -> bool) (h : X -> nat) l : StronglySorted lt (map h l) -> StronglySorted lt (map h (filter f l)).
Proof.
  induction l as [|x l IH]; intros H; cbn in *; [constructor|]. assert (H1 := StronglySorted_inv H). destruct H1 as [H1 H2].
  destruct (f x); auto. cbn. constructor; [auto|]. rewrite Forall_forall in *. intros y Hy. apply in_map_iff in Hy. destruct Hy as (z & <- & Hz).
  apply H2, in_map. apply filter_In in Hz. tauto.
Qed.

Theorem async_ok n off xs g ws tr : 1 <= n -> train_agent_async n off P xs = ((g, ws), tr) ->
  map snd (obtained tr) = seq 1 (sh_counter g) /\
  (forall i, StronglySorted lt (obtained_by i tr)) /\
  sh_counter g <= steps + n - 1 /\
  length (finishers tr) <= 1 /\
  (Forall returned ws -> sh_stop g = false -> length (finishers tr) = 1) /\
  (forall i k, nth_error ws i = Some k -> returned k ->
     ahook_calls i tr = flat_map (fun t => map (pair t) (seq 0 (as_nhooks P))) (obtained_by i tr)) /\
  forall i, i < n -> exists p, advances PA Idle (aview i tr) p.
Proof.
  intros Hn H. unfold train_agent_async in H. pose proof (arun_length _ _ _ _ H) as Hl. cbn [snd] in Hl. rewrite repeat_length in Hl.
  pose proof (ginv_run _ _ _ _ _ H (ginv0 n)) as (G1 & G2 & G3 & G4 & G5). cbn [app] in *.
  assert (Hcf : count finished ws <= count at_end ws).
  { clear. unfold count. induction ws as [|k ws IH]; [reflexivity|]. cbn [filter]. unfold finished at 1. destruct (at_end k); cbn [andb]; [|exact IH].
    destruct (match wk_pc k with PcSuccess | PcDone => true | _ => false end); cbn [length]; lia. }
  split; [exact G1|]. split.
  { intros i. unfold obtained_by. apply sorted_filter_map. rewrite G1. apply sorted_seq. }
  split. { pose proof (count_le past ws). lia. }
  split. { destruct (steps <=? sh_counter g); cbn in G3; lia. }
  split.
  { intros Hr Hs. rewrite G4. rewrite (count_ext finished at_end), G3.
    2:{ eapply Forall_impl; [|exact Hr]. intros k Hk. unfold finished. rewrite Hk. apply andb_true_r. }
    destruct ws as [|k0 ws0]; [cbn in Hl; lia|]. pose proof (G5 0 k0 eq_refl) as (_ & Hleave & _).
    assert (Hk0 : returned k0) by (inversion Hr; auto). unfold leaving in Hleave. rewrite Hk0 in Hleave. destruct Hleave as [Hle|Hle]; [|congruence].
    assert (past k0 = true) as Hp by (unfold past; lia). unfold count in G2. cbn [filter] in G2. rewrite Hp in G2. cbn [length] in G2.
    replace (steps <=? sh_counter g) with true by lia. reflexivity. }
  split.
  { intros i k Hi Hr. destruct (G5 i k Hi) as (_ & _ & _ & Hh). unfold hooks_ok in Hh. rewrite Hr in Hh. exact Hh. }
  intros i Hi. destruct (nth_error ws i) as [k|] eqn:Ei; [|apply nth_error_None in Ei; lia].
  destruct (G5 i k Ei) as (_ & _ & (p & Hp & _) & _). eauto.
Qed.
Theorem async_complete n off xs g ws tr : 1 <= n -> train_agent_async n off P xs = ((g, ws), tr) ->
  Forall returned ws -> sh_stop g = false -> steps <= sh_counter g.
Proof.
  intros Hn H Hr Hs. pose proof (arun_length _ _ _ _ H) as Hl. cbn [snd] in Hl. rewrite repeat_length in Hl.
  pose proof (ginv_run _ _ _ _ _ H (ginv0 n)) as (G1 & G2 & G3 & G4 & G5). cbn [app] in *.
  destruct ws as [|k0 ws0]; [cbn in Hl; lia|]. pose proof (G5 0 k0 eq_refl) as (_ & Hleave & _).
  assert (Hk0 : returned k0) by (inversion Hr; auto). unfold leaving in Hleave. rewrite Hk0 in Hleave. destruct Hleave as [Hle|Hle]; [|congruence].
  assert (past k0 = true) as Hp by (unfold past; lia). unfold count in G2. cbn [filter] in G2. rewrite Hp in G2. cbn [length] in G2. lia.
Qed.
End Proofs.
