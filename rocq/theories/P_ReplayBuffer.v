(** Lemmas for C09. *)
From Verif Require Import Base P_Base M_RandomAccessQueue P_RandomAccessQueue M_Prioritized S_Prioritized P_PriorityTree
  P_Prioritized P_PrioritizedProps M_ReplayBuffer S_ReplayBuffer.
From Coq Require Import ZifyBool ZifyNat Lqa.
Open Scope nat_scope.

Section Win.
Context {T : Type}.
Implicit Types (l ep cur : list (trans T)).

(** All non-empty suffixes, longest first. *)
Fixpoint sufs {X} (l : list X) : list (list X) := match l with [] => [] | _ :: t => l :: sufs t end.

Lemma sufs_seq {X} (l : list X) k : sufs (skipn k l) = map (fun i => skipn i l) (seq k (length l - k)).
Proof.
  remember (length l - k) as m eqn:Em. revert k Em. induction m as [|m IH]; intros k Em.
  - rewrite skipn_all2 by lia. reflexivity.
  - cbn [seq map]. rewrite <- (IH (S k)) by lia.
    destruct (skipn k l) as [|x t] eqn:E.
    { apply (f_equal (@length X)) in E. rewrite skipn_length in E. cbn in E. lia. }
    cbn [sufs]. do 2 f_equal.
    change (S k) with (1 + k). rewrite <- skipn_skipn', E. reflexivity.
Qed.

Lemma windows_split n ep : 0 < n ->
  windows n ep = full_windows n ep ++ sufs (skipn (length ep + 1 - n) ep).
Proof.
  intros Hn. unfold windows, full_windows. rewrite sufs_seq.
  assert (Hk : length ep + 1 - n <= length ep) by lia.
  replace (seq 0 (length ep)) with (seq 0 (length ep + 1 - n) ++ seq (0 + (length ep + 1 - n)) (length ep - (length ep + 1 - n)))
    by (rewrite <- seq_app; f_equal; lia).
  rewrite map_app. f_equal. apply map_ext_in. intros i Hi. apply in_seq in Hi. unfold window.
  apply firstn_all2. rewrite skipn_length. lia.
Qed.

Lemma window_app n cur t i : i + n <= length cur -> window n (cur ++ [t]) i = window n cur i.
Proof.
  intros H. unfold window. rewrite skipn_app, firstn_app, skipn_length.
  replace (n - (length cur - i)) with 0 by lia. cbn. now rewrite app_nil_r.
Qed.

Lemma full_windows_snoc n cur t : 0 < n ->
  full_windows n (cur ++ [t]) =
  full_windows n cur ++ (if n <=? S (length cur) then [lastn n (cur ++ [t])] else []).
Proof.
  intros Hn. unfold full_windows. rewrite app_length. cbn [length].
  destruct (n <=? S (length cur)) eqn:E.
  - replace (length cur + 1 + 1 - n) with ((length cur + 1 - n) + 1) by lia.
    rewrite seq_app, map_app. f_equal.
    + apply map_ext_in. intros i Hi. apply in_seq in Hi. apply window_app. lia.
    + cbn [seq map]. f_equal. unfold window, lastn. rewrite app_length. cbn [length plus].
      apply firstn_all2. rewrite skipn_length, app_length. cbn. lia.
  - replace (length cur + 1 + 1 - n) with 0 by lia. replace (length cur + 1 - n) with 0 by lia. reflexivity.
Qed.

Lemma windows_terminal n cur t : 0 < n ->
  windows n (cur ++ [t]) = full_windows n cur ++ sufs (lastn n (cur ++ [t])).
Proof.
  intros Hn. rewrite windows_split, full_windows_snoc by auto. rewrite <- app_assoc. f_equal.
  unfold lastn. rewrite app_length. cbn [length]. destruct (n <=? S (length cur)) eqn:E.
  - replace (length cur + 1 + 1 - n) with (S (length cur + 1 - n)) by lia.
    destruct (skipn (length cur + 1 - n) (cur ++ [t])) as [|x r] eqn:Es.
    { apply (f_equal (@length _)) in Es. rewrite skipn_length, app_length in Es. cbn in Es. lia. }
    cbn [sufs app]. f_equal. f_equal.
    change (S (length cur + 1 - n)) with (1 + (length cur + 1 - n)). rewrite <- skipn_skipn', Es. reflexivity.
  - cbn [app]. do 2 f_equal. lia.
Qed.

Lemma windows_stop n cur : 0 < n -> cur <> [] ->
  windows n cur = full_windows n cur ++
    (if length cur <? n then sufs cur else sufs (tl (lastn n cur))).
Proof.
  intros Hn Hne. rewrite windows_split by auto. f_equal. destruct (length cur <? n) eqn:E.
  - replace (length cur + 1 - n) with 0 by lia. reflexivity.
  - f_equal. unfold lastn. replace (length cur + 1 - n) with (1 + (length cur - n)) by lia.
    rewrite <- skipn_skipn'. destruct (skipn (length cur - n) cur); reflexivity.
Qed.
End Win.

Section Gen.
Context {T M : Type}.
Variable mem_append : M -> list (trans T) -> result M.

Fixpoint mem_appends (m : M) (ws : list (list (trans T))) : result M :=
  match ws with [] => Ok m | w :: t => m' <- mem_append m w ;; mem_appends m' t end.

Lemma mem_appends_app m w1 w2 : mem_appends m (w1 ++ w2) = rbind (mem_appends m w1) (fun m' => mem_appends m' w2).
Proof. revert m; induction w1 as [|w w1 IH]; intros m; cbn; auto. destruct (mem_append m w); cbn; auto. Qed.

Lemma flush_sufs m l : flush mem_append m l = mem_appends m (sufs l).
Proof. revert m; induction l as [|x l IH]; intros m; cbn; auto. destruct (mem_append m (x :: l)); cbn; auto. Qed.

Lemma episodes_snoc e (ops : list (rb_op T)) o : episodes e (ops ++ [o]) = ep_step e (episodes e ops) o.
Proof. unfold episodes. now rewrite fold_left_app. Qed.

(** The buffer state that corresponds to a history. *)
Definition rb_inv (past : list (rb_op T)) (b : rbuf T M) : Prop :=
  0 < num_steps b /\ forall e, last_n b e = lastn (num_steps b) (snd (episodes e past)).

Lemma skipn_app_exact {X} (a b : list X) : skipn (length a) (a ++ b) = b.
Proof. rewrite skipn_app, skipn_all, Nat.sub_diag. reflexivity. Qed.

Lemma rb_step_log past b o : rb_inv past b ->
  let new := skipn (length (stored (num_steps b) (env_of o) past)) (stored (num_steps b) (env_of o) (past ++ [o])) in
  match mem_appends (memory b) new with
  | Ok m => exists b', rb_step mem_append b o = Ok b' /\ memory b' = m /\ num_steps b' = num_steps b /\ rb_inv (past ++ [o]) b'
  | Err x => rb_step mem_append b o = Err x
  end.
Proof.
  intros (Hn & Hl). cbn zeta. set (n := num_steps b) in *.
  set (e := env_of o).
  assert (Hother : forall e', e' <> e -> episodes e' (past ++ [o]) = episodes e' past).
  { intros e' He'. rewrite episodes_snoc. unfold ep_step. destruct (episodes e' past) as [dn cur].
    subst e. destruct o as [e0 t|e0]; cbn in He'; (destruct (Nat.eqb_spec e0 e') as [->|]; [congruence|reflexivity]). }
  unfold stored. rewrite episodes_snoc. pose proof (Hl e) as Hle.
  destruct (episodes e past) as [dn cur] eqn:Ee. cbn [snd fst] in *.
  assert (Hinv : forall m cur', snd (episodes e (past ++ [o])) = cur' ->
            rb_inv (past ++ [o]) (mkRb n m (upd (last_n b) e (lastn n cur')))).
  { intros m cur' Hc. split; [exact Hn|]. intros e'. cbn. unfold upd. destruct (Nat.eqb_spec e' e) as [->|Hne].
    - now rewrite Hc.
    - rewrite (Hother e' Hne). apply Hl. }
  destruct o as [e0 t|e0]; cbn [env_of] in e; subst e; rename e0 into e; cbn [ep_step rb_step env_of] in *.
  - rewrite Nat.eqb_refl. unfold rb_append. fold n. rewrite Hle.
    unfold deque_append. cbn [trunc]. rewrite lastn_lastn_app.
    assert (Ecur : snd (episodes e (past ++ [RAppend e t])) = if terminal t then [] else cur ++ [t]).
    { rewrite episodes_snoc, Ee. cbn. rewrite Nat.eqb_refl. now destruct (terminal t). }
    destruct (terminal t).
    + cbn [fst snd]. rewrite flat_map_app. cbn [flat_map]. rewrite app_nil_r.
      rewrite windows_terminal by auto. unfold full_windows at 3. cbn [length].
      replace (0 + 1 - n) with 0 by lia. cbn [seq map]. rewrite app_nil_r, app_assoc, skipn_app_exact.
      rewrite flush_sufs. destruct (mem_appends (memory b) (sufs (lastn n (cur ++ [t])))) as [m|x]; cbn [rbind]; [|reflexivity].
      eexists. split; [reflexivity|]. split; [reflexivity|]. split; [reflexivity|].
      exact (Hinv m [] Ecur).
    + cbn [fst snd]. rewrite full_windows_snoc by auto. rewrite app_assoc, skipn_app_exact.
      rewrite lastn_length, app_length. cbn [length].
      replace (Nat.min n (length cur + 1) =? n) with (n <=? S (length cur)) by lia.
      destruct (n <=? S (length cur)); cbn [mem_appends].
      * destruct (mem_append (memory b) (lastn n (cur ++ [t]))) as [m|x]; cbn [rbind]; [|reflexivity].
        eexists. split; [reflexivity|]. split; [reflexivity|]. split; [reflexivity|]. exact (Hinv m (cur ++ [t]) Ecur).
      * cbn [rbind]. eexists. split; [reflexivity|]. split; [reflexivity|]. split; [reflexivity|]. exact (Hinv (memory b) (cur ++ [t]) Ecur).
  - rewrite Nat.eqb_refl. unfold rb_stop. fold n. rewrite Hle.
    assert (Ecur : snd (episodes e (past ++ [RStop e])) = []).
    { rewrite episodes_snoc, Ee. cbn. rewrite Nat.eqb_refl. now destruct cur. }
    destruct cur as [|c0 cur'].
    + cbn [fst snd]. rewrite skipn_all. cbn. eexists. split; [reflexivity|]. split; [reflexivity|]. split; [reflexivity|].
      exact (Hinv (memory b) [] Ecur).
    + set (cur := c0 :: cur') in *. assert (Hne : cur <> []) by discriminate. assert (HL : 0 < length cur) by (cbn; lia). clearbody cur.
      cbn [fst snd]. rewrite flat_map_app. cbn [flat_map]. rewrite app_nil_r.
      rewrite windows_stop by auto. unfold full_windows at 3. cbn [length].
      replace (0 + 1 - n) with 0 by lia. cbn [seq map]. rewrite app_nil_r, app_assoc, skipn_app_exact.
      rewrite lastn_length.
      replace ((0 <? Nat.min n (length cur)) && (Nat.min n (length cur) <? n)) with (length cur <? n) by lia.
      replace ((0 <? Nat.min n (length cur)) && (Nat.min n (length cur) <=? n)) with true by lia.
      destruct (length cur <? n) eqn:El.
      * rewrite (lastn_all n cur) by lia. destruct cur as [|y ys]; [congruence|]. cbn [sufs mem_appends tl].
        destruct (mem_append (memory b) (y :: ys)) as [m1|x]; cbn [rbind]; [|reflexivity].
        rewrite flush_sufs. destruct (mem_appends m1 (sufs ys)) as [m|x]; cbn [rbind]; [|reflexivity].
        eexists. split; [reflexivity|]. split; [reflexivity|]. split; [reflexivity|]. exact (Hinv m [] Ecur).
      * cbn [rbind]. rewrite flush_sufs.
        destruct (mem_appends (memory b) (sufs (tl (lastn n cur)))) as [m|x]; cbn [rbind]; [|reflexivity].
        eexists. split; [reflexivity|]. split; [reflexivity|]. split; [reflexivity|]. exact (Hinv m [] Ecur).
Qed.

Lemma map_snd_pair {X Y} (x : X) (l : list Y) : map snd (map (pair x) l) = l.
Proof. rewrite map_map. cbn. apply map_id. Qed.

Lemma rb_run_log ops : forall past b, rb_inv past b ->
  match mem_appends (memory b) (map snd (log_from (num_steps b) past ops)) with
  | Ok m => exists b', rb_run mem_append b ops = Ok b' /\ memory b' = m /\ num_steps b' = num_steps b /\ rb_inv (past ++ ops) b'
  | Err x => rb_run mem_append b ops = Err x
  end.
Proof.
  induction ops as [|o ops IH]; intros past b Hinv.
  - cbn. rewrite app_nil_r. eauto.
  - cbn [log_from rb_run]. rewrite map_app, map_snd_pair, mem_appends_app.
    pose proof (rb_step_log past b o Hinv) as H. cbn zeta in H.
    destruct (mem_appends (memory b) _) as [m|x]; cbn [rbind].
    + destruct H as (b' & E & Em & En & Hinv'). rewrite E. cbn [rbind].
      specialize (IH (past ++ [o]) b' Hinv'). rewrite Em, En, <- app_assoc in IH. exact IH.
    + rewrite H. reflexivity.
Qed.

(** Per environment, the log contains exactly what the environment must contribute, in order. *)
Lemma stored_prefix n e (past : list (rb_op T)) o : 0 < n -> exists new, stored n e (past ++ [o]) = stored n e past ++ new.
Proof.
  intros Hn. unfold stored. rewrite episodes_snoc. destruct (episodes e past) as [dn cur]. cbn [fst snd].
  destruct o as [e0 t|e0]; cbn [ep_step]; (destruct (e0 =? e); [|exists []; now rewrite app_nil_r]).
  - destruct (terminal t); cbn [fst snd].
    + rewrite flat_map_app. cbn [flat_map]. rewrite windows_terminal by auto. rewrite !app_nil_r.
      rewrite <- ?app_assoc. eexists. rewrite <- app_assoc. reflexivity.
    + rewrite full_windows_snoc by auto. eexists. rewrite <- app_assoc. reflexivity.
  - destruct cur as [|c0 cur']; cbn [fst snd]; [exists []; now rewrite app_nil_r|].
    rewrite flat_map_app. cbn [flat_map]. rewrite windows_stop by (auto; discriminate). rewrite !app_nil_r.
    rewrite <- ?app_assoc. eexists. rewrite <- app_assoc. reflexivity.
Qed.

Lemma stored_other n e (past : list (rb_op T)) o : env_of o <> e -> stored n e (past ++ [o]) = stored n e past.
Proof.
  intros He. unfold stored. rewrite episodes_snoc. destruct (episodes e past) as [dn cur].
  destruct o as [e0 t|e0]; cbn in He |- *; (destruct (Nat.eqb_spec e0 e); [congruence|reflexivity]).
Qed.

Lemma filter_pair_same {Y} e (l : list Y) : filter (fun p => fst p =? e) (map (pair e) l) = map (pair e) l.
Proof. induction l; cbn; auto. rewrite Nat.eqb_refl. congruence. Qed.
Lemma filter_pair_other {Y} e e' (l : list Y) : e' <> e -> filter (fun p => fst p =? e) (map (pair e') l) = [].
Proof. intros H. induction l; cbn; auto. destruct (Nat.eqb_spec e' e); [congruence|auto]. Qed.

Lemma log_per_env n e (ops : list (rb_op T)) : 0 < n -> forall past,
  stored n e past ++ map snd (filter (fun p => fst p =? e) (log_from n past ops)) = stored n e (past ++ ops).
Proof.
  intros Hn. induction ops as [|o ops IH]; intros past.
  - cbn. now rewrite !app_nil_r.
  - cbn [log_from]. rewrite filter_app, map_app, app_assoc.
    replace (past ++ o :: ops) with ((past ++ [o]) ++ ops) by now rewrite <- app_assoc.
    rewrite <- (IH (past ++ [o])). f_equal.
    destruct (Nat.eq_dec (env_of o) e) as [<-|Hne].
    + rewrite filter_pair_same, map_snd_pair. destruct (stored_prefix n (env_of o) past o Hn) as (new & ->).
      now rewrite skipn_app_exact.
    + rewrite filter_pair_other by auto. cbn. rewrite app_nil_r. symmetry. now apply stored_other.
Qed.
End Gen.

(** Instances. *)
Lemma raq_appends {T} (ws : list (list (trans T))) : forall q l, raq_iter q = trunc (maxlen q) l ->
  exists q', mem_appends raq_append q ws = Ok q' /\ raq_iter q' = trunc (maxlen q) (l ++ ws) /\ maxlen q' = maxlen q.
Proof.
  induction ws as [|w ws IH]; intros q l Hq; cbn [mem_appends].
  - exists q. rewrite app_nil_r. auto.
  - destruct (raq_append_spec q w) as (q1 & E & Hi & Hm).
    { rewrite Hq. now rewrite trunc_idem. }
    rewrite E. cbn [rbind]. destruct (IH q1 (l ++ [w])) as (q2 & E2 & Hi2 & Hm2).
    { rewrite Hi, Hm, Hq. apply trunc_trunc_app. }
    exists q2. rewrite Hm in *. split; [exact E2|]. split; [|exact Hm2]. now rewrite Hi2, <- app_assoc.
Qed.

Lemma pb_appends_ok {T} (ws : list (list (trans T))) : forall b s, pb_rel b s -> (0 < max_priority b)%Q -> capacity b <> Some 0 ->
  exists b', mem_appends pb_append_default b ws = Ok b' /\ data b' = trunc (capacity b) (data b ++ ws).
Proof.
  induction ws as [|w ws IH]; intros b s HR Hmp Hc; cbn [mem_appends].
  - exists b. split; [reflexivity|]. rewrite app_nil_r. destruct HR as (Hc' & Hd & _ & _ & _ & _ & _ & _ & _ & _ & _ & Hcap).
    rewrite Hc', Hd. destruct (s_cap s); cbn; [|reflexivity]. now rewrite lastn_all.
  - pose proof HR as (Hc' & Hd & Hs & Hm & Hx & Hw & Hf & Hsi & L1 & L2 & Hnn & Hcap).
    assert (Est : sb_step s (PAppend w None) = Some (mkSb (s_cap s) (trunc (s_cap s) (s_vals s ++ [w])) (trunc (s_cap s) (s_ws s ++ [s_max s]))
                         (trunc (s_cap s) (s_ps s ++ [s_max s])) (s_max s) (s_wait s) (s_flag s) (s_sampled s), PNone)).
    { cbn [sb_step]. replace (Qltb 0 (s_max s)) with true by (symmetry; apply Qltb_lt; rewrite <- Hx; auto). cbn [negb].
      rewrite Hc' in Hc. destruct (s_cap s) as [[|]|]; congruence. }
    destruct (pb_step_refines b s (PAppend w None) _ _ HR Est) as [Hout HR1]. cbn [pb_step] in Hout, HR1.
    unfold pb_append_default at 1. destruct (pb_append b w None) as [b1|x]; [|cbn in Hout; discriminate]. cbn in HR1. cbn [rbind].
    pose proof HR1 as (Hc1 & Hd1 & _ & _ & Hx1 & _). cbn in Hc1, Hd1, Hx1.
    destruct (IH b1 _ HR1) as (b2 & E2 & Hd2); try congruence.
    exists b2. split; [exact E2|]. rewrite Hd2, Hc1, Hd1, Hc', Hd, trunc_trunc_app, <- app_assoc. reflexivity.
Qed.

Lemma rb_inv_init {T M} n (mem : M) : 0 < n -> @rb_inv T M [] (mkRb n mem (fun _ => [])).
Proof. intros Hn. split; [exact Hn|]. intros e. cbn. unfold lastn. now rewrite skipn_nil. Qed.

Lemma replay_buffer_windows T cap n (ops : list (rb_op T)) : 0 < n ->
  exists b0 b, replay_buffer cap n = Ok b0 /\ rb_run raq_append b0 ops = Ok b /\
    raq_iter (memory b) = trunc cap (map snd (log n ops)).
Proof.
  intros Hn. unfold replay_buffer. destruct (raq_init_spec cap (@nil (list (trans T)))) as (q & E & Hi & Hm).
  rewrite E. cbn [rbind]. unfold rb_init. replace (0 <? n) with true by lia. cbn [passert rbind].
  eexists. pose proof (rb_run_log raq_append ops [] (mkRb n q (fun _ => [])) (rb_inv_init n q Hn)) as H. cbn [memory num_steps] in H.
  destruct (raq_appends (map snd (log_from n [] ops)) q []) as (q' & E' & Hi' & Hm').
  { rewrite Hi, Hm. reflexivity. }
  rewrite E' in H. destruct H as (b' & E2 & Em & _). exists b'. split; [reflexivity|]. split; [exact E2|].
  rewrite Em, Hi', Hm. reflexivity.
Qed.

Lemma prioritized_replay_buffer_windows T cap n (ops : list (rb_op T)) : 0 < n -> cap <> Some 0 ->
  exists b0 b, prioritized_replay_buffer cap n = Ok b0 /\ rb_run pb_append_default b0 ops = Ok b /\
    data (memory b) = trunc cap (map snd (log n ops)).
Proof.
  intros Hn Hc. unfold prioritized_replay_buffer, rb_init. replace (0 <? n) with true by lia. cbn [passert rbind].
  eexists. pose proof (rb_run_log pb_append_default ops [] (mkRb n (pb_init cap true 1%Q) (fun _ => [])) (rb_inv_init n _ Hn)) as H.
  cbn [memory num_steps] in H.
  destruct (pb_appends_ok (map snd (log_from n [] ops)) (pb_init cap true 1%Q) _ (pb_init_rel cap true 1%Q)) as (q' & E' & Hi').
  { cbn. lra. } { exact Hc. }
  rewrite E' in H. destruct H as (b' & E2 & Em & _). exists b'. split; [reflexivity|]. split; [exact E2|].
  rewrite Em, Hi'. reflexivity.
Qed.

Lemma log_env T n e (ops : list (rb_op T)) : 0 < n ->
  map snd (filter (fun p => fst p =? e) (log n ops)) = stored n e ops.
Proof.
  intros Hn. pose proof (log_per_env n e ops Hn []) as H. unfold log. cbn [app] in H. rewrite <- H.
  unfold stored at 1, full_windows. destruct n; [lia|]. reflexivity.
Qed.
