(** Proofs for C114. *)
From Coq Require Import QArith Reals.
From Verif Require Import Base P_Base M_RandomAccessQueue P_RandomAccessQueue M_SampleNK M_Prioritized M_PriorityWeights M_Wrappers M_Train M_ReplayBuffer S_ReplayBuffer P_ReplayBuffer
  M_Batch S_Batch P_Batch M_DQN M_Loop S_Loop.
Close Scope Q_scope. Open Scope nat_scope.

(** ** Episodes and their transitions *)
Section Plays.
Context {Ob Ac J : Type}.
Implicit Types (p : play Ob Ac J) (ps : list (play Ob Ac J)).

Lemma on_last_app {T} (f : T -> T) l x : on_last f (l ++ [x]) = l ++ [f x].
Proof. induction l as [|y l IH]; [reflexivity|]. destruct l as [|z l]; [reflexivity|]. change (y :: on_last f ((z :: l) ++ [x]) = y :: (z :: l) ++ [f x]). now rewrite IH. Qed.
Lemma plays_app (l : list (cmd Ac * reply Ob J)) c : plays (l ++ [c]) = record (plays l) c.
Proof. unfold plays. now rewrite fold_left_app. Qed.

Definition last_obs p : Ob := match rev (snd p) with [] => fst p | (_, u) :: _ => o_obs u end.
Definition extended p (x : Ac * out Ob J) : play Ob Ac J := (fst p, snd p ++ [x]).
Definition trans_of p (x : Ac * out Ob J) : trans (@entry Ob Ac) := mkTrans (last_obs p, fst x, o_rew (snd x), o_obs (snd x)) (o_done (snd x)).
Lemma transitions_snoc p x : transitions (extended p x) = transitions p ++ [trans_of p x].
Proof.
  destruct p as [o l], x as [a u]. unfold transitions, extended, trans_of, last_obs. cbn [fst snd]. revert o. induction l as [|[b v] l IH]; intros o; [reflexivity|].
  cbn [app transitions_from]. rewrite IH. cbn [rev]. destruct (rev l) as [|[c w] t]; reflexivity.
Qed.
Lemma transitions_length p : length (transitions p) = length (snd p).
Proof. destruct p as [o l]. unfold transitions. cbn [fst snd]. revert o. induction l as [|[a u] l IH]; intros o; cbn; auto. Qed.
Lemma over_extended ml p x : over ml (extended p x) = o_done (snd x) || o_needs (snd x) || match ml with Some m => S (length (snd p)) =? m | None => false end.
Proof. unfold over, extended. cbn [snd]. rewrite rev_app_distr, app_length. cbn [rev app]. destruct x as [a u]. cbn [snd length]. now rewrite Nat.add_1_r. Qed.

(** Only the last step of an episode may be done. *)
Definition clean p : Prop := Forall (fun t => terminal t = false) (removelast (transitions p)).
Lemma removelast_snoc {T} (l : list T) x : removelast (l ++ [x]) = l.
Proof. apply removelast_last. Qed.
Lemma done_over ml p x : o_done (snd x) = true -> over ml (extended p x) = true.
Proof. rewrite over_extended. now intros ->. Qed.
Lemma clean_all ml p : clean p -> over ml p = false -> Forall (fun t => terminal t = false) (transitions p).
Proof.
  destruct p as [o l]. destruct l as [|x l] using rev_ind; [constructor|]. clear IHl. change (o, l ++ [x]) with (extended (o, l) x).
  intros C Ov. unfold clean in C. rewrite transitions_snoc in *. rewrite removelast_snoc in C. apply Forall_app. split; [exact C|]. constructor; [|constructor].
  cbn. destruct (o_done (snd x)) eqn:D; [|reflexivity]. rewrite (done_over ml _ _ D) in Ov. discriminate.
Qed.
Lemma clean_extended ml p x : clean p -> over ml p = false -> clean (extended p x).
Proof. intros C Ov. unfold clean. rewrite transitions_snoc, removelast_snoc. exact (clean_all ml p C Ov). Qed.

(** The calls of the replay buffer for an episode. *)
Definition ep_ops ml p : list (rb_op (@entry Ob Ac)) := map (RAppend 0) (transitions p) ++ (if over ml p then [RStop 0] else []).
Definition ops_of ml ps := flat_map (ep_ops ml) ps.
Definition ended ml p : Prop := over ml p = true \/ snd p = [].
Lemma ops_of_snoc ml ps p : ops_of ml (ps ++ [p]) = ops_of ml ps ++ ep_ops ml p.
Proof. unfold ops_of. rewrite flat_map_app. cbn. now rewrite app_nil_r. Qed.
Lemma ops_extended ml ps p x : over ml p = false ->
  ops_of ml (ps ++ [extended p x]) = (ops_of ml (ps ++ [p]) ++ [RAppend 0 (trans_of p x)]) ++ (if over ml (extended p x) then [RStop 0] else []).
Proof. intros O. rewrite !ops_of_snoc. unfold ep_ops. rewrite O, transitions_snoc, map_app, app_nil_r, <- !app_assoc. reflexivity. Qed.
Lemma ops_begin ml ps o : ops_of ml (ps ++ [(o, [])]) = ops_of ml ps.
Proof. rewrite ops_of_snoc. unfold ep_ops. cbn. apply app_nil_r. Qed.

Lemma fold_appends (ts : list (trans (@entry Ob Ac))) : Forall (fun t => terminal t = false) ts -> forall dn cur,
  fold_left (ep_step 0) (map (RAppend 0) ts) (dn, cur) = (dn, cur ++ ts).
Proof.
  induction 1 as [|t ts H _ IH]; intros dn cur; cbn [map fold_left]; [now rewrite app_nil_r|]. cbn [ep_step]. rewrite Nat.eqb_refl, H, IH, <- app_assoc. reflexivity.
Qed.
Lemma fold_ep ml p dn : clean p -> fold_left (ep_step 0) (ep_ops ml p) (dn, []) = if over ml p then (dn ++ [transitions p], []) else (dn, transitions p).
Proof.
  intros C. unfold ep_ops. rewrite fold_left_app. destruct (over ml p) eqn:O; [|rewrite (fold_appends _ (clean_all ml p C O)); reflexivity].
  destruct p as [o l]. destruct l as [|x l] using rev_ind; [discriminate|]. clear IHl. change (o, l ++ [x]) with (extended (o, l) x) in *.
  unfold clean in C. rewrite transitions_snoc in *. rewrite removelast_snoc in C. rewrite map_app, fold_left_app, (fold_appends _ C). cbn [map fold_left ep_step app].
  rewrite Nat.eqb_refl. destruct (terminal (trans_of (o, l) x)); [reflexivity|]. destruct (transitions (o, l) ++ [trans_of (o, l) x]) eqn:E; [now apply app_eq_nil in E|reflexivity].
Qed.
Lemma fold_eps ml ps : forall dn, Forall clean ps -> Forall (ended ml) ps -> fold_left (ep_step 0) (ops_of ml ps) (dn, []) = (dn ++ map transitions (filter (over ml) ps), []).
Proof.
  induction ps as [|p ps IH]; intros dn C E; [cbn; now rewrite app_nil_r|]. inversion_clear C as [|? ? Cp Cs]. inversion_clear E as [|? ? Ep Es].
  unfold ops_of. cbn [flat_map]. rewrite fold_left_app, (fold_ep ml p dn Cp). cbn [filter]. destruct (over ml p) eqn:O.
  - fold (ops_of ml ps). rewrite (IH _ Cs Es). cbn [map]. now rewrite <- app_assoc.
  - destruct Ep as [Ep|Ep]; [congruence|]. replace (transitions p) with (@nil (trans (@entry Ob Ac))) by (unfold transitions; rewrite Ep; reflexivity). exact (IH dn Cs Es).
Qed.
Lemma expected_ended ml n ps : 0 < n -> Forall (ended ml) ps -> expected_memory ml n ps = flat_map (windows n) (map transitions (filter (over ml) ps)).
Proof.
  intros Hn. induction 1 as [|p ps H _ IH]; [reflexivity|]. unfold expected_memory in *. cbn [flat_map filter]. rewrite IH. destruct (over ml p) eqn:O; [reflexivity|].
  destruct H as [H|H]; [congruence|]. unfold transitions. rewrite H. cbn [transitions_from]. unfold full_windows. cbn [length]. replace (0 + 1 - n) with 0 by lia. reflexivity.
Qed.
Lemma stored_ops ml n ps p : 0 < n -> Forall clean (ps ++ [p]) -> Forall (ended ml) ps -> stored n 0 (ops_of ml (ps ++ [p])) = expected_memory ml n (ps ++ [p]).
Proof.
  intros Hn C E. apply Forall_app in C. destruct C as [C Cp]. inversion_clear Cp. unfold stored, episodes. rewrite ops_of_snoc, fold_left_app, (fold_eps ml ps [] C E). cbn [app].
  rewrite fold_ep by assumption. unfold expected_memory. rewrite flat_map_app. fold (expected_memory ml n ps). rewrite (expected_ended ml n ps Hn E). cbn [flat_map]. rewrite app_nil_r.
  destruct (over ml p); cbn [fst snd]; [|reflexivity]. rewrite flat_map_app. cbn [flat_map]. rewrite app_nil_r. unfold full_windows at 1. cbn [length]. replace (0 + 1 - n) with 0 by lia.
  cbn [seq map]. now rewrite app_nil_r.
Qed.

(** With one-step windows it does not matter where episodes end. *)
Lemma windows_one {T} (ep : list (trans T)) : windows 1 ep = map (fun t => [t]) ep /\ full_windows 1 ep = map (fun t => [t]) ep.
Proof.
  assert (H : windows 1 ep = map (fun t => [t]) ep).
  { unfold windows. assert (G : forall l pre, map (window 1 (pre ++ l)) (seq (length pre) (length l)) = map (fun t : trans T => [t]) l).
    { induction l as [|x l IH]; intros pre; [reflexivity|]. cbn [length seq map]. f_equal.
      - unfold window. rewrite skipn_app, skipn_all, Nat.sub_diag. reflexivity.
      - specialize (IH (pre ++ [x])). rewrite <- app_assoc, app_length, Nat.add_1_r in IH. exact IH. }
    exact (G ep []). }
  split; [exact H|]. unfold full_windows. replace (length ep + 1 - 1) with (length ep) by lia. exact H.
Qed.
Definition appended (ops : list (rb_op (@entry Ob Ac))) := flat_map (fun o => match o with RAppend 0 t => [t] | _ => [] end) ops.
Lemma stored_one ops : stored 1 0 ops = map (fun t => [t]) (appended ops).
Proof.
  unfold stored. assert (G : concat (fst (episodes 0 ops)) ++ snd (episodes 0 ops) = appended ops).
  { induction ops as [|o ops IH] using rev_ind; [reflexivity|]. rewrite episodes_snoc. unfold appended. rewrite flat_map_app. fold (appended ops). rewrite <- IH. cbn [flat_map]. rewrite app_nil_r.
    destruct (episodes 0 ops) as [dn cur]. destruct o as [[|e'] t|[|e']]; cbn [ep_step fst snd Nat.eqb].
    - destruct (terminal t); cbn [fst snd]; rewrite ?concat_app; cbn [concat]; now rewrite ?app_nil_r, <- ?app_assoc.
    - now rewrite app_nil_r.
    - destruct cur; cbn [fst snd]; rewrite ?concat_app; cbn [concat]; now rewrite ?app_nil_r.
    - now rewrite app_nil_r. }
  rewrite <- G, map_app. f_equal; [|apply windows_one]. generalize (fst (episodes 0 ops)). induction l as [|ep l IH]; [reflexivity|]. cbn [flat_map concat]. rewrite map_app, IH. f_equal. apply windows_one.
Qed.
Lemma stored_ops_one ml (ps : list (play Ob Ac J)) : stored 1 0 (ops_of ml ps) = expected_memory ml 1 ps.
Proof.
  rewrite stored_one. unfold ops_of, expected_memory. induction ps as [|p ps IH]; [reflexivity|]. cbn [flat_map]. unfold appended in *. rewrite flat_map_app, map_app, IH. f_equal.
  unfold ep_ops. rewrite flat_map_app. replace (flat_map _ (if over ml p then _ else _)) with (@nil (trans (@entry Ob Ac))) by now destruct (over ml p). rewrite app_nil_r.
  replace (flat_map _ (map (RAppend 0) (transitions p))) with (transitions p); [destruct (over ml p); symmetry; apply windows_one|]. induction (transitions p) as [|t l IHl]; [reflexivity|]. cbn. now rewrite <- IHl.
Qed.
(** Earlier episodes must be over before windows of more than one step are made. *)
Definition calm ml n ps : Prop := n = 1 \/ Forall (ended ml) ps.
Lemma stored_calm ml n ps p : 0 < n -> Forall clean (ps ++ [p]) -> calm ml n ps -> stored n 0 (ops_of ml (ps ++ [p])) = expected_memory ml n (ps ++ [p]).
Proof. intros Hn C [->|E]; [apply stored_ops_one|now apply stored_ops]. Qed.
Lemma calm_snoc ml n ps p : calm ml n ps -> over ml p = true -> calm ml n (ps ++ [p]).
Proof. intros [H|H] O; [now left|]. right. apply Forall_app. split; [exact H|]. constructor; [now left|constructor]. Qed.

(** A window of an episode, complete unless the episode is over. *)
Definition from_play ml n ps (w : list (trans (@entry Ob Ac))) : Prop :=
  exists p k, In p ps /\ k < length (snd p) /\ w = window n (transitions p) k /\ (k + n <= length (snd p) \/ over ml p = true).
Lemma expected_from_play ml n ps w : 0 < n -> In w (expected_memory ml n ps) -> from_play ml n ps w.
Proof.
  intros Hn I. unfold expected_memory in I. apply in_flat_map in I. destruct I as (p & Ip & I). destruct (over ml p) eqn:O.
  - unfold windows in I. apply in_map_iff in I. destruct I as (k & <- & I). apply in_seq in I. rewrite transitions_length in I. exists p, k. repeat split; auto; lia.
  - unfold full_windows in I. apply in_map_iff in I. destruct I as (k & <- & I). apply in_seq in I. rewrite transitions_length in I. exists p, k. repeat split; auto; lia.
Qed.
Lemma from_play_begin ml n ps p w : from_play ml n ps w -> from_play ml n (ps ++ [p]) w.
Proof. intros (q & k & I & H). exists q, k. split; [apply in_or_app; now left|exact H]. Qed.
Lemma from_play_extended ml n ps p x w : over ml p = false -> from_play ml n (ps ++ [p]) w -> from_play ml n (ps ++ [extended p x]) w.
Proof.
  intros O (q & k & I & L & -> & F). apply in_app_or in I. destruct I as [I|[<-|[]]].
  - exists q, k. split; [apply in_or_app; now left|]. auto.
  - destruct F as [F|F]; [|congruence]. exists (extended p x), k. split; [apply in_or_app; right; now left|]. unfold extended at 1. cbn [snd]. rewrite app_length. cbn [length].
    split; [lia|]. split; [|left; unfold extended; cbn [snd]; rewrite app_length; lia]. rewrite transitions_snoc. symmetry. apply window_app. rewrite transitions_length. exact F.
Qed.

(** ** From windows to rows *)
Lemma transitions_nth p : forall k, k < length (snd p) -> exists s a u s', nth_error (transitions p) k = Some (mkTrans (s, a, o_rew u, s') (o_done u)) /\
  nth_error (observations p) k = Some s /\ nth_error (observations p) (S k) = Some s' /\ nth_error (snd p) k = Some (a, u).
Proof.
  destruct p as [o l]. unfold transitions, observations. cbn [fst snd]. revert o. induction l as [|[a u] l IH]; intros o k L; [cbn in L; lia|].
  destruct k as [|k]; [exists o, a, u, (o_obs u); repeat split|]. cbn [length] in L. destruct (IH (o_obs u) k ltac:(lia)) as (s & b & v & s' & H1 & H2 & H3 & H4).
  exists s, b, v, s'. cbn [transitions_from nth_error map snd]. auto.
Qed.
Lemma rewards_transitions p : map (fun t : trans (@entry Ob Ac) => let '(_, _, r, _) := payload t in r) (transitions p) = map (fun x => o_rew (snd x)) (snd p).
Proof. destruct p as [o l]. unfold transitions. cbn [fst snd]. revert o. induction l as [|[a u] l IH]; intros o; [reflexivity|]. cbn [transitions_from map payload snd]. now rewrite IH. Qed.
Lemma in_clean p k t : clean p -> nth_error (transitions p) k = Some t -> S k < length (snd p) -> terminal t = false.
Proof.
  intros C N L. unfold clean in C. assert (D : transitions p = removelast (transitions p) ++ [last (transitions p) t]).
  { apply app_removelast_last. intros E. rewrite E in N. destruct k; discriminate. }
  rewrite D in N. rewrite nth_error_app1 in N; [|].
  - eapply Forall_forall in C; [exact C|]. apply nth_error_In in N. exact N.
  - pose proof (transitions_length p) as T. rewrite D, app_length in T. cbn in T. lia.
Qed.
End Plays.

Section Rows.
Context {Ob Ac J : Type}.
Lemma nth_error_firstn {T} (l : list T) n j : j < n -> nth_error (firstn n l) j = nth_error l j.
Proof. revert n j. induction l as [|x l IH]; intros [|n] [|j] H; try reflexivity; try lia. cbn. apply IH. lia. Qed.
Lemma nth_error_skipn {T} (l : list T) k j : nth_error (skipn k l) j = nth_error l (k + j).
Proof. revert k. induction l as [|x l IH]; intros [|k]; try reflexivity; [now destruct j|]. cbn. apply IH. Qed.
Lemma firstn_min {T} (l : list T) n k : firstn n (skipn k l) = firstn (Nat.min n (length l - k)) (skipn k l).
Proof.
  destruct (Nat.le_ge_cases n (length l - k)); [now rewrite Nat.min_l|]. rewrite Nat.min_r by assumption. rewrite !firstn_all2; rewrite ?skipn_length; auto.
Qed.

Lemma window_row g ml n (p : play Ob Ac J) k s a r ns tm dc : 0 < n -> clean p -> k < length (snd p) -> (k + n <= length (snd p) \/ over ml p = true) ->
  entry_ok g (map as_exper (window n (transitions p) k)) s a r ns tm dc -> experience ml g n p s a r ns tm dc.
Proof.
  intros Hn C L F (first & last & init & rest & W1 & W2 & -> & -> & -> & R & T1 & T0 & D).
  set (m := Nat.min n (length (snd p) - k)). assert (Hm : 1 <= m <= n) by (unfold m; lia). assert (Hk : k + m <= length (snd p)) by (unfold m; lia).
  set (w := map as_exper (window n (transitions p) k)) in *.
  assert (NW : forall j, j < m -> nth_error w j = option_map as_exper (nth_error (transitions p) (k + j))).
  { intros j Hj. unfold w, window. rewrite nth_error_map, nth_error_firstn, nth_error_skipn by lia. reflexivity. }
  assert (LW : length w = m). { unfold w, window. rewrite map_length, firstn_length, skipn_length, transitions_length. reflexivity. }
  destruct (transitions_nth p k L) as (s & a & u & s' & N1 & N2 & N3 & N4).
  destruct (transitions_nth p (k + m - 1) ltac:(lia)) as (s1 & a1 & u1 & s1' & M1 & M2 & M3 & M4).
  assert (E1 : first = as_exper (mkTrans (s, a, o_rew u, s') (o_done u))).
  { pose proof (NW 0 ltac:(lia)) as E. rewrite W1, Nat.add_0_r, N1 in E. cbn [nth_error option_map] in E. congruence. }
  assert (E2 : last = as_exper (mkTrans (s1, a1, o_rew u1, s1') (o_done u1))).
  { pose proof (NW (m - 1) ltac:(lia)) as E. replace (k + (m - 1)) with (k + m - 1) in E by lia. rewrite M1, W2 in E. rewrite W2, app_length in LW. cbn [length] in LW.
    rewrite nth_error_app2 in E by lia. replace (m - 1 - length init) with 0 in E by lia. cbn [nth_error option_map] in E. congruence. }
  exists k, m, u1. rewrite E1, E2. cbn [as_exper payload x_state x_action x_next_state].
  split; [exact Hm|]. split; [destruct F as [F|F]; [left; unfold m; lia|]; destruct (Nat.le_gt_cases n (length (snd p) - k)); [left; unfold m; lia|right; split; [unfold m; lia|exact F]]|].
  split; [exact N2|]. split; [rewrite nth_error_map, N4; reflexivity|]. split.
  { rewrite R. unfold w, window. rewrite map_map. rewrite (map_ext _ (fun t : trans (@entry Ob Ac) => let '(_, _, r, _) := payload t in r)) by (intros [[[[? ?] ?] ?] ?]; reflexivity).
    rewrite <- firstn_map, <- skipn_map, rewards_transitions, skipn_map, firstn_map, firstn_min. fold m. reflexivity. }
  replace (S (k + m - 1)) with (k + m) in M3 by lia. split; [exact M3|]. split; [rewrite nth_error_map, M4; reflexivity|]. split; [|rewrite D, LW; reflexivity].
  assert (IL : In (as_exper (mkTrans (s1, a1, o_rew u1, s1') (o_done u1))) w) by (rewrite W2, E2; apply in_or_app; right; now left).
  destruct (o_done u1) eqn:Du; [apply T1; eexists; split; [exact IL|reflexivity]|]. apply T0. intros t It. apply In_nth_error in It. destruct It as [j Nj].
  assert (Hj : j < m) by (rewrite <- LW; apply nth_error_Some; congruence). rewrite (NW j Hj) in Nj. destruct (nth_error (transitions p) (k + j)) as [t'|] eqn:Nt; [|discriminate]. cbn in Nj. injection Nj as <-.
  assert (TT : terminal (as_exper t') = terminal t') by (destruct t' as [[[[? ?] ?] ?] ?]; reflexivity). rewrite TT.
  destruct (Nat.eq_dec j (m - 1)) as [->|]; [replace (k + (m - 1)) with (k + m - 1) in Nt by lia; rewrite M1 in Nt; injection Nt as <-; reflexivity|]. apply (in_clean p (k + j) t' C Nt). lia.
Qed.

Lemma happened_ok g ml n (ps : list (play Ob Ac J)) ws : 0 < n -> Forall clean ps -> Forall (from_play ml n ps) ws -> happened ml g n ps ws.
Proof.
  intros Hn C F. destruct (batch_ok g (map (map as_exper) ws)) as (b & Eb & L1 & L2 & L3 & L4 & L5 & L6 & N & _).
  { apply Forall_map. eapply Forall_impl; [|exact F]. intros w (p & k & _ & Lk & -> & _) E. apply map_eq_nil in E. apply (f_equal (@length _)) in E. unfold window in E.
    rewrite firstn_length, skipn_length, transitions_length in E. cbn in E. lia. }
  exists b. rewrite map_length in *. split; [exact Eb|]. split; [exact L1|]. intros i Hi. destruct (nth_error ws i) as [w|] eqn:Ew; [|apply nth_error_None in Ew; lia].
  destruct (N i (map as_exper w)) as (s & a & r & ns & tm & dc & H1 & H2 & H3 & H4 & H5 & H6 & En); [rewrite nth_error_map, Ew; reflexivity|].
  pose proof (nth_error_In _ _ Ew) as Iw. eapply Forall_forall in F; [|exact Iw]. destruct F as (p & k & Ip & Lk & -> & Fk).
  exists p, s, a, r, ns, tm, dc. repeat (split; [assumption|]). eapply Forall_forall in C; [|exact Ip]. exact (window_row g ml n p k s a r ns tm dc Hn C Lk Fk En).
Qed.
End Rows.

(** ** The replay buffer *)
Section Buffer.
Context {Ob Ac M Smp Orc Sv : Type}.
Notation win := (list (trans (@entry Ob Ac))).
(** What is needed of a buffer: its memory holds the last [cap] windows, and samples are taken from it. *)
Record lawful (B : @buffer Ob Ac M Smp Orc Sv) (cap : option nat) (good : M -> Prop) (contents : M -> list win) (window_of : Smp -> win) : Prop := mkLawful {
  l_append : forall m w m', good m -> b_append B m w = Ok m' -> good m' /\ contents m' = trunc cap (contents m ++ [w]);
  l_sample : forall m n o m' xs, good m -> b_sample B m n o = Ok (m', xs) -> good m' /\ contents m' = contents m /\ Forall (fun x => In (window_of x) (contents m)) xs;
  l_errors : forall m es m', good m -> b_errors B m es = Ok m' -> good m' /\ contents m' = contents m }.
End Buffer.

Lemma py_get_In {T} (l : list T) i x : py_get l i = Ok x -> In x l.
Proof. unfold py_get. set (j := if (i <? 0)%Z then (i + Z.of_nat (length l))%Z else i). destruct (j <? 0)%Z; [discriminate|]. destruct (nth_error l _) eqn:E; [|discriminate]. intros H. injection H as <-. exact (nth_error_In _ _ E). Qed.

Lemma uniform_lawful {Ob Ac} fuel cap : lawful (@uniform_buffer Ob Ac fuel) cap (fun q => maxlen q = cap /\ raq_iter q = trunc cap (raq_iter q)) raq_iter (fun w => w).
Proof.
  split; cbn [uniform_buffer b_append b_sample b_errors].
  - intros m w m' [G1 G2] E. destruct (raq_append_spec m w) as (q & E' & I & X); [now rewrite G1|]. rewrite E' in E. injection E as <-. rewrite X, I, G1. repeat split; auto. now rewrite trunc_idem.
  - intros m n o m' xs G E. destruct (rb_sample fuel o m n) as [ys|] eqn:S; [|discriminate]. cbn in E. injection E as <- <-. split; [exact G|]. split; [reflexivity|].
    unfold rb_sample in S. destruct (passert _); [|discriminate]. cbn [rbind] in S. unfold raq_sample in S. destruct (sample_n_k _ _ _ _) as [ixs|]; [|discriminate]. cbn [rbind] in S. clear - S. revert ys S.
    induction ixs as [|i ixs IH]; intros ys S; cbn [raq_getmany] in S; [injection S as <-; constructor|]. destruct (raq_getitem m (Z.of_nat i)) as [y|] eqn:Y; [|discriminate]. cbn [rbind] in S.
    destruct (raq_getmany m ixs) as [zs|] eqn:Z; [|discriminate]. cbn in S. injection S as <-. constructor; [|auto]. rewrite raq_getitem_spec in Y. exact (py_get_In _ _ _ Y).
  - intros m es m' G E. injection E as <-. auto.
Qed.

Lemma pb_append_data {A} (b b' : pbuf A) x : (match capacity b with Some c => length (data b) <= c | None => True end) -> pb_append b x None = Ok b' ->
  capacity b' = capacity b /\ data b' = trunc (capacity b) (data b ++ [x]).
Proof.
  intros G E. unfold pb_append in E. destruct (capacity b) as [c|] eqn:Cb.
  - destruct (length (data b) =? c) eqn:L.
    + apply Nat.eqb_eq in L. destruct (pb_popleft b) as [[b1 y]|] eqn:P; [|discriminate]. cbn [rbind] in E. unfold pb_popleft in P. destruct (data b) as [|d t] eqn:Db; [discriminate|].
      destruct (tq_popleft op_sum (sums b)) as [[? ?]|]; [|discriminate]. cbn [rbind] in P. destruct (tq_popleft op_min (mins b)) as [[? ?]|]; [|discriminate]. cbn in P. injection P as <- <-.
      cbn [max_priority sums mins capacity data] in E. destruct (tq_append _ _ _); [|discriminate]. cbn [rbind] in E. destruct (tq_append _ _ _); [|discriminate]. cbn in E. injection E as <-. cbn.
      split; [exact Cb|]. unfold lastn. cbn [length] in *. rewrite app_length. cbn [length]. replace (S (length t + 1) - c) with 1 by lia. reflexivity.
    + apply Nat.eqb_neq in L. cbn [rbind] in E. destruct (tq_append _ _ _); [|discriminate]. cbn [rbind] in E. destruct (tq_append _ _ _); [|discriminate]. cbn in E. injection E as <-. cbn.
      split; [exact Cb|]. rewrite lastn_all; [reflexivity|]. rewrite app_length. cbn. lia.
  - cbn [rbind] in E. destruct (tq_append _ _ _); [|discriminate]. cbn [rbind] in E. destruct (tq_append _ _ _); [|discriminate]. cbn in E. injection E as <-. auto.
Qed.
Lemma data_at_In {A} (l : list A) : forall ixs xs, data_at l ixs = Ok xs -> Forall (fun x => In x l) xs.
Proof.
  induction ixs as [|i ixs IH]; intros xs E; cbn [data_at] in E; [injection E as <-; constructor|]. destruct (py_get l i) as [a|] eqn:A1; [|discriminate]. cbn [rbind] in E.
  destruct (data_at l ixs) as [r|]; [|discriminate]. cbn in E. injection E as <-. constructor; [exact (py_get_In _ _ _ A1)|auto].
Qed.
Lemma prioritized_lawful {Ob Ac} cap : lawful (@prioritized_buffer Ob Ac) cap
  (fun m => capacity (snd m) = cap /\ match cap with Some c => length (data (snd m)) <= c | None => True end) (fun m => data (snd m)) fst.
Proof.
  split; cbn [prioritized_buffer b_append b_sample b_errors].
  - intros [p b] w m' [G1 G2] E. cbn [fst snd] in *. unfold pb_append_default in E. destruct (pb_append b w None) as [b'|] eqn:A; [|discriminate]. cbn in E. injection E as <-. cbn [snd].
    rewrite <- G1 in G2. destruct (pb_append_data b b' w G2 A) as [C D]. rewrite C, D, G1. repeat split; auto. destruct cap as [c|]; [|exact I]. cbn. rewrite lastn_length. lia.
  - intros [p b] n o m' xs G E. cbn [fst snd] in *. unfold prb_sample in E. destruct (passert _); [|discriminate]. cbn [rbind] in E.
    destruct (pb_sample b o 0%Q) as [[b' [[ys ps] mn]]|] eqn:S; [|discriminate]. cbn [rbind] in E. destruct (weights_from_probabilities _ _ _ _) as [[p' ws]|]; [|discriminate]. cbn in E. injection E as <- <-. cbn [snd].
    unfold pb_sample in S. destruct (passert _); [|discriminate]. cbn [rbind] in S. destruct (tq_sum (sums b)) as [total|]; [|discriminate]. cbn [rbind] in S. destruct (tq_min (mins b)) as [[mn'|]|]; [|discriminate|discriminate]. cbn [rbind] in S.
    destruct (Qeq_bool total 0); [discriminate|]. destruct (if Qltb 0 0 then _ else _) as [[[[s1 un] up] mp]|]; [|discriminate]. cbn [rbind] in S.
    destruct (prioritized_sample s1 _ _) as [[[s2 pi] pp]|]; [|discriminate]. cbn [rbind] in S. destruct (data_at (data b) (un ++ pi)) as [zs|] eqn:D; [|discriminate]. cbn in S. injection S as <- <- _ _. cbn [capacity data].
    split; [exact G|]. split; [reflexivity|]. apply data_at_In in D. apply Forall_forall. intros [x q] I. apply in_combine_l in I. cbn. eapply Forall_forall in D; eauto.
  - intros [p b] es m' G E. cbn [fst snd] in *. destruct (pb_set_last_priority b es) as [b'|] eqn:S; [|discriminate]. cbn in E. injection E as <-. cbn [snd]. unfold pb_set_last_priority in S.
    destruct (passert _); [|discriminate]. cbn [rbind] in S. destruct (passert _); [|discriminate]. cbn [rbind] in S. destruct (sampled_indices b); [|discriminate]. destruct (passert _); [|discriminate]. cbn [rbind] in S.
    destruct (set_priorities _ _ _ _ _) as [[[? ?] ?]|]; [|discriminate]. cbn in S. injection S as <-. cbn. auto.
Qed.

(** ** The agent *)
Section Agent.
Context {Ob Ac Pm Op M Smp Orc Sv : Type}.
Notation win := (list (trans (@entry Ob Ac))).
Context (B : @buffer Ob Ac M Smp Orc Sv) (U : updater) (tui : nat).
Context (learn : Pm -> Pm -> Op -> list Smp -> Pm * Op * list Q) (sync : Pm -> Pm -> Pm) (draws : nat -> Orc).
Context (cap : option nat) (good : M -> Prop) (contents : M -> list win) (window_of : Smp -> win) (law : lawful B cap good contents window_of).
Context (n : nat).

Definition buf_ok (past : list (rb_op (@entry Ob Ac))) (b : rbuf (@entry Ob Ac) M) : Prop :=
  rb_inv past b /\ num_steps b = n /\ good (memory b) /\ contents (memory b) = trunc cap (stored n 0 past).

Lemma appends_ok : forall ws m m' l, good m -> contents m = trunc cap l -> mem_appends (b_append B) m ws = Ok m' -> good m' /\ contents m' = trunc cap (l ++ ws).
Proof using law.
  induction ws as [|w ws IH]; intros m m' l G C E; cbn [mem_appends] in E; [injection E as <-; rewrite app_nil_r; auto|].
  destruct (b_append B m w) as [m1|] eqn:A1; [|discriminate]. cbn [rbind] in E. destruct (l_append _ _ _ _ _ law m w m1 G A1) as [G1 C1].
  rewrite C, trunc_trunc_app in C1. destruct (IH m1 m' (l ++ [w]) G1 C1 E) as [G2 C2]. rewrite <- app_assoc in C2. auto.
Qed.
Lemma buf_step past b o b' : env_of o = 0 -> buf_ok past b -> rb_step (b_append B) b o = Ok b' -> buf_ok (past ++ [o]) b'.
Proof using law.
  intros Eo (I & N & G & C) E. pose proof (rb_step_log (b_append B) past b o I) as H. cbn zeta in H. rewrite Eo, N in H. destruct (stored_prefix n 0 past o) as [new W]; [rewrite <- N; apply I|].
  rewrite W, skipn_app_exact in H. destruct (mem_appends (b_append B) (memory b) new) as [m|x] eqn:A; [|congruence]. destruct H as (b1 & E1 & Em & En & I1). rewrite E in E1. injection E1 as <-.
  destruct (appends_ok new (memory b) m (stored n 0 past) G C A) as [G1 C1]. split; [exact I1|]. split; [congruence|]. rewrite Em. split; [exact G1|]. now rewrite W.
Qed.
Lemma buf_with_mem past (s : @dqn Ob Ac Pm Op M) m : buf_ok past (d_buf s) -> good m -> contents m = contents (memory (d_buf s)) -> buf_ok past (d_buf (with_mem s m)).
Proof using. intros (I & N & G & C) Gm E. unfold with_mem. cbn [d_buf]. split; [exact I|]. split; [exact N|]. split; [exact Gm|]. cbn [memory]. congruence. Qed.

Lemma update_loop_ok past : forall times (s s' : @dqn Ob Ac Pm Op M) bs, buf_ok past (d_buf s) ->
  update_loop (sample1 B draws) (fun _ _ _ => Err TypeError) (update B learn) U times s = Ok (s', bs) ->
  buf_ok past (d_buf s') /\ Forall (Forall (fun x => In (window_of x) (stored n 0 past))) bs.
Proof using law.
  induction times as [|k IH]; intros s s' bs K E; cbn [update_loop] in E; [injection E as <- <-; auto|].
  destruct (u_episodic U); [discriminate|]. destruct (sample1 B draws s (u_batchsize U)) as [[s1 xs]|] eqn:S1; [|discriminate]. cbn [rbind] in E.
  unfold sample1 in S1. destruct (b_sample B _ _ _) as [[m ys]|] eqn:BS; [|discriminate]. cbn in S1. injection S1 as <- <-.
  pose proof K as (_ & _ & G & C). destruct (l_sample _ _ _ _ _ law _ _ _ _ _ G BS) as (Gm & Cm & F). pose proof (buf_with_mem past s m K Gm Cm) as K1.
  destruct (update B learn (with_mem s m) ys) as [s2|] eqn:Up; [|discriminate]. cbn [rbind] in E. unfold update in Up.
  destruct (learn _ _ _ ys) as [[p o] errs]. destruct (b_errors B _ errs) as [m2|] eqn:BE; [|discriminate]. cbn in Up. injection Up as <-.
  pose proof K1 as (_ & _ & G1 & C1). destruct (l_errors _ _ _ _ _ law _ _ _ G1 BE) as [G2 C2]. pose proof (buf_with_mem past _ m2 K1 G2 C2) as K2.
  match type of E with context [update_loop _ _ _ _ k ?s2] => destruct (update_loop (sample1 B draws) (fun _ _ _ => Err TypeError) (update B learn) U k s2) as [[s3 bs']|] eqn:UL; [|discriminate] end.
  cbn in E. injection E as <- <-. pose proof (fun K => IH _ _ _ K UL) as H3. destruct (H3 K2) as [K3 F3]. split; [exact K3|]. constructor; [|exact F3]. eapply Forall_impl; [|exact F]. cbn. intros x Ix. rewrite C in Ix.
  clear - Ix. unfold trunc in Ix. destruct cap as [c|]; [|exact Ix]. unfold lastn in Ix. rewrite <- (firstn_skipn (length (stored n 0 past) - c) (stored n 0 past)). apply in_or_app. now right.
Qed.

Lemma observe_ok past (s s' : @dqn Ob Ac Pm Op M) obs r done reset bs o a : d_last s = Some (o, a) -> buf_ok past (d_buf s) ->
  observe B U tui learn sync draws s obs r done reset = Ok (s', bs) ->
  let past' := (past ++ [RAppend 0 (mkTrans (o, a, r, obs) done)]) ++ (if reset || done then [RStop 0] else []) in
  buf_ok past' (d_buf s') /\ Forall (Forall (fun x => In (window_of x) (stored n 0 past'))) bs.
Proof using law.
  intros Dl K E. cbn zeta. unfold observe in E. rewrite Dl in E. destruct (if tui =? 0 then _ else _) as [tgt|]; [|discriminate]. cbn [rbind] in E.
  destruct (rb_append (b_append B) (d_buf s) 0 (mkTrans (o, a, r, obs) done)) as [b1|] eqn:A1; [|discriminate]. cbn [rbind] in E.
  pose proof (buf_step past (d_buf s) (RAppend 0 (mkTrans (o, a, r, obs) done)) b1 eq_refl K A1) as K1. set (past' := (past ++ [RAppend 0 (mkTrans (o, a, r, obs) done)]) ++ (if reset || done then [RStop 0] else [])).
  assert (G : forall b2 last, (if reset || done then b2 <- rb_stop (b_append B) b1 0 ;; Ok (b2, None) else Ok (b1, Some (o, a))) = Ok (b2, last) -> buf_ok past' b2).
  { intros b2 last H. unfold past'. destruct (reset || done).
    - destruct (rb_stop (b_append B) b1 0) as [b3|] eqn:R1; [|discriminate]. cbn in H. injection H as <- <-. exact (buf_step _ b1 (RStop 0) b3 eq_refl K1 R1).
    - injection H as <- <-. now rewrite app_nil_r. }
  destruct (if reset || done then b2 <- rb_stop (b_append B) b1 0 ;; Ok (b2, None) else Ok (b1, Some (o, a))) as [[b2 last]|] eqn:R2; [|discriminate]. cbn [rbind] in E. specialize (G b2 last eq_refl).
  destruct (update_if_necessary _ _ _ _ _ _ _ _) as [[[u s2] bs']|] eqn:UN; [|discriminate]. cbn in E. injection E as <- <-. unfold update_if_necessary in UN.
  set (s1 := mkDqn _ _ _ _ _ _ b2 _) in UN. assert (K2 : buf_ok past' (d_buf s1)) by exact G.
  destruct (_ <? _); [injection UN as <- <- <-; auto|]. destruct (u_episodic U && _); [injection UN as <- <- <-; auto|]. destruct (u_interval U =? 0); [discriminate|].
  destruct (negb _); [injection UN as <- <- <-; auto|]. destruct (update_loop _ _ _ U (u_times U) s1) as [[s3 bs3]|] eqn:UL; [|discriminate]. cbn in UN. injection UN as <- <- <-.
  exact (update_loop_ok past' _ _ _ _ K2 UL).
Qed.
End Agent.

(** ** The training loop *)
Section Hoare.
Context {W E : Type}.
Definition hoare {X} (I : W -> Prop) (m : @prog W E X) (Q : X -> W -> Prop) (F : W -> Prop) : Prop :=
  forall s s' tr r, I (fst s) -> m s = (s', tr, r) -> match r with Ok x => Q x (fst s') | Err _ => F (fst s') end.
Lemma hoare_ret {X} (I : W -> Prop) (x : X) (Q : X -> W -> Prop) F : (forall w, I w -> Q x w) -> hoare I (pret x) Q F.
Proof. intros H s s' tr r Hi Em. injection Em as <- <- <-. auto. Qed.
Lemma hoare_bind {X Y} (I : W -> Prop) (m : @prog W E X) (k : X -> @prog W E Y) Q R F : hoare I m Q F -> (forall x, hoare (Q x) (k x) R F) -> hoare I (pbind m k) R F.
Proof.
  intros H1 H2 s s' tr r Hi Em. unfold pbind in Em. destruct (m s) as [[s1 l1] [x|e]] eqn:E1.
  - specialize (H1 _ _ _ _ Hi E1). cbn in H1. destruct (k x s1) as [[s2 l2] r2] eqn:E2. injection Em as <- <- <-. exact (H2 x _ _ _ _ H1 E2).
  - injection Em as <- <- <-. exact (H1 _ _ _ _ Hi E1).
Qed.
Lemma hoare_call {X} (I : W -> Prop) ev (f : W -> W * result X) (Q : X -> W -> Prop) F :
  (forall w, I w -> match snd (f w) with Ok x => Q x (fst (f w)) | Err _ => F (fst (f w)) end) -> hoare I (pcall ev f) Q F.
Proof. intros H s s' tr r Hi Em. unfold pcall in Em. specialize (H (fst s) Hi). destruct (f (fst s)) as [w r1]. injection Em as <- <- <-. exact H. Qed.
Lemma hoare_emit (I : W -> Prop) e F : hoare I (pemit e) (fun _ => I) F.
Proof. intros s s' tr r Hi Em. injection Em as <- <- <-. exact Hi. Qed.
Lemma hoare_get_t (I : W -> Prop) F : @hoare nat I pget_t (fun _ => I) F.
Proof. intros s s' tr r Hi Em. injection Em as <- <- <-. exact Hi. Qed.
Lemma hoare_get_w (I : W -> Prop) F : @hoare W I pget_w (fun _ => I) F.
Proof. intros s s' tr r Hi Em. injection Em as <- <- <-. exact Hi. Qed.
Lemma hoare_set_t (I : W -> Prop) t F : @hoare unit I (pset_t t) (fun _ => I) F.
Proof. intros s s' tr r Hi Em. injection Em as <- <- <-. exact Hi. Qed.
Lemma hoare_weaken {X} (I I' : W -> Prop) (m : @prog W E X) (Q Q' : X -> W -> Prop) F : hoare I' m Q' F -> (forall w, I w -> I' w) -> (forall x w, Q' x w -> Q x w) -> hoare I m Q F.
Proof. intros H A C s s' tr r Hi Em. specialize (H _ _ _ _ (A _ Hi) Em). destruct r; auto. Qed.
End Hoare.

Section Train.
Context {Ob Ac J Pm Op M Smp Orc Sv E X : Type}.
Notation win := (list (trans (@entry Ob Ac))).
Notation W := (world Ob Ac J Pm Op M Smp E X).
Context (e : env E Ob Ac J).
Context (B : @buffer Ob Ac M Smp Orc Sv) (U : updater) (tui : nat).
Context (learn : Pm -> Pm -> Op -> list Smp -> Pm * Op * list Q) (sync : Pm -> Pm -> Pm) (draws : nat -> Orc).
Context (explorer : Ob -> Pm -> nat -> Ac).
Context (hooks : list (nat -> Op -> Op * result unit)) (evaluate : option (nat -> nat -> Pm -> X -> X * result (option Q))) (best : X -> Q).
Context (cap : option nat) (good : M -> Prop) (contents : M -> list win) (window_of : Smp -> win) (law : lawful B cap good contents window_of).
Context (n : nat) (Hn : 0 < n) (ml : option nat).
Notation user := (user e B U tui learn sync draws explorer hooks evaluate best).
Notation train := (train e B U tui learn sync draws explorer hooks evaluate best).

Definition ps (w : W) : list (play Ob Ac J) := plays (snd (w_env w)).
Definition learned_ok (w : W) : Prop := Forall clean (ps w) /\ Forall (Forall (fun x => from_play ml n (ps w) (window_of x))) (w_learned w).
Definition buffer_ok (past : list (play Ob Ac J)) (w : W) : Prop := buf_ok cap good contents n (ops_of ml past) (d_buf (w_agent w)).
Definition inv (w : W) : Prop := buffer_ok (ps w) w /\ learned_ok w.
(** After an observation: the present episode, and whether it is over. *)
Definition post (ov : bool) (obs : Ob) (len : nat) (w : W) : Prop :=
  inv w /\ exists eps p, ps w = eps ++ [p] /\ calm ml n eps /\ last_obs p = obs /\ length (snd p) = len /\ over ml p = ov.
Definition ready (w : W) : Prop := inv w /\ calm ml n (ps w).
Definition stopped (w : W) : Prop := inv w /\ exists eps p, ps w = eps ++ [p] /\ calm ml n eps.
Lemma post_stopped ov obs len w : post ov obs len w -> stopped w.
Proof using. intros (I & eps & p & H1 & H2 & _). split; [exact I|]. eauto. Qed.
Lemma post_over obs len w : post true obs len w -> ready w.
Proof using. intros (I & eps & p & H1 & H2 & _ & _ & O). split; [exact I|]. rewrite H1. now apply calm_snoc. Qed.
Lemma post_same ov obs len w w' : w_env w' = w_env w -> d_buf (w_agent w') = d_buf (w_agent w) -> w_learned w' = w_learned w -> post ov obs len w -> post ov obs len w'.
Proof using. intros E1 E2 E3. unfold post, inv, learned_ok, buffer_ok, ps. rewrite E1, E2, E3. auto. Qed.

Lemma reset_ok (ev : result Ob -> M_Train.ev) : hoare ready (pcall ev (env_reset user)) (fun obs w => post false obs 0 w) learned_ok.
Proof using.
  apply hoare_call. intros w ((K & C & L) & En). unfold user, M_Loop.user. cbn [env_reset]. destruct w as [[v l] s ld x]. unfold ps in *. cbn [logged e_reset w_env snd] in *.
  destruct (e_reset e v) as [v1 [o|er]]; cbn [fst snd].
  - assert (P : plays (l ++ [(CReset, RReset (Ok o))]) = plays l ++ [(o, [])]) by (rewrite plays_app; reflexivity).
    split.
    + split; [unfold buffer_ok, ps, with_env; cbn [w_env w_agent snd]; rewrite P, ops_begin; exact K|]. unfold learned_ok, ps, with_env. cbn [w_env snd w_learned]. rewrite P. split.
      * apply Forall_app. split; [exact C|]. constructor; [constructor|constructor].
      * eapply Forall_impl; [|exact L]. cbn. intros b. apply Forall_impl. intros y. apply from_play_begin.
    + exists (plays l), (o, []). unfold ps, with_env. cbn [w_env snd]. rewrite P. repeat split; auto.
  - unfold learned_ok, ps, with_env. cbn [w_env snd w_learned]. rewrite plays_app. cbn [record]. auto.
Qed.

(** Between act and observe. *)
Definition acting (obs : Ob) (len : nat) (a : Ac) (w : W) : Prop := post false obs len w /\ d_last (w_agent w) = Some (obs, a).
Definition stepped (obs : Ob) (len : nat) (a : Ac) (u : Ob * Q * bool * bool) (w : W) : Prop :=
  d_last (w_agent w) = Some (obs, a) /\ learned_ok w /\ exists eps p v, u = (o_obs v, o_rew v, o_done v, o_needs v) /\ ps w = eps ++ [extended p (a, v)] /\ calm ml n eps /\
    last_obs p = obs /\ length (snd p) = len /\ over ml p = false /\ buffer_ok (eps ++ [p]) w.
Lemma step_ok (ev : result (Ob * Q * bool * bool) -> M_Train.ev) obs len a : hoare (acting obs len a) (pcall ev (env_step user a)) (fun u w => stepped obs len a u w) learned_ok.
Proof using.
  apply hoare_call. intros w (((K & C & L) & eps & p & H1 & H2 & H3 & H4 & H5) & D). unfold M_Loop.user. cbn [env_step]. destruct w as [[v l] s ld x]. unfold ps in *. cbn [logged e_step w_env snd] in *.
  destruct (e_step e a v) as [v1 [o|er]]; cbn [fst snd rmap].
  - assert (P : plays (l ++ [(CStep a, RStep (Ok o))]) = eps ++ [extended p (a, o)]) by (rewrite plays_app, H1; unfold record; rewrite on_last_app; reflexivity).
    split; [exact D|]. split.
    + unfold learned_ok, ps, with_env. cbn [w_env snd w_learned]. rewrite P. split.
      * rewrite H1 in C. apply Forall_app in C. destruct C as [C1 C2]. inversion_clear C2. apply Forall_app. split; [exact C1|]. constructor; [|constructor]. now apply (clean_extended ml).
      * eapply Forall_impl; [|exact L]. cbn. intros b. apply Forall_impl. intros y. rewrite H1. now apply from_play_extended.
    + exists eps, p, o. unfold ps, with_env. cbn [w_env snd]. rewrite P. repeat (split; [auto; fail|]). unfold buffer_ok in *. cbn [w_agent]. unfold ps in K. cbn [w_env snd] in K. rewrite H1 in K. exact K.
  - unfold learned_ok, ps, with_env. cbn [w_env snd w_learned]. rewrite plays_app. cbn [record]. auto.
Qed.
Lemma observe_step_ok (ev : result unit -> M_Train.ev) obs len a o r d nd : let reset := opt_eqb (S len) ml || nd in
  hoare (stepped obs len a (o, r, d, nd)) (pcall ev (agent_observe user o r d reset)) (fun _ w => post (d || reset) o (S len) w) learned_ok.
Proof using law Hn.
  cbn zeta. apply hoare_call. intros w (D & (C & L) & eps & p & v & Eu & H1 & H2 & H3 & H4 & H5 & K). injection Eu as -> -> -> ->. unfold M_Loop.user. cbn [agent_observe].
  destruct (observe B U tui learn sync draws (w_agent w) (o_obs v) (o_rew v) (o_done v) (opt_eqb (S len) ml || o_needs v)) as [[s bs]|x] eqn:O; cbn [fst snd]; [|split; assumption].
  assert (T : over ml (extended p (a, v)) = o_done v || (opt_eqb (S len) ml || o_needs v)).
  { rewrite over_extended, H4. cbn [snd]. unfold opt_eqb. destruct (o_done v), (o_needs v), ml as [m|]; cbn; rewrite ?orb_false_r, ?orb_true_r; reflexivity. }
  destruct (observe_ok B U tui learn sync draws cap good contents window_of law n (ops_of ml (eps ++ [p])) (w_agent w) s (o_obs v) (o_rew v) (o_done v) _ bs obs a D K O) as [K' F].
  replace ((ops_of ml (eps ++ [p]) ++ _) ++ _) with (ops_of ml (eps ++ [extended p (a, v)])) in K', F.
  2: { rewrite (ops_extended ml eps p (a, v) H5), T, (orb_comm (o_done v)). unfold trans_of. rewrite H3. reflexivity. }
  assert (Q : ps (mkWorld (w_env w) s (w_learned w ++ bs) (w_eval w)) = eps ++ [extended p (a, v)]) by exact H1. split.
  - split; [unfold buffer_ok; rewrite Q; exact K'|]. unfold learned_ok. rewrite Q, <- H1. split; [exact C|]. cbn [w_learned]. apply Forall_app. split; [exact L|].
    eapply Forall_impl; [|exact F]. cbn. intros b. apply Forall_impl. intros y I. rewrite stored_calm in I; [|exact Hn|rewrite <- H1; exact C|exact H2]. rewrite H1. exact (expected_from_play ml n _ _ Hn I).
  - exists eps, (extended p (a, v)). rewrite Q. split; [reflexivity|]. split; [exact H2|]. split; [unfold last_obs, extended; cbn [snd]; rewrite rev_app_distr; reflexivity|].
    split; [unfold extended; cbn [snd]; rewrite app_length; cbn; lia|exact T].
Qed.
Lemma post_learned ov obs len w : post ov obs len w -> learned_ok w.
Proof using. intros ((_ & H) & _). exact H. Qed.
Lemma hooks_ok ov obs len t : forall hs i, hoare (post ov obs len)
  (run_hooks i (map (fun (h : nat -> Op -> Op * result unit) t w => let (o, r) := h t (d_opt (w_agent w)) in (with_opt w o, r)) hs) t) (fun _ w => post ov obs len w) learned_ok.
Proof using.
  induction hs as [|h hs IH]; intros i; [apply hoare_ret; auto|]. cbn [map run_hooks]. eapply hoare_bind with (Q := fun _ w => post ov obs len w); [|intros ?; apply IH]. apply hoare_call. intros w H. destruct (h t (d_opt (w_agent w))) as [o [y|x]]; cbn [fst snd].
  - eapply post_same; [| | |exact H]; reflexivity.
  - exact (post_learned ov obs len w H).
Qed.
Lemma eval_ok P ov obs len t idx ee hist : @hoare W ev _ (post ov obs len) (eval_block user P t idx ee hist) (fun _ w => post ov obs len w) learned_ok.
Proof using.
  unfold eval_block. unfold M_Loop.user at 1. cbn [evaluator]. destruct evaluate as [f|] eqn:Ev; [|apply hoare_ret; auto]. destruct (ee || a_eval_during_episode P); [|apply hoare_ret; auto].
  eapply hoare_bind; [|intros score; eapply hoare_bind; [apply hoare_get_w|intros w; apply hoare_ret; intros w' H; exact H]].
  apply hoare_call. intros w H. destruct (f t idx (d_model (w_agent w)) (w_eval w)) as [y [r|x]]; cbn [fst snd]; [eapply post_same; [| | |exact H]; reflexivity|exact (post_learned _ _ _ _ H)].
Qed.
Lemma next_ok P ov obs len t idx hist : a_max_episode_len P = ml ->
  hoare (post ov obs len) (next_block user P t len idx obs (ov || (t =? a_steps P)) hist)
    (fun r w => if fst r then stopped w else post false (l_obs (snd r)) (l_len (snd r)) w) learned_ok.
Proof using.
  intros _. unfold next_block. destruct ((ov || (t =? a_steps P)) && (t =? a_steps P)) eqn:X1; [apply hoare_ret; intros w H; exact (post_stopped _ _ _ _ H)|].
  assert (Ov : ov || (t =? a_steps P) = ov) by (destruct ov, (t =? a_steps P); cbn in *; congruence). rewrite Ov. clear X1 Ov.
  eapply hoare_bind with (Q := fun l w => post false (l_obs l) (l_len l) w).
  - destruct ov; [|apply hoare_ret; cbn; auto]. eapply hoare_bind; [|intros o; apply hoare_ret; cbn; intros w H; exact H]. eapply hoare_weaken; [apply reset_ok| |intros x w H; exact H]. intros w H. exact (post_over _ _ _ H).
  - intros l. eapply hoare_bind with (Q := fun _ w => post false (l_obs l) (l_len l) w); [|intros ?; apply hoare_ret; auto]. destruct (checkpoint_due _ t); [|apply hoare_ret; auto]. apply hoare_emit.
Qed.
Lemma body_ok P l : a_max_episode_len P = ml ->
  hoare (post false (l_obs l) (l_len l)) (train_body user P l) (fun r w => if fst r then stopped w else post false (l_obs (snd r)) (l_len (snd r)) w) learned_ok.
Proof using law Hn.
  intros Hp. unfold train_body. eapply hoare_bind with (Q := fun a w => acting (l_obs l) (l_len l) a w).
  { apply hoare_call. intros w H. unfold M_Loop.user. cbn [agent_act]. unfold act. cbn [fst snd]. split; [eapply post_same; [| | |exact H]; reflexivity|reflexivity]. }
  intros a. eapply hoare_bind; [apply step_ok|]. intros [[[obs r] done] needs]. eapply hoare_bind; [apply hoare_get_t|]. intros t. eapply hoare_bind; [apply hoare_set_t|]. intros ?. cbn zeta.
  rewrite Hp. eapply hoare_bind; [apply observe_step_ok|]. intros ?. eapply hoare_bind; [apply hooks_ok|]. intros ?. eapply hoare_bind; [apply eval_ok|]. intros [hist brk].
  destruct brk; [apply hoare_ret; intros w H; exact (post_stopped _ _ _ _ H)|]. apply next_ok. exact Hp.
Qed.
Lemma loop_ok P : a_max_episode_len P = ml -> forall fuel l, hoare (post false (l_obs l) (l_len l)) (train_loop user P fuel l) (fun _ w => stopped w) learned_ok.
Proof using law Hn.
  intros Hp. induction fuel as [|fuel IH]; intros l; cbn [train_loop]; (eapply hoare_bind; [apply hoare_get_t|]); intros t.
  - destruct (t <? a_steps P); [|apply hoare_ret; intros w H; exact (post_stopped _ _ _ _ H)]. intros s s' tr r H Em. injection Em as <- <- <-. exact (post_learned _ _ _ _ H).
  - destruct (t <? a_steps P); [|apply hoare_ret; intros w H; exact (post_stopped _ _ _ _ H)]. eapply hoare_bind; [apply body_ok; exact Hp|]. intros [brk l']. cbn [fst snd].
    destruct brk; [apply hoare_ret; auto|apply IH].
Qed.
Theorem train_ok P w w' r : a_max_episode_len P = ml -> ready w -> train P w = (w', r) -> learned_ok w' /\ (forall hist, r = Ok hist -> stopped w').
Proof using law Hn.
  intros Hp R Et. unfold M_Loop.train in Et. destruct (train_agent user P (with_t w (a_offset P), 0)) as [[s tr] r'] eqn:Ea. injection Et as <- <-.
  assert (H : hoare ready (train_agent user P) (fun _ w => stopped w) learned_ok).
  { unfold train_agent. eapply hoare_bind; [apply reset_ok|]. intros obs. eapply hoare_bind; [apply hoare_set_t|]. intros ?. eapply hoare_bind with (Q := fun _ w => post false obs 0 w).
    - unfold M_Loop.user. cbn [agent_has_t]. apply hoare_emit.
    - intros _ s0 s1 tr0 r0 H Em. destruct (train_loop user P _ (mkLoc obs 0 0 []) s0) as [[s2 l2] [h1|h2]] eqn:El; injection Em as <- <- <-.
      + exact (loop_ok P Hp _ (mkLoc obs 0 0 []) _ _ _ _ H El).
      + exact (loop_ok P Hp _ (mkLoc obs 0 0 []) _ _ _ _ H El). }
  assert (R' : ready (with_t w (a_offset P))) by exact R. specialize (H (with_t w (a_offset P), 0) _ _ _ R' Ea). cbn [fst] in H. destruct r' as [hist|x].
  - split; [exact (proj2 (proj1 H))|]. intros hist' Eh. exact H.
  - split; [exact H|]. discriminate.
Qed.
End Train.
