(** Proofs for C119. *)
From Coq Require Import QArith Permutation.
From Verif Require Import Base P_Base M_PPO S_PPO P_PPO M_Train M_VectorEnv M_VecLoop S_VecLoop P_VecLoop M_VecAgents S_VecAgents P_VecAgents.
Close Scope Q_scope. Open Scope nat_scope.

(** ** Groups of consecutive transitions *)
Section Pieces.
Context {T : Type}.
(** A block in which only the last may be marked. *)
Definition block (B : list (T * bool)) : Prop := exists B' x, B = B' ++ [x] /\ Forall (fun y => snd y = false) B'.
Lemma segments_block : forall (l : list (T * bool)) s, In s (segments l) -> exists B, piece B l /\ block B /\ s = map fst B.
Proof.
  induction l as [|[x e] l IH]; intros s Hin; [destruct Hin|]. cbn [segments] in Hin.
  assert (Hd : forall s0 ss, segments l = s0 :: ss -> exists B C, l = B ++ C /\ block B /\ s0 = map fst B).
  { clear. induction l as [|[y e] l IH]; intros s0 ss E; [discriminate|]. cbn [segments] in E. destruct e.
    - injection E as <- <-. exists [(y, true)], l. split; [reflexivity|]. split; [exists [], (y, true); auto|reflexivity].
    - destruct (segments l) as [|s1 ss1] eqn:El.
      + injection E as <- <-. exists [(y, false)], l. split; [reflexivity|]. split; [exists [], (y, false); auto|reflexivity].
      + injection E as <- <-. destruct (IH s1 ss1 eq_refl) as (B & C & -> & (B' & z & -> & F) & ->). exists ((y, false) :: B' ++ [z]), C. split; [reflexivity|]. split; [exists ((y, false) :: B'), z; auto|reflexivity]. }
  assert (Tl : forall s, In s (segments l) -> exists B, piece B ((x, e) :: l) /\ block B /\ s = map fst B).
  { intros s0 H0. destruct (IH s0 H0) as (B & (a & b & ->) & HB & ->). exists B. split; [exists ((x, e) :: a), b; reflexivity|]. auto. }
  destruct e.
  - destruct Hin as [<-|Hin]; [|now apply Tl]. exists [(x, true)]. split; [exists [], l; reflexivity|]. split; [exists [], (x, true); auto|reflexivity].
  - destruct (segments l) as [|s0 ss] eqn:El.
    + destruct Hin as [<-|[]]. exists [(x, false)]. split; [exists [], l; reflexivity|]. split; [exists [], (x, false); auto|reflexivity].
    + destruct Hin as [<-|Hin]; [|apply Tl; now right]. destruct (Hd s0 ss eq_refl) as (B & C & -> & (B' & z & -> & F) & ->). exists ((x, false) :: B' ++ [z]). split; [exists [], C; reflexivity|]. split; [exists ((x, false) :: B'), z; auto|reflexivity].
Qed.
Lemma piece_trans (x y z : list T) : piece x y -> piece y z -> piece x z.
Proof. intros (a & b & ->) (c & d & ->). exists (c ++ a), (b ++ d). now rewrite !app_assoc. Qed.
(** A block inside marked sequences lies inside one of them. *)
Lemma block_inside (last : list (T * bool)) : forall (ps : list (list (T * bool))) B, Forall (fun p => exists p' x, p = p' ++ [x] /\ snd x = true) ps -> block B -> piece B (concat ps ++ last) -> exists p, In p (ps ++ [last]) /\ piece B p.
Proof.
  induction ps as [|p ps IH]; intros B F HB (a & b & E); [exists last; split; [now left|now exists a, b]|]. apply Forall_cons_iff in F. destruct F as [(p' & x & Ep & Hx) F]. cbn [concat] in E. rewrite <- app_assoc in E.
  apply app_eq_app in E. destruct E as (l & [[E1 E2]|[E1 E2]]).
  - (* a ends before the end of p *) apply app_eq_app in E2. destruct E2 as (m & [[E3 E4]|[E3 E4]]).
    + (* B = l ++ m *) destruct m as [|y m].
      * exists p. split; [now left|]. exists a, []. rewrite E1, E3, !app_nil_r. reflexivity.
      * destruct l as [|l0 l].
        { cbn in E3. subst B. rewrite app_nil_r in E1. subst a. destruct (IH (y :: m) F HB) as (q & Hq & Pq); [|exists q; split; [now right|exact Pq]]. exists [], b. cbn [app]. rewrite E4. reflexivity. }
        exfalso. destruct HB as (B' & z & -> & FB). destruct (exists_last (l := l0 :: l)) as (l' & w & El); [discriminate|]. rewrite El in *.
        assert (w = x). { rewrite Ep, app_assoc in E1. apply app_inj_tail in E1. now destruct E1. } subst w.
        assert (Hin : In x B'). { destruct (exists_last (l := y :: m)) as (m' & v & Em); [discriminate|]. rewrite Em in E3. rewrite app_assoc in E3. apply app_inj_tail in E3. destruct E3 as [-> _]. apply in_or_app. left. apply in_or_app. right. now left. }
        rewrite Forall_forall in FB. rewrite (FB x Hin) in Hx. discriminate.
    + exists p. split; [now left|]. exists a, m. rewrite E1, E3. reflexivity.
  - destruct (IH B F HB) as (q & Hq & Pq); [exists l, b; exact E2|]. exists q. split; [now right|exact Pq].
Qed.
End Pieces.

Section Rounds.
Context {O A : Type}.
Notation vs := (vstep O A).
Definition mark (x : vs) : M_PPO.transition O A * bool := (ppo_transition x, ended x).
Lemma add_round : forall (r : list vs) p, length p = length r ->
  let l := add_experiences p (combine (map s_obs r) (map s_action r)) (map s_reward r) (map s_next r) (map s_done r) (map s_reset r) in
  length l = length r /\ length (concat l) = length (concat p) + length r /\ forall i c, nth_error l i = Some c -> exists c0 x, nth_error p i = Some c0 /\ nth_error r i = Some x /\ c = c0 ++ [mark x].
Proof.
  induction r as [|x r IH]; intros [|c0 p] L; try discriminate; cbn zeta.
  - repeat split. intros i c H. destruct i; discriminate.
  - injection L as L. cbn [map combine add_experiences]. destruct (IH p L) as (H1 & H2 & H3). split; [cbn [length]; congruence|]. split.
    + cbn [concat]. rewrite !app_length, H2. cbn [length]. lia.
    + intros [|i] c H; cbn [nth_error] in *; [|now apply H3]. injection H as <-. exists c0, x. split; [reflexivity|]. split; [reflexivity|]. destruct x as [[[[[o a] q] o'] d] e]. reflexivity.
Qed.
Lemma column_snoc i (rounds : list (list vs)) r : column i (rounds ++ [r]) = column i rounds ++ match nth_error r i with Some x => [x] | None => [] end.
Proof. unfold column. rewrite flat_map_app. cbn [flat_map]. now rewrite app_nil_r. Qed.
Definition ppo_op (c : acall O A) : M_PPO.op O A := match c with CAct obss actions => BatchAct true obss actions | CObserve obss rs ds es => BatchObserve true obss rs ds es end.
Definition ppo_ops (rounds : list (list vs)) : list (M_PPO.op O A) := map ppo_op (flat_map asked_and_told rounds).
Lemma ppo_ops_app a b : ppo_ops (a ++ b) = ppo_ops a ++ ppo_ops b.
Proof. unfold ppo_ops. now rewrite flat_map_app, map_app. Qed.
Lemma rounds_alternating n : forall rounds (tail : list (M_PPO.op O A)), Forall (fun r => length r = n) rounds -> alternating n false tail -> alternating n false (ppo_ops rounds ++ tail).
Proof.
  induction rounds as [|r rounds IH]; intros tail F Ht; [exact Ht|]. apply Forall_cons_iff in F. destruct F as [Hr F]. cbn. rewrite !map_length. repeat (split; [assumption || reflexivity|]). now apply IH.
Qed.
Lemma run_app {S0 R0 Op} (f : S0 -> Op -> S0 * R0) : forall a s b, run f s (a ++ b) = let (s1, r1) := run f s a in let (s2, r2) := run f s1 b in (s2, r1 ++ r2).
Proof.
  induction a as [|o a IH]; intros s b; cbn [app run]; [now destruct (run f s b)|]. destruct (f s o) as [s1 r1]. rewrite IH. destruct (run f s1 a) as [s2 r2]. now destruct (run f s2 b).
Qed.
(** An update as it must be. *)
Definition good_update (U n : nat) (rounds : list (list vs)) (u : option (list (list (M_PPO.transition O A)))) : Prop :=
  match u with
  | None => True
  | Some eps => U <= length (concat eps) < U + n /\ Forall (fun s => exists i c, piece c (map mark (column i rounds)) /\ In s (segments c)) eps
  end.
Lemma ref_rounds U n (Hu : 0 < U) : forall rounds : list (list vs), Forall (fun r => length r = n) rounds ->
  let '(p, us) := run (ref_call U) (pending_init n) (ppo_ops rounds) in
  length (pend p) = n /\ length (concat (pend p)) < U /\ (forall i c, nth_error (pend p) i = Some c -> exists pre, map mark (column i rounds) = pre ++ c) /\ Forall (good_update U n rounds) us.
Proof.
  induction rounds as [|r rounds IH] using rev_ind; intros F.
  - cbn. split; [apply repeat_length|]. split; [|split; [|constructor]].
    + assert (Z : concat (repeat (@nil (M_PPO.transition O A * bool)) n) = []) by (clear; induction n; auto). rewrite Z. exact Hu.
    + intros i c H. apply nth_error_In, repeat_spec in H. subst c. now exists [].
  - apply Forall_app in F. destruct F as [F Fr]. apply Forall_cons_iff in Fr. destruct Fr as [Hr _]. specialize (IH F). rewrite ppo_ops_app, run_app. destruct (run (ref_call U) (pending_init n) (ppo_ops rounds)) as [p us] eqn:Er. destruct IH as (L & Lt & Hp & Hus).
    assert (Mono : Forall (good_update U n (rounds ++ [r])) us).
    { eapply Forall_impl; [|exact Hus]. intros [eps|] G; [|exact Logic.I]. destruct G as [G1 G2]. split; [exact G1|]. eapply Forall_impl; [|exact G2]. intros s (i & c & (a & b & Hc) & Hin). exists i, c. split; [|exact Hin]. rewrite column_snoc, map_app, Hc. exists a, (b ++ map mark match nth_error r i with Some x => [x] | None => [] end). now rewrite !app_assoc. }
    destruct (add_round r (pend p) (eq_trans L (eq_sym Hr))) as (L1 & L2 & L3). cbn [ppo_ops flat_map asked_and_told app map ppo_op run ref_call acted pend].
    set (l := add_experiences (pend p) _ _ _ _ _) in *.
    assert (Pre : forall i c, nth_error l i = Some c -> exists pre, map mark (column i (rounds ++ [r])) = pre ++ c).
    { intros i c H. destruct (L3 i c H) as (c0 & x & N1 & N2 & ->). destruct (Hp i c0 N1) as (pre & Ep). exists pre. rewrite column_snoc, N2, map_app, Ep, <- app_assoc. reflexivity. }
    destruct (U <=? length (concat l)) eqn:Le; cbn [pend].
    + apply Nat.leb_le in Le. split; [rewrite map_length; lia|]. split; [|split].
      * assert (Z : forall l0 : list (list (M_PPO.transition O A * bool)), concat (map (fun _ => @nil (M_PPO.transition O A * bool)) l0) = []) by (clear; induction l0; auto). rewrite Z. exact Hu.
      * intros i c H. rewrite nth_error_map in H. destruct (nth_error l i); [|discriminate]. injection H as <-. exists (map mark (column i (rounds ++ [r]))). now rewrite app_nil_r.
      * apply Forall_app. split; [exact Mono|]. constructor; [exact Logic.I|]. constructor; [|constructor]. cbn [good_update]. rewrite segs_concat, map_length. split; [lia|].
        apply Forall_forall. intros s Hs. apply in_concat in Hs. destruct Hs as (sl & Hsl & Hs). apply in_map_iff in Hsl. destruct Hsl as (c & <- & Hc). apply In_nth_error in Hc. destruct Hc as [i Hi]. exists i, c. split; [|exact Hs].
        destruct (Pre i c Hi) as (pre & ->). exists pre, []. now rewrite app_nil_r.
    + apply Nat.leb_gt in Le. split; [lia|]. split; [exact Le|]. split; [exact Pre|]. apply Forall_app. split; [exact Mono|]. constructor; [exact Logic.I|]. constructor; [exact Logic.I|constructor].
Qed.
(** All transitions observed, by environment. *)
Lemma observed_rounds : forall rounds : list (list vs), observed [] (ppo_ops rounds) = map ppo_transition (concat rounds).
Proof.
  induction rounds as [|r rounds IH]; [reflexivity|]. change (ppo_ops (r :: rounds)) with (BatchAct true (map s_obs r) (map s_action r) :: BatchObserve true (map s_next r) (map s_reward r) (map s_done r) (map s_reset r) :: ppo_ops rounds). cbn [observed concat]. rewrite map_app, IH. f_equal.
  induction r as [|x r IHr]; [reflexivity|]. cbn [map combine zip_experiences]. rewrite IHr. destruct x as [[[[[o a] q] o'] d] e]. reflexivity.
Qed.
Lemma flat_map_both {X0 Y0} (f g : X0 -> list Y0) : forall l, Permutation (flat_map (fun x => f x ++ g x) l) (flat_map f l ++ flat_map g l).
Proof.
  induction l as [|x l IH]; [constructor|]. cbn [flat_map]. rewrite <- !app_assoc. apply Permutation_app_head. rewrite IH. rewrite !app_assoc. apply Permutation_app_tail, Permutation_app_comm.
Qed.
Lemma nth_all {T} : forall (l : list T) k, flat_map (fun i => match nth_error l (i - k) with Some x => [x] | None => [] end) (seq k (length l)) = l.
Proof.
  induction l as [|x l IH]; intros k; [reflexivity|]. cbn [length seq flat_map]. rewrite Nat.sub_diag. cbn [nth_error app]. f_equal. rewrite <- (IH (S k)) at 2. rewrite !flat_map_concat_map. f_equal. apply map_ext_in. intros i Hi. apply in_seq in Hi. replace (i - k) with (S (i - S k)) by lia. reflexivity.
Qed.
Lemma columns_all n : forall rounds : list (list vs), Forall (fun r => length r = n) rounds -> Permutation (concat rounds) (flat_map (fun i => column i rounds) (seq 0 n)).
Proof.
  induction rounds as [|r rounds IH]; intros F.
  - cbn. induction (seq 0 n); [constructor|assumption].
  - apply Forall_cons_iff in F. destruct F as [Hr F]. cbn [concat]. unfold column. cbn [flat_map]. rewrite flat_map_both. rewrite (IH F). apply Permutation_app_tail. rewrite <- (nth_all r 0) at 1. rewrite Hr. rewrite !flat_map_concat_map. erewrite map_ext; [apply Permutation_refl|]. intros i. cbn beta. now rewrite Nat.sub_0_r.
Qed.
End Rounds.

Section PPORun.
Context {E O A Sd V Pl X : Type} (G : genv E O A (Q * bool * bool) Sd V) (recurrent : option (option nat)) (U : nat).
Context (choose : list O -> Pl -> Pl * list A) (learn : option (M_PPO.dataset O A) -> Pl -> Pl) (hooks : list (nat -> Pl -> Pl * result unit)) (evaluate : option (nat -> nat -> Pl * X -> (Pl * X) * result (option Q))) (best : X -> Q).
Definition ppo_run P envs last pl x :=
  vtrain G (plug_act choose (ppo_ask recurrent U)) (plug_observe (ppo_tell recurrent U) learn) (fun _ s => s) (map lift_hook hooks) (option_map lift_eval evaluate) best P envs last (ppo_new pl) x.
Context (same : forall obss pl pl' actions, choose obss pl = (pl', actions) -> length actions = length obss).
Context (Hrec : forall m, recurrent = Some (Some m) -> 0 < m) (Hu : 0 < U).
Notation go cs := (run (M_PPO.call recurrent U) store_init (map ppo_op cs)).
Definition ppo_inv (cs : list (acall O A)) (s : plugged Pl ppo_core) : Prop :=
  match core s with Ok (st, ds) => go cs = (st, map Ok ds) | Err _ => exists e, In (Err e) (snd (go cs)) end.
Lemma ppo_act_length obss s s' actions : plug_act choose (ppo_ask recurrent U) obss s = (s', Ok actions) -> length actions = length obss.
Proof.
  unfold plug_act. destruct (core s) as [c|]; [|discriminate]. destruct (choose obss (policy s)) as [p a] eqn:Ec. destruct (ppo_ask recurrent U c obss a); [|discriminate]. intros H. injection H as _ <-. exact (same _ _ _ _ Ec).
Qed.
Lemma no_error n (ops : list (M_PPO.op O A)) e : alternating n false ops -> ~ In (Err e) (snd (run (M_PPO.call recurrent U) store_init ops)).
Proof.
  intros Ha Hin. assert (F : Forall2 (same_update recurrent) (snd (run (M_PPO.call recurrent U) store_init ops)) (snd (run (ref_call U) (pending_init n) ops))) by (apply (store_refines recurrent U n Hrec ops false); [exact Ha|apply store_ok_init]).
  apply In_nth_error in Hin. destruct Hin as [k Hk]. clear Ha. revert k Hk. induction F as [|r u rs us H F IH]; intros [|k] Hk; try discriminate; [|now apply (IH k)]. injection Hk as ->. destruct u; exact H.
Qed.
Lemma ppo_inv_run P envs last pl x w r : envs <> [] -> length last = length envs -> ppo_run P envs last pl x = (w, r) -> ppo_inv (vw_calls w) (vw_agent w).
Proof.
  intros He Hl H. unfold ppo_run in H. eapply (vtrain_inv_rounds G _ _ _ _ _ _ _ _ _ _ _ w r ppo_inv); [exact ppo_act_length|exact He|exact Hl| | | | | |exact H].
  - intros rounds s obss s' r' Fr Lo I Ha. unfold plug_act in Ha. unfold ppo_inv in I. destruct (core s) as [[st ds]|e] eqn:Ec.
    + destruct (choose obss (policy s)) as [p actions] eqn:Ch. pose proof (same _ _ _ _ Ch) as La.
      assert (Alt : alternating (length envs) false (ppo_ops rounds ++ [BatchAct true obss actions])) by (apply rounds_alternating; [exact Fr|]; cbn; repeat (split; [reflexivity || congruence|]); exact Logic.I).
      assert (R : go (flat_map asked_and_told rounds ++ [CAct obss actions]) = let (s2, r2) := M_PPO.call recurrent U st (BatchAct true obss actions) in (s2, map Ok ds ++ [r2])).
      { rewrite map_app, run_app, I. cbn [map ppo_op run]. destruct (M_PPO.call recurrent U st (BatchAct true obss actions)). reflexivity. }
      unfold ppo_ask in Ha. cbn [fst snd] in Ha. destruct (M_PPO.call recurrent U st (BatchAct true obss actions)) as [st2 [d|e]] eqn:Ca; cbn [rbind] in Ha.
      * injection Ha as <- <-. unfold ppo_inv. cbn [core]. rewrite R, map_app. reflexivity.
      * exfalso. apply (no_error (length envs) _ e Alt). change (ppo_ops rounds) with (map ppo_op (flat_map (@asked_and_told O A) rounds)). rewrite map_app in R. cbn [map ppo_op] in R. rewrite R. apply in_or_app. right. now left.
    + injection Ha as <- <-. rewrite app_nil_r. unfold ppo_inv. now rewrite Ec.
  - intros cs s obss rs ds es s' r' I Ho. unfold plug_observe in Ho. unfold ppo_inv in *. rewrite map_app, run_app. cbn [map ppo_op run]. destruct (core s) as [[st dl]|e] eqn:Ec.
    + rewrite I. unfold ppo_tell in Ho. cbn [fst snd] in Ho. destruct (M_PPO.call recurrent U st (BatchObserve true obss rs ds es)) as [st2 [d|e]] eqn:Ca; cbn [rbind] in Ho; injection Ho as <- <-; cbn [core snd].
      * now rewrite map_app.
      * exists e. apply in_or_app. right. now left.
    + injection Ho as <- <-. rewrite Ec. destruct I as [e0 He0]. exists e0. destruct (go cs) as [s1 r1]. destruct (M_PPO.call recurrent U s1 _) as [s2 r2]. cbn [snd] in *. apply in_or_app. now left.
  - intros h t cs s s' r' Hh I Ha. apply in_map_iff in Hh. destruct Hh as (g & <- & _). unfold lift_hook in Ha. destruct (g t (policy s)). injection Ha as <- _. exact I.
  - intros f t k cs s y s' y' r' Hf I Ha. destruct evaluate as [g|]; [|discriminate]. injection Hf as <-. unfold lift_eval in Ha. cbn [fst snd] in Ha. destruct (g t k (policy s, y)) as [[p z] q]. injection Ha as <- _ _. exact I.
  - reflexivity.
Qed.

Lemma ppo_events P envs last pl x w r : envs <> [] -> length last = length envs -> ppo_run P envs last pl x = (w, r) ->
  length (fst (vw_envs w)) = length envs /\
  exists rounds st ds, vw_calls w = flat_map asked_and_told rounds /\ Forall (fun r => length r = length envs) rounds /\
    core (vw_agent w) = Ok (st, ds) /\ run (M_PPO.call recurrent U) store_init (ppo_ops rounds) = (st, map Ok ds) /\
    forall i v log, nth_error (fst (vw_envs w)) i = Some (v, log) -> column i rounds = flat_map (lived (a_max_episode_len P)) (vplays log) /\
      exists eps p, vplays log = eps ++ [p] /\ Forall (whole (a_max_episode_len P)) eps /\ (whole (a_max_episode_len P) p \/ ongoing (a_max_episode_len P) p).
Proof.
  intros He Hl H. destruct (vtrain_told G _ _ _ _ _ _ _ _ _ _ _ _ _ ppo_act_length He Hl H) as (L & rounds & Hc & Fr & Hi). split; [exact L|].
  pose proof (ppo_inv_run _ _ _ _ _ _ _ He Hl H) as I. unfold ppo_inv in I. rewrite Hc in I. destruct (core (vw_agent w)) as [[st ds]|e].
  - exists rounds, st, ds. repeat (split; [assumption || reflexivity|]). exact Hi.
  - exfalso. destruct I as [e0 He0]. apply (no_error (length envs) (ppo_ops rounds) e0); [|exact He0]. rewrite <- (app_nil_r (ppo_ops rounds)). apply rounds_alternating; [exact Fr|exact Logic.I].
Qed.

(** Every transition of every environment, once. *)
Lemma ppo_once P envs last pl x w r : envs <> [] -> length last = length envs -> ppo_run P envs last pl x = (w, r) ->
  exists st ds rest, core (vw_agent w) = Ok (st, ds) /\ length rest < U /\
    Permutation (flat_map (fun v => map ppo_transition (flat_map (lived (a_max_episode_len P)) (vplays (snd v)))) (fst (vw_envs w))) (concat (map (fun d => used (Ok d)) ds) ++ rest).
Proof.
  intros He Hl H. destruct (ppo_events _ _ _ _ _ _ _ He Hl H) as (L & rounds & st & ds & Hc & Fr & Ec & Er & Hi).
  assert (Alt : alternating (length envs) false (ppo_ops rounds)) by (rewrite <- (app_nil_r (ppo_ops rounds)); apply rounds_alternating; [exact Fr|exact Logic.I]).
  assert (F : Forall2 (same_update recurrent) (snd (run (M_PPO.call recurrent U) store_init (ppo_ops rounds))) (snd (run (ref_call U) (pending_init (length envs)) (ppo_ops rounds)))) by (apply (store_refines recurrent U (length envs) Hrec (ppo_ops rounds) false); [exact Alt|apply store_ok_init]).
  destruct (ref_once U (length envs) (ppo_ops rounds) false (pending_init (length envs)) Alt) as [P1 P2]; [apply repeat_length|discriminate|].
  assert (Z : concat (repeat (@nil (M_PPO.transition O A * bool)) (length envs)) = []) by (clear; induction (length envs); auto). cbn [pending_init pend acted] in P1, P2. rewrite Z in P1, P2. cbn [map app length] in P1, P2.
  exists st, ds, (map fst (concat (pend (fst (run (ref_call U) (pending_init (length envs)) (ppo_ops rounds)))))). split; [exact Ec|]. split; [rewrite map_length; apply P2; exact Hu|].
  rewrite Er in F. cbn [snd] in F. apply same_used in F. rewrite map_map in F.
  assert (P3 : Permutation (flat_map (fun v => map ppo_transition (flat_map (lived (a_max_episode_len P)) (vplays (snd v)))) (fst (vw_envs w))) (observed [] (ppo_ops rounds))).
  { rewrite observed_rounds.
    assert (Cx : forall (l : list (E * list (lcall O A))) k, (forall i v log, nth_error l i = Some (v, log) -> column (k + i) rounds = flat_map (lived (a_max_episode_len P)) (vplays log)) ->
      flat_map (fun v => map ppo_transition (flat_map (lived (a_max_episode_len P)) (vplays (snd v)))) l = concat (map (map ppo_transition) (map (fun i => column i rounds) (seq k (length l))))).
    { induction l as [|[v lg] l IHl]; intros k Hk; [reflexivity|]. cbn [length seq map concat flat_map snd]. f_equal; [specialize (Hk 0 v lg eq_refl); rewrite Nat.add_0_r in Hk; now rewrite Hk|]. apply IHl. intros i v' lg' N. rewrite <- (Hk (S i) v' lg' N). f_equal. lia. }
    rewrite (Cx (fst (vw_envs w)) 0); [|intros i v lg N; exact (proj1 (Hi i v lg N))]. apply Permutation_sym. rewrite (columns_all (length envs) rounds Fr), L, flat_map_concat_map, concat_map. apply Permutation_refl. }
  rewrite P3, P1. apply Permutation_app_tail. symmetry. exact F.
Qed.

(** The sequences handed to the updates are parts of episodes. *)
Lemma in_one_play ml i rounds (s : list (M_PPO.transition O A)) c plays eps p : column i rounds = flat_map (lived ml) plays -> plays = eps ++ [p] -> Forall (whole ml) eps -> piece c (map (@mark O A) (column i rounds)) -> In s (segments c) ->
  s <> [] /\ exists q, In q plays /\ piece s (map ppo_transition (lived ml q)).
Proof.
  intros Hc -> Fe Pc Hs. pose proof (segments_ne c) as Ne. rewrite Forall_forall in Ne. split; [intros ->; specialize (Ne [] Hs); cbn in Ne; lia|].
  destruct (segments_block c s Hs) as (B & PB & HB & ->). pose proof (piece_trans _ _ _ PB Pc) as PP. rewrite Hc, flat_map_app in PP. cbn [flat_map] in PP. rewrite app_nil_r, map_app in PP.
  rewrite flat_map_concat_map, concat_map, map_map in PP. destruct (block_inside (map mark (lived ml p)) (map (fun q => map mark (lived ml q)) eps) B) as (q' & Hq & (a & b & Eq)); [|exact HB|exact PP|].
  - apply Forall_forall. intros y Hy. apply in_map_iff in Hy. destruct Hy as (q & <- & Hq). rewrite Forall_forall in Fe. destruct (Fe q Hq) as (init & z & -> & Ez & _). rewrite map_app. exists (map mark init), (mark z). split; [reflexivity|exact Ez].
  - assert (K : exists q, In q (eps ++ [p]) /\ q' = map mark (lived ml q)).
    { apply in_app_or in Hq. destruct Hq as [Hq|[<-|[]]]; [|exists p; split; [apply in_or_app; right; now left|reflexivity]]. apply in_map_iff in Hq. destruct Hq as (q & <- & Hq). exists q. split; [apply in_or_app; now left|reflexivity]. }
    destruct K as (q & Hin & ->). exists q. split; [exact Hin|]. exists (map fst a), (map fst b). rewrite <- !map_app, <- Eq, map_map. reflexivity.
Qed.
Lemma ppo_sequences P envs last pl x w r : envs <> [] -> length last = length envs -> ppo_run P envs last pl x = (w, r) ->
  exists st ds, core (vw_agent w) = Ok (st, ds) /\ length ds = length (vw_calls w) /\
  forall d, In (Some d) ds -> U <= length (used (Ok (Some d))) < U + length envs /\
    exists segs, match recurrent, d with
                 | None, Flat l => l = concat segs
                 | Some None, Sequences l => l = segs
                 | Some (Some m), Sequences l => S_PPO.cut l segs /\ Forall (fun s => 0 < length s <= m) l
                 | _, _ => False
                 end /\
    Forall (fun s => s <> [] /\ exists i v log p, nth_error (fst (vw_envs w)) i = Some (v, log) /\ In p (vplays log) /\ piece s (map ppo_transition (lived (a_max_episode_len P) p))) segs.
Proof.
  intros He Hl H. destruct (ppo_events _ _ _ _ _ _ _ He Hl H) as (L & rounds & st & ds & Hc & Fr & Ec & Er & Hi). exists st, ds. split; [exact Ec|].
  assert (Alt : alternating (length envs) false (ppo_ops rounds)) by (rewrite <- (app_nil_r (ppo_ops rounds)); apply rounds_alternating; [exact Fr|exact Logic.I]).
  assert (F : Forall2 (same_update recurrent) (snd (run (M_PPO.call recurrent U) store_init (ppo_ops rounds))) (snd (run (ref_call U) (pending_init (length envs)) (ppo_ops rounds)))) by (apply (store_refines recurrent U (length envs) Hrec (ppo_ops rounds) false); [exact Alt|apply store_ok_init]).
  pose proof (ref_rounds U (length envs) Hu rounds Fr) as Rr. destruct (run (ref_call U) (pending_init (length envs)) (ppo_ops rounds)) as [p us]. destruct Rr as (_ & _ & _ & Gu). rewrite Er in F. cbn [snd] in F. split.
  - assert (Lr : forall f (s0 : M_PPO.store O A) (o : list (M_PPO.op O A)), length (snd (@run _ _ (result (option (M_PPO.dataset O A))) f s0 o)) = length o).
    { clear. intros f s0 o. revert s0. induction o as [|y o IH]; intros s0; [reflexivity|]. cbn [run]. destruct (f s0 y) as [s1 r1]. specialize (IH s1). destruct (run f s1 o). cbn in *. now rewrite IH. }
    specialize (Lr (M_PPO.call recurrent U) store_init (ppo_ops rounds)). rewrite Er in Lr. cbn [snd] in Lr. rewrite map_length in Lr. rewrite Hc, Lr. apply map_length.
  - intros d Hd. apply (in_map Ok) in Hd. apply In_nth_error in Hd. destruct Hd as [k Hk].
    assert (K : exists u, nth_error us k = Some u /\ same_update recurrent (Ok (Some d)) u).
    { clear - F Hk. revert k Hk. generalize (map Ok ds) F. clear F. intros rs F. induction F as [|a u rs us H F IH]; intros [|k] Hk; try discriminate; [injection Hk as ->; exists u; auto|]. now apply IH. }
    destruct K as (u & Nu & Su). destruct u as [eps|]; [|contradiction]. rewrite Forall_forall in Gu. pose proof (Gu _ (nth_error_In _ _ Nu)) as [Gl Gs].
    pose proof (same_used recurrent [Ok (Some d)] [Some eps] (Forall2_cons _ _ Su (Forall2_nil _))) as Pu. cbn [map concat upd] in Pu. rewrite !app_nil_r in Pu. split; [rewrite (Permutation_length Pu); exact Gl|].
    destruct Su as (segs & Ps & Hd). exists segs. split; [exact Hd|]. rewrite Forall_forall in Gs |- *. intros s Hs. destruct (Gs s (Permutation_in _ Ps Hs)) as (i & c & Pc & Hin).
    destruct (nth_error (fst (vw_envs w)) i) as [[v lg]|] eqn:Nv.
    + destruct (Hi i v lg Nv) as (Hcol & ep & q & Epl & Fe & _). destruct (in_one_play _ i rounds s c _ ep q Hcol Epl Fe Pc Hin) as (Hne & q' & Hq & Pq). split; [exact Hne|]. exists i, v, lg, q'. auto.
    + exfalso. apply nth_error_None in Nv. rewrite L in Nv. rewrite (column_over i (length envs) rounds Fr Nv) in Pc. destruct Pc as (a & b & Eab). symmetry in Eab. apply app_eq_nil in Eab. destruct Eab as [_ Eab]. apply app_eq_nil in Eab. destruct Eab as [-> _]. destruct Hin.
Qed.
End PPORun.
