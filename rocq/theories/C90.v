(** C90: does a failure of the learner or of the poller end actor-learner training? *)
From Verif Require Import Base P_Base M_Train M_Async M_ActorProc.
Open Scope nat_scope.

(** Training is over: the process group was killed, or every process has ended (and run_async's joins return). *)
Definition ended (k : worker) : Prop := wk_pc k = PcDone \/ wk_pc k = PcRaised.
Definition training_over (s : pstate) : Prop := sh_killed (fst s) = true \/ Forall (fun p => ended (pr_k p)) (snd s).

(** Process 0 is inside an episode or about to look at the exception event, and no answer is waiting for it. *)
Definition in_episode (p : proc) : Prop :=
  pr_in p = 0 /\
  match wk_pc (pr_k p) with
  | PcReset _ | PcAct | PcStep | PcObserve | PcCount | PcHook _ | PcCheck | PcException => True
  | _ => False
  end.

Definition bad (s : pstate) : Prop :=
  sh_exn (fst s) = true /\ sh_killed (fst s) = false /\ exists p, nth_error (snd s) 0 = Some p /\ in_episode p.

Lemma wstep_other P i c g k g' k' es : wstep P (S i) c g k = (g', k', es) -> sh_exn g' = sh_exn g /\ sh_killed g' = sh_killed g.
Proof.
  unfold wstep, user, raised. destruct (sh_killed g) eqn:K; [intros H; injection H as <- _ _; auto|].
  destruct (wk_pc k); try destruct (c_raise c); cbn;
    repeat match goal with |- context [if ?b then _ else _] => destruct b end; cbn; intros H; injection H as <- _ _; cbn; auto.
Qed.

Lemma pstep_bad P s e : bad s -> bad (pstep P s e).
Proof.
  intros (X & K & p & E & I). destruct s as [g ps]. cbn [fst snd] in *. unfold pstep. rewrite K.
  destruct e as [i c extra|i|i raise| |].
  - destruct (nth_error ps i) as [[k out n [w|]]|] eqn:N; try (repeat split; cbn; eauto; fail).
    destruct i as [|i].
    + rewrite E in N. injection N as ->. destruct I as [I1 I2]. cbn [pr_in pr_k] in *. subst n.
      assert (L : 0 <? length ps = true) by (apply Nat.ltb_lt; apply nth_error_Some; congruence).
      destruct (commands P 0 c extra g k) as [|m] eqn:C.
      * destruct (wstep P 0 c g k) as [[g' k'] es] eqn:S.
        enough (A : sh_exn g' = true /\ sh_killed g' = false /\ in_episode (mkProc k' (out ++ transitions c k) 0 None)).
        { destruct A as (A1 & A2 & A3). repeat split; cbn [fst snd]; auto. eexists. rewrite nth_error_list_set, L. split; [reflexivity|exact A3]. }
        unfold wstep in S. rewrite K in S. unfold commands, calls_user in C. unfold in_episode. cbn [pr_in pr_k].
        unfold user in S. destruct (wk_pc k) eqn:PC; try contradiction; cbn [andb] in C.
        -- destruct (c_raise c); [discriminate|]. injection S as <- <- _. cbn. destruct first; auto.
        -- destruct (c_raise c); [discriminate|]. injection S as <- <- _. cbn. auto.
        -- destruct (c_raise c); [discriminate|]. injection S as <- <- _. cbn. auto.
        -- destruct (c_raise c); [discriminate|]. injection S as <- <- _. cbn. auto.
        -- injection S as <- <- _. cbn. auto.
        -- destruct (i <? as_nhooks P); cbn [andb] in C.
           ++ destruct (c_raise c); [discriminate|]. injection S as <- <- _. cbn. auto.
           ++ injection S as <- <- _. cbn. auto.
        -- destruct (wk_done k || wk_reset k || (as_steps P <=? wk_gt k) || sh_stop g); [discriminate|]. injection S as <- <- _. cbn. auto.
        -- cbn in C. rewrite X in C. discriminate.
      * repeat split; cbn [fst snd]; auto. eexists. rewrite nth_error_list_set, L. split; [reflexivity|]. split; [reflexivity|exact I2].
    + destruct (commands P (S i) c extra g k) as [|m].
      * destruct (wstep P (S i) c g k) as [[g' k'] es] eqn:S. destruct (wstep_other _ _ _ _ _ _ _ _ S) as [A1 A2].
        repeat split; cbn [fst snd]; try congruence. exists p. rewrite nth_error_list_set. auto.
      * repeat split; cbn [fst snd]; auto. exists p. rewrite nth_error_list_set. auto.
  - destruct (nth_error ps i) as [[k out [|n] [[c [|[|m]]]|]]|] eqn:N; try (repeat split; cbn; eauto; fail).
    + destruct i as [|i]; [rewrite E in N; injection N as ->; destruct I as [I _]; discriminate|].
      destruct (wstep P (S i) c g k) as [[g' k'] es] eqn:S. destruct (wstep_other _ _ _ _ _ _ _ _ S) as [A1 A2].
      repeat split; cbn [fst snd]; try congruence. exists p. rewrite nth_error_list_set. auto.
    + destruct i as [|i]; [rewrite E in N; injection N as ->; destruct I as [I _]; discriminate|].
      destruct (wstep P (S i) c g k) as [[g' k'] es] eqn:S. destruct (wstep_other _ _ _ _ _ _ _ _ S) as [A1 A2].
      repeat split; cbn [fst snd]; try congruence. exists p. rewrite nth_error_list_set. auto.
    + destruct i as [|i]; [rewrite E in N; injection N as ->; destruct I as [I _]; discriminate|].
      repeat split; cbn [fst snd]; auto. exists p. rewrite nth_error_list_set. auto.
  - rewrite X. repeat split; cbn; eauto.
  - repeat split; cbn; eauto.
  - repeat split; cbn; eauto.
Qed.

(** If the event is set (by a failure of the learner or the poller) while process 0 is inside an episode, training is never over,
    whatever happens next: process 0 blocks in save, in get_statistics or at the end of the episode, and nobody answers. *)
Theorem C90_failure_hangs (P : async_args) s :
  sh_exn (fst s) = true -> sh_killed (fst s) = false ->
  (exists p, nth_error (snd s) 0 = Some p /\ in_episode p) ->
  forall es, ~ training_over (prun P s es).
Proof.
  intros X K E es. assert (B : bad (prun P s es)).
  { unfold prun. assert (B : bad s) by (repeat split; auto). revert s X K E B. induction es as [|e es IH]; intros s _ _ _ B; [exact B|].
    cbn [fold_left]. pose proof (pstep_bad P s e B) as (A1 & A2 & A3). apply IH; auto. repeat split; auto. }
  destruct B as (_ & B1 & p & B2 & _ & B3). intros [O|O]; [congruence|].
  apply nth_error_In in B2. rewrite Forall_forall in O. destruct (O p B2) as [Q|Q]; rewrite Q in B3; exact B3.
Qed.

(** So a failure does not end training: for every number of processes, the learner failing at the very start is enough. *)
Theorem C90_failure_ends_training_refuted (P : async_args) (processes : nat) :
  1 <= processes ->
  exists es, sh_exn (fst (prun P (pstart processes) es)) = true /\
    forall es', ~ training_over (prun P (prun P (pstart processes) es) es').
Proof.
  intros H. exists [PExn]. split; [reflexivity|]. apply C90_failure_hangs; [reflexivity|reflexivity|].
  destruct processes as [|n]; [lia|]. eexists. split; [reflexivity|]. split; [reflexivity|exact I].
Qed.

(** Without failures nobody stays blocked: the invariant. *)
Definition served (p : proc) : Prop :=
  match pr_wait p with
  | None => pr_in p = 0 /\ Forall (fun m => m = PTransition) (pr_out p)
  | Some (_, m) => 1 <= m /\
      ((pr_in p = 0 /\ exists pre, pr_out p = pre ++ [PCommand] /\ Forall (fun m => m = PTransition) pre) \/
       (pr_in p = 1 /\ pr_out p = []))
  end.
Definition all_served (s : pstate) : Prop := sh_exn (fst s) = true \/ Forall served (snd s).

Lemma Forall_list_set {A} (Q : A -> Prop) (l : list A) i x : Forall Q l -> Q x -> Forall Q (list_set l i x).
Proof. intros H Hx. revert i. induction H; intros [|i]; cbn; constructor; auto. Qed.
Lemma trans_forall c k : Forall (fun m => m = PTransition) (transitions c k).
Proof. unfold transitions. destruct (wk_pc k), (c_raise c); repeat constructor. Qed.
Lemma wstep_exn P i c g k : sh_exn (fst (fst (wstep P i c g k))) = sh_exn g.
Proof.
  unfold wstep, user, raised. destruct (sh_killed g); [reflexivity|].
  destruct (wk_pc k); try destruct (c_raise c); cbn;
    repeat match goal with |- context [if ?b then _ else _] => destruct b end; reflexivity.
Qed.

Lemma pstep_served P s e : all_served s -> all_served (pstep P s e).
Proof.
  intros A. destruct s as [g ps]. unfold pstep. destruct (sh_killed g); [exact A|].
  destruct A as [A|A]; cbn [fst snd] in A.
  - left. destruct e as [i c extra|i|i raise| |]; cbn [fst]; auto.
    + destruct (nth_error ps i) as [[k out n [w|]]|]; auto. destruct (commands _ _ _ _ _ _); cbn [fst]; auto.
      pose proof (wstep_exn P i c g k) as W. destruct (wstep P i c g k) as [[g' k'] es]. cbn in *. congruence.
    + destruct (nth_error ps i) as [[k out [|n] [[c [|[|m]]]|]]|]; auto;
        pose proof (wstep_exn P i c g k) as W; destruct (wstep P i c g k) as [[g' k'] es]; cbn in *; congruence.
    + rewrite A. exact A.
  - destruct e as [i c extra|i|i raise| |]; cbn [fst snd]; try (right; exact A).
    + destruct (nth_error ps i) as [[k out n [w|]]|] eqn:N; try (right; exact A).
      assert (S := proj1 (Forall_forall _ _) A _ (nth_error_In _ _ N)). destruct S as [S1 S2]. cbn in S1, S2. subst n.
      right. destruct (commands _ _ _ _ _ _) as [|m].
      * destruct (wstep P i c g k) as [[g' k'] es]. cbn [snd]. apply Forall_list_set; [exact A|]. split; [reflexivity|].
        cbn. apply Forall_app. split; [exact S2|apply trans_forall].
      * cbn [snd]. apply Forall_list_set; [exact A|]. split; [lia|]. left. split; [reflexivity|]. cbn.
        exists (out ++ transitions c k). split; [rewrite app_assoc; reflexivity|]. apply Forall_app. split; [exact S2|apply trans_forall].
    + destruct (nth_error ps i) as [[k out n w]|] eqn:N; try (right; exact A).
      assert (S := proj1 (Forall_forall _ _) A _ (nth_error_In _ _ N)). unfold served in S. cbn [pr_wait pr_in pr_out] in S.
      destruct n as [|n]; [right; exact A|]. destruct w as [[c m]|]; [|right; exact A].
      destruct S as [S0 [[S _]|[S1 S2]]]; [discriminate|]. injection S1 as ->. subst out. right.
      destruct m as [|[|m]]; [lia| |].
      * destruct (wstep P i c g k) as [[g' k'] es]. cbn [snd]. apply Forall_list_set; [exact A|]. split; [reflexivity|constructor].
      * cbn [snd]. apply Forall_list_set; [exact A|]. split; [lia|]. left. split; [reflexivity|]. exists []. auto.
    + destruct (sh_exn g) eqn:X; [left; exact X|].
      destruct (nth_error ps i) as [[k [|m out] n w]|] eqn:N; try (right; exact A).
      destruct raise; [left; reflexivity|]. right. cbn [snd]. apply Forall_list_set; [exact A|].
      assert (S := proj1 (Forall_forall _ _) A _ (nth_error_In _ _ N)). unfold served in *. cbn [pr_wait pr_in pr_out] in *.
      destruct w as [[c j]|].
      * destruct S as [S0 [(S1 & pre & S2 & S3)|[S1 S2]]]; [|discriminate]. split; [exact S0|]. subst n.
        destruct pre as [|x pre]; injection S2 as -> ->; [right; auto|]. inversion S3; subst. left. split; [reflexivity|]. exists pre. auto.
      * destruct S as [S1 S2]. inversion S2; subst. auto.
Qed.

Lemma polled P i : forall pre g ps k w, sh_killed g = false -> sh_exn g = false ->
  nth_error ps i = Some (mkProc k (pre ++ [PCommand]) 0 w) -> Forall (fun m => m = PTransition) pre ->
  exists ps', prun P (g, ps) (repeat (PPoll i false) (S (length pre))) = (g, ps') /\ nth_error ps' i = Some (mkProc k [] 1 w).
Proof.
  induction pre as [|x pre IH]; intros g ps k w K X E F.
  - unfold prun. cbn [length repeat fold_left]. unfold pstep. rewrite K, X, E. cbn [app]. eexists. split; [reflexivity|].
    rewrite nth_error_list_set, Nat.eqb_refl. destruct (_ <? _) eqn:Y; [reflexivity|]. apply Nat.ltb_ge, nth_error_None in Y. congruence.
  - inversion F; subst. change (length (PTransition :: pre)) with (S (length pre)). unfold prun.
    change (repeat (PPoll i false) (S (S (length pre)))) with (PPoll i false :: repeat (PPoll i false) (S (length pre))).
    cbn [fold_left]. unfold pstep at 2. rewrite K, X, E. cbn [app]. apply IH; auto.
    rewrite nth_error_list_set, Nat.eqb_refl. destruct (_ <? _) eqn:Y; [reflexivity|]. apply Nat.ltb_ge, nth_error_None in Y. congruence.
Qed.

(** What does hold: as long as nothing has failed, a blocked process is released by the poller and its own receives alone. *)
Theorem C90_no_failure_no_hang_partial (P : async_args) (processes : nat) es i p :
  let s := prun P (pstart processes) es in
  sh_exn (fst s) = false -> sh_killed (fst s) = false -> nth_error (snd s) i = Some p ->
  exists es' p', Forall (fun e => e = PPoll i false \/ e = PRecv i) es' /\
    nth_error (snd (prun P s es')) i = Some p' /\ pr_wait p' = None.
Proof.
  cbn zeta. set (s := prun P (pstart processes) es). intros X K E.
  assert (A : all_served s).
  { unfold s, prun. assert (A0 : all_served (pstart processes)).
    { right. apply Forall_forall. intros q Q. apply repeat_spec in Q. subst q. split; [reflexivity|constructor]. }
    clear X K E. clear s. revert A0. generalize (pstart processes). induction es as [|e es' IH]; intros s0 A0; [exact A0|]. cbn [fold_left].
    apply IH, pstep_served, A0. }
  clearbody s. destruct s as [g ps]. cbn [fst snd] in *. destruct A as [A|A]; cbn [fst snd] in A; [congruence|].
  assert (SV := proj1 (Forall_forall _ _) A _ (nth_error_In _ _ E)). clear A. destruct p as [k out n w]. unfold served in SV. cbn [pr_wait pr_in pr_out] in SV.
  assert (L : (i <? length ps) = true) by (apply Nat.ltb_lt, nth_error_Some; congruence).
  destruct w as [[c m]|].
  2: { exists [], (mkProc k out n None). repeat split; auto. }
  assert (R : forall m ps k, (i <? length ps) = true -> nth_error ps i = Some (mkProc k [] 1 (Some (c, S m))) ->
     exists es' p', Forall (fun e => e = PPoll i false \/ e = PRecv i) es' /\ nth_error (snd (prun P (g, ps) es')) i = Some p' /\ pr_wait p' = None).
  { clear - X K. induction m as [|m IH]; intros ps k L E.
    - exists [PRecv i]. unfold prun. cbn [fold_left]. unfold pstep. rewrite K, E. destruct (wstep P i c g k) as [[g' k'] es].
      eexists. split; [auto|]. cbn [snd]. rewrite nth_error_list_set, Nat.eqb_refl, L. split; reflexivity.
    - specialize (IH (list_set (list_set ps i (mkProc k ([] ++ [PCommand]) 0 (Some (c, S m)))) i (mkProc k [] 1 (Some (c, S m)))) k).
      destruct IH as (es' & p' & I1 & I2 & I3).
      + rewrite !list_set_length. exact L.
      + rewrite nth_error_list_set, Nat.eqb_refl, list_set_length, L. reflexivity.
      + exists (PRecv i :: PPoll i false :: es'), p'. split; [constructor; auto|]. split; [|exact I3]. rewrite <- I2.
        unfold prun. cbn [fold_left]. do 3 f_equal. unfold pstep at 2. rewrite K, E. unfold pstep. rewrite K, X.
        rewrite nth_error_list_set, Nat.eqb_refl, L. reflexivity. }
  destruct SV as [S0 [(S1 & pre & S2 & S3)|[S1 S2]]].
  - subst n out. destruct m as [|m]; [lia|]. destruct (polled P i pre g ps k _ K X E S3) as (ps' & Q1 & Q2).
    destruct (R m ps' k) as (es' & p' & R1 & R2 & R3); [apply Nat.ltb_lt, nth_error_Some; congruence|exact Q2|].
    exists (repeat (PPoll i false) (S (length pre)) ++ es'), p'. split; [|split; [|exact R3]].
    + apply Forall_app. split; [|exact R1]. apply Forall_forall. intros e H. apply repeat_spec in H. auto.
    + unfold prun in *. rewrite fold_left_app, Q1. exact R2.
  - subst n out. destruct m as [|m]; [lia|]. apply (R m ps k L E).
Qed.

(** What does hold for agents that do not depend on a learner (their calls do not block: M_Async): once the event is set, process
    0 needs a bounded number of its own steps to kill the process group or to end. *)
Definition quiet_choice : choice := mkCh false 0 false false None.
Lemma run0 P g ws k m : nth_error ws 0 = Some k ->
  forall g' k' es, wstep P 0 quiet_choice g k = (g', k', es) ->
  fst (arun P (g, ws) (repeat (SRun 0 quiet_choice) (S m))) = fst (arun P (g', list_set ws 0 k') (repeat (SRun 0 quiet_choice) m)).
Proof.
  intros E g' k' es W. cbn [repeat arun astep]. rewrite E, W. destruct (arun P (g', list_set ws 0 k') _) as [s2 t2]. reflexivity.
Qed.
Definition rank (P : async_args) (k : worker) : nat :=
  match wk_pc k with
  | PcDone | PcRaised => 0 | PcException => 1 | PcSuccess => 1 | PcFinish => 2
  | PcReset true => as_nhooks P + 13 | PcReset false => 2 | PcRecheck => 3 | PcEpisodes => 4 | PcEval => 5 | PcCheck => 6
  | PcHook i => as_nhooks P - i + 7 | PcCount => as_nhooks P + 8 | PcObserve => as_nhooks P + 9
  | PcStep => as_nhooks P + 10 | PcAct => as_nhooks P + 11
  end.
Theorem C90_other_agents_partial (P : async_args) g ws k :
  sh_exn g = true -> nth_error ws 0 = Some k ->
  exists m, m <= as_nhooks P + 13 /\
    let s := fst (arun P (g, ws) (repeat (SRun 0 quiet_choice) m)) in
    sh_killed (fst s) = true \/ exists k', nth_error (snd s) 0 = Some k' /\ ended k'.
Proof.
  intros X E.
  assert (G : forall r g ws k, rank P k <= r -> sh_exn g = true -> nth_error ws 0 = Some k ->
     exists m, m <= r /\ let s := fst (arun P (g, ws) (repeat (SRun 0 quiet_choice) m)) in
       sh_killed (fst s) = true \/ exists k', nth_error (snd s) 0 = Some k' /\ ended k').
  { clear. induction r as [|r IH]; intros g ws k R X E.
    - exists 0. split; [lia|]. cbn. right. exists k. split; [exact E|]. unfold rank in R. unfold ended.
      destruct (wk_pc k) as [[]| | | | | | | | | | | | | |]; auto; lia.
    - destruct (sh_killed g) eqn:K; [exists 0; split; [lia|left; exact K]|].
      destruct (wstep P 0 quiet_choice g k) as [[g' k'] es] eqn:W.
      assert (L : 0 <? length ws = true) by (apply Nat.ltb_lt, nth_error_Some; congruence).
      assert (D : sh_killed g' = true \/ ended k' \/ rank P k' <= r).
      { unfold wstep in W. rewrite K in W. unfold user in W. cbn [quiet_choice c_raise] in W. unfold rank in R.
        destruct (wk_pc k) as [[]| | | | |i| | | | | | | | |] eqn:PC; try (injection W as <- <- _).
        all: try (right; right; unfold rank; cbn; lia).
        - destruct (i <? as_nhooks P) eqn:I; injection W as <- <- _; right; right; unfold rank; cbn; [apply Nat.ltb_lt in I; lia|lia].
        - destruct (wk_done k || wk_reset k || (as_steps P <=? wk_gt k) || sh_stop g); injection W as <- <- _; right; right; unfold rank; cbn;
            [destruct (as_has_eval P); lia|lia].
        - destruct ((as_steps P <=? wk_gt k) || sh_stop g); injection W as <- <- _; right; right; unfold rank; cbn; lia.
        - rewrite X in W. cbn in W. injection W as <- <- _. left. reflexivity.
        - right; left. left. exact PC.
        - right; left. right. exact PC. }
      pose proof (wstep_exn P 0 quiet_choice g k) as X'. rewrite W in X'. cbn in X'.
      destruct D as [D|[D|D]].
      + exists 1. split; [lia|]. rewrite (run0 P g ws k 0 E _ _ _ W). left. exact D.
      + exists 1. split; [lia|]. rewrite (run0 P g ws k 0 E _ _ _ W). right. exists k'. split; [|exact D].
        change (nth_error (list_set ws 0 k') 0 = Some k'). rewrite nth_error_list_set, L. reflexivity.
      + destruct (IH g' (list_set ws 0 k') k' D) as (m & M1 & M2); [congruence|rewrite nth_error_list_set, L; reflexivity|].
        exists (S m). split; [lia|]. rewrite (run0 P g ws k m E _ _ _ W). exact M2. }
  destruct (G (rank P k) g ws k (le_n _) X E) as (m & M1 & M2). exists m. split; [|exact M2].
  etransitivity; [exact M1|]. unfold rank. destruct (wk_pc k) as [[]| | | | | | | | | | | | | |]; lia.
Qed.

(** Two processes in their first episodes; the poller serves both; then the learner fails: process 0 blocks in save. *)
Definition C90_P := mkAsync 100 None None 0 true.
Definition C90_c := mkCh false 1%Q false false None.
Definition C90_es := [PRun 0 C90_c 0; PRun 0 C90_c 0; PRun 0 C90_c 0; PRun 1 C90_c 0; PRun 0 C90_c 0; PPoll 0 false; PExn;
  PRun 0 C90_c 0; PRun 0 C90_c 0; PRun 0 C90_c 0; PRun 0 C90_c 0; PRun 0 C90_c 0; PPoll 0 false; PRecv 0; PRun 0 C90_c 0].
Example C90_ex :
  let s := prun C90_P (pstart 2) C90_es in
  map (fun p => (wk_pc (pr_k p), pr_out p, pr_in p, match pr_wait p with Some (_, m) => Some m | None => None end)) (snd s) =
  [(PcException, [PCommand], 0, Some 1); (PcAct, [], 0, None)] /\ sh_counter (fst s) = 1.
Proof. vm_compute. split; reflexivity. Qed.
Print Assumptions C90_failure_hangs.
Print Assumptions C90_failure_ends_training_refuted.
Print Assumptions C90_no_failure_no_hang_partial.
Print Assumptions C90_other_agents_partial.
