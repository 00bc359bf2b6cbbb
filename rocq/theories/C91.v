(** C91: resuming DQN from a snapshot. *)
From Coq Require Import Reals QArith Qreals Lra.
From Verif Require Import Base M_RandomAccessQueue M_SampleNK M_Prioritized M_PriorityWeights M_ReplayBuffer M_Episodic M_Batch M_DQN.
Open Scope nat_scope.

(** Equal or failing in the same way. *)
Definition rres {X Y} (R : X -> Y -> Prop) (a : result X) (b : result Y) : Prop :=
  match a, b with Ok x, Ok y => R x y | Err e, Err e' => e = e' | _, _ => False end.

Section C91.
Context {Ob Ac Pm Op M Smp Orc Sv : Type}.
Context (B : @buffer Ob Ac M Smp Orc Sv) (U : updater) (tui : nat).
Context (learn : Pm -> Pm -> Op -> list Smp -> Pm * Op * list Q) (sync : Pm -> Pm -> Pm) (draws : nat -> Orc).
Notation dqn := (@dqn Ob Ac Pm Op M).

Definition buf_sim (b b' : rbuf (@entry Ob Ac) M) : Prop :=
  num_steps b = num_steps b' /\ memory b = memory b' /\ forall e, last_n b e = last_n b' e.
Definition sim (s s' : dqn) : Prop :=
  d_model s = d_model s' /\ d_target s = d_target s' /\ d_opt s = d_opt s' /\ d_t s = d_t s' /\ d_optim_t s = d_optim_t s' /\
  d_steps s = d_steps s' /\ buf_sim (d_buf s) (d_buf s') /\ d_last s = d_last s'.

Lemma append_sim ap b b' e t : buf_sim b b' -> rres buf_sim (@rb_append _ M ap b e t) (rb_append ap b' e t).
Proof.
  intros (N & Mm & L). unfold rb_append. rewrite <- N, <- Mm, <- (L e). destruct (terminal t).
  - destruct (flush _ _ _); cbn; auto. repeat split; cbn; auto. intros e'. unfold upd. destruct (e' =? e); auto.
  - destruct (_ =? _); [destruct (ap _ _)|]; cbn; auto; repeat split; cbn; auto; intros e'; unfold upd; destruct (e' =? e); auto.
Qed.
Lemma stop_sim ap b b' e : buf_sim b b' -> rres buf_sim (@rb_stop _ M ap b e) (rb_stop ap b' e).
Proof.
  intros (N & Mm & L). unfold rb_stop. rewrite <- N, <- Mm, <- (L e).
  destruct (if (0 <? _) && _ then ap _ _ else _); cbn; auto. destruct (flush _ _ _); cbn; auto.
  repeat split; cbn; auto. intros e'. unfold upd. destruct (e' =? e); auto.
Qed.

Definition sim_out {X} (p q : dqn * X) : Prop := sim (fst p) (fst q) /\ snd p = snd q.
Lemma sample_sim s s' n : sim s s' -> rres sim_out (sample1 B draws s n) (sample1 B draws s' n).
Proof.
  intros (A1 & A2 & A3 & A4 & A5 & A6 & (A7 & A8 & A9) & A10). unfold sample1. rewrite <- A5, <- A8.
  destruct (b_sample B _ _ _) as [[m xs]|]; cbn; auto. repeat split; cbn; auto.
Qed.
Lemma update_sim s s' xs : sim s s' -> rres sim (update B learn s xs) (update B learn s' xs).
Proof.
  intros (A1 & A2 & A3 & A4 & A5 & A6 & (A7 & A8 & A9) & A10). unfold update. rewrite <- A1, <- A2, <- A3, <- A8.
  destruct (learn _ _ _ _) as [[p o] er]. destruct (b_errors B _ _); cbn; auto. repeat split; cbn; auto.
Qed.
Lemma loop_sim times : forall s s', sim s s' ->
  rres sim_out (update_loop (sample1 B draws) (fun _ _ _ => Err TypeError) (update B learn) U times s)
               (update_loop (sample1 B draws) (fun _ _ _ => Err TypeError) (update B learn) U times s').
Proof.
  induction times as [|n IH]; intros s s' S; cbn [update_loop]; [split; auto|].
  destruct (u_episodic U); [reflexivity|]. pose proof (sample_sim s s' (u_batchsize U) S) as P.
  destruct (sample1 B draws s _) as [[s1 xs]|], (sample1 B draws s' _) as [[s1' xs']|]; cbn in *; try contradiction; auto.
  destruct P as [P Px]. cbn in P, Px. subst xs'. pose proof (update_sim s1 s1' xs P) as Q.
  destruct (update B learn s1 xs) as [s2|], (update B learn s1' xs) as [s2'|]; cbn in *; try contradiction; auto.
  specialize (IH s2 s2' Q). destruct (update_loop _ _ _ _ n s2) as [[s3 bs]|], (update_loop _ _ _ _ n s2') as [[s3' bs']|]; cbn in *; try contradiction; auto.
  destruct IH as [IH1 IH2]. cbn in *. split; cbn; congruence || auto.
Qed.
Lemma observe_sim s s' obs r d z : sim s s' -> rres sim_out (observe B U tui learn sync draws s obs r d z) (observe B U tui learn sync draws s' obs r d z).
Proof.
  intros (A1 & A2 & A3 & A4 & A5 & A6 & A7 & A8). unfold observe. rewrite <- A1, <- A2, <- A3, <- A4, <- A5, <- A6, <- A8.
  destruct (tui =? 0); [reflexivity|]. cbn [rbind].
  set (tgt := if _ =? 0 then _ else _). clearbody tgt.
  assert (G : rres (fun p q => buf_sim (fst p) (fst q) /\ snd p = snd q)
    (match d_last s with
     | Some (o, a) => b1 <- rb_append (b_append B) (d_buf s) 0 (mkTrans (o, a, r, obs) d) ;;
         (if z || d then b2 <- rb_stop (b_append B) b1 0 ;; Ok (b2, None) else Ok (b1, Some (o, a)))
     | None => Ok (d_buf s, None) end)
    (match d_last s with
     | Some (o, a) => b1 <- rb_append (b_append B) (d_buf s') 0 (mkTrans (o, a, r, obs) d) ;;
         (if z || d then b2 <- rb_stop (b_append B) b1 0 ;; Ok (b2, None) else Ok (b1, Some (o, a)))
     | None => Ok (d_buf s', None) end)).
  { destruct (d_last s) as [[o a]|]; [|split; auto]. pose proof (append_sim (b_append B) _ _ 0 (mkTrans (o, a, r, obs) d) A7) as P.
    destruct (rb_append _ (d_buf s) _ _) as [b1|], (rb_append _ (d_buf s') _ _) as [b1'|]; cbn in *; try contradiction; auto.
    destruct (z || d); [|split; auto]. pose proof (stop_sim (b_append B) b1 b1' 0 P) as Q.
    destruct (rb_stop _ b1 _), (rb_stop _ b1' _); cbn in *; try contradiction; auto. }
  destruct (match d_last s with Some _ => _ | None => Ok (d_buf s, None) end) as [[bf l]|];
  destruct (match d_last s with Some _ => _ | None => Ok (d_buf s', None) end) as [[bf' l']|]; cbn [rres rbind fst snd] in *; try contradiction; auto.
  destruct G as [G <-].
  set (s1 := mkDqn _ _ _ _ _ _ bf l). set (s1' := mkDqn _ _ _ _ _ _ bf' l).
  assert (S1 : sim s1 s1') by (repeat split; cbn; auto; apply G).
  unfold update_if_necessary. assert (E : memory (d_buf s1') = memory (d_buf s1)) by (symmetry; apply G). rewrite E.
  destruct (_ <? u_start U); [cbn; split; auto|]. destruct (u_episodic U && _); [cbn; split; auto|].
  destruct (u_interval U =? 0); [reflexivity|]. destruct (negb _); [cbn; split; auto|].
  pose proof (loop_sim (u_times U) s1 s1' S1) as P.
  destruct (update_loop _ _ _ _ _ s1) as [[s2 bs]|], (update_loop _ _ _ _ _ s1') as [[s2' bs']|]; cbn in *; try contradiction; auto.
Qed.
Lemma history_sim es : forall s s', sim s s' -> rres sim_out (history B U tui learn sync draws s es) (history B U tui learn sync draws s' es).
Proof.
  induction es as [|e es IH]; intros s s' S; cbn [history]; [split; auto|].
  assert (G : rres sim_out (step B U tui learn sync draws s e) (step B U tui learn sync draws s' e)).
  { destruct e as [obs ch|obs r d z]; cbn [step].
    - destruct S as (A1 & A2 & A3 & A4 & A5 & A6 & A7 & A8). unfold act. cbn. rewrite A1, A4. repeat split; cbn; auto; apply A7.
    - pose proof (observe_sim s s' obs r d z S) as P.
      destruct (observe _ _ _ _ _ _ s _ _ _ _) as [[s1 o]|], (observe _ _ _ _ _ _ s' _ _ _ _) as [[s1' o']|]; cbn in *; try contradiction; auto.
      destruct P as [P1 P2]. cbn in *. split; cbn; congruence || auto. }
  destruct (step _ _ _ _ _ _ s e) as [[s1 o]|], (step _ _ _ _ _ _ s' e) as [[s1' o']|]; cbn in *; try contradiction; auto.
  destruct G as [G1 G2]. cbn in *. specialize (IH s1 s1' G1).
  destruct (history _ _ _ _ _ _ s1 es) as [[s2 os]|], (history _ _ _ _ _ _ s1' es) as [[s2' os']|]; cbn in *; try contradiction; auto.
  destruct IH as [I1 I2]. cbn in *. split; cbn; congruence || auto.
Qed.
End C91.

(** The claim, for a kind of buffer: take an agent that reached the end of an episode from its construction, save a snapshot, load it
    into a newly constructed agent (any networks, the same constructor arguments: [m0] is the memory of a new buffer): whatever
    happens next, the new agent chooses the same actions, learns from the same minibatches and ends with the same networks as the
    saved one would. *)
Definition same_future {Ob Ac Pm Op M Smp : Type} (a b : result (@dqn Ob Ac Pm Op M * list (@seen Ac Smp))) : Prop :=
  rres (fun p q => snd p = snd q /\ d_model (fst p) = d_model (fst q) /\ d_target (fst p) = d_target (fst q) /\
                   d_t (fst p) = d_t (fst q) /\ d_optim_t (fst p) = d_optim_t (fst q) /\ d_steps (fst p) = d_steps (fst q)) a b.
Definition resumes {Ob Ac Pm Op M Smp Orc Sv : Type} (B : @buffer Ob Ac M Smp Orc Sv) (m0 : M) : Prop :=
  forall U tui learn sync draws nsteps (p p' : Pm) (o o' : Op) es obs r done reset s outs,
    done || reset = true ->
    history B U tui learn sync draws (dqn_init p o nsteps m0) (es ++ [Observe obs r done reset]) = Ok (s, outs) ->
    forall es', same_future (history B U tui learn sync draws (load_snapshot B (dqn_init p' o' nsteps m0) (save_snapshot B s)) es')
                            (history B U tui learn sync draws s es').

Section Ends.
Context {Ob Ac Pm Op M Smp Orc Sv : Type}.
Context (B : @buffer Ob Ac M Smp Orc Sv) (U : updater) (tui : nat).
Context (learn : Pm -> Pm -> Op -> list Smp -> Pm * Op * list Q) (sync : Pm -> Pm -> Pm) (draws : nat -> Orc).
Notation dqn := (@dqn Ob Ac Pm Op M).

(** Only environment 0 has a window; none after an episode end. *)
Definition shape (n : nat) (s : dqn) : Prop :=
  num_steps (d_buf s) = n /\ (forall e, e <> 0 -> last_n (d_buf s) e = []) /\ (d_last s = None -> last_n (d_buf s) 0 = []).

Lemma rbind_ok {X Y} (x : result X) (f : X -> result Y) y : rbind x f = Ok y -> exists a, x = Ok a /\ f a = Ok y.
Proof. destruct x as [a|e]; cbn; [eauto|discriminate]. Qed.

Lemma loop_shape times : forall s s' bs, update_loop (sample1 B draws) (fun _ _ _ => Err TypeError) (update B learn) U times s = Ok (s', bs) ->
  num_steps (d_buf s') = num_steps (d_buf s) /\ last_n (d_buf s') = last_n (d_buf s) /\ d_last s' = d_last s.
Proof.
  induction times as [|k IH]; intros s s' bs H; cbn [update_loop] in H; [injection H as <- _; auto|].
  apply rbind_ok in H. destruct H as ([s1 xs] & E1 & H). apply rbind_ok in H. destruct H as (s2 & E2 & H).
  apply rbind_ok in H. destruct H as ([s3 bs3] & E3 & H). injection H as <- _.
  destruct (IH _ _ _ E3) as (I1 & I2 & I3). rewrite I1, I2, I3.
  destruct (u_episodic U); [discriminate|]. unfold sample1 in E1. apply rbind_ok in E1. destruct E1 as ([m ys] & _ & E1). injection E1 as <- _.
  unfold update in E2. destruct (learn _ _ _ _) as [[p o] er]. apply rbind_ok in E2. destruct E2 as (m2 & _ & E2). injection E2 as <-. cbn. auto.
Qed.

Lemma observe_shape n s obs r d z s' bs : shape n s -> observe B U tui learn sync draws s obs r d z = Ok (s', bs) ->
  shape n s' /\ (d || z = true -> d_last s' = None).
Proof.
  intros (A1 & A2 & A3) H. unfold observe in H. apply rbind_ok in H. destruct H as (tgt & _ & H).
  apply rbind_ok in H. destruct H as ([bf l] & E & H). apply rbind_ok in H. destruct H as ([[f s2] bs2] & E2 & H). injection H as <- _.
  assert (G : (num_steps bf = n /\ (forall e, e <> 0 -> last_n bf e = []) /\ (l = None -> last_n bf 0 = [])) /\ (d || z = true -> l = None)).
  { destruct (d_last s) as [[o a]|].
    - apply rbind_ok in E. destruct E as (b1 & E1 & E).
      assert (K1 : num_steps b1 = n /\ (forall e, e <> 0 -> last_n b1 e = [])).
      { unfold rb_append in E1. destruct (terminal _).
        - apply rbind_ok in E1. destruct E1 as (m & _ & E1). injection E1 as <-. cbn. split; [exact A1|]. intros e N. unfold upd.
          destruct (Nat.eqb_spec e 0); [contradiction|]. apply A2, N.
        - apply rbind_ok in E1. destruct E1 as (m & _ & E1). injection E1 as <-. cbn. split; [exact A1|]. intros e N. unfold upd.
          destruct (Nat.eqb_spec e 0); [contradiction|]. apply A2, N. }
      rewrite orb_comm. destruct (z || d).
      + apply rbind_ok in E. destruct E as (b2 & E3 & E). injection E as <- <-. unfold rb_stop in E3.
        apply rbind_ok in E3. destruct E3 as (m & _ & E3). apply rbind_ok in E3. destruct E3 as (m' & _ & E3). injection E3 as <-. cbn.
        destruct K1 as [K1 K2]. repeat split; auto. intros e N. unfold upd. destruct (Nat.eqb_spec e 0); [contradiction|]. apply K2, N.
      + injection E as <- <-. destruct K1 as [K1 K2]. repeat split; auto; discriminate.
    - injection E as <- <-. repeat split; auto. }
  destruct G as [(G1 & G2 & G3) G4]. unfold update_if_necessary in E2.
  assert (K : num_steps (d_buf s2) = num_steps bf /\ last_n (d_buf s2) = last_n bf /\ d_last s2 = l).
  { destruct (_ <? _); [injection E2 as _ <- _; auto|]. destruct (u_episodic U && _); [injection E2 as _ <- _; auto|].
    destruct (_ =? _); [discriminate|]. destruct (negb _); [injection E2 as _ <- _; auto|].
    apply rbind_ok in E2. destruct E2 as ([s3 b3] & E2 & E3). injection E3 as _ <- _. exact (loop_shape _ _ _ _ E2). }
  destruct K as (K1 & K2 & K3). split; [|intros D; rewrite K3; auto]. unfold shape. rewrite K1, K2, K3. auto.
Qed.

Lemma history_shape n es : forall s s' outs, shape n s -> history B U tui learn sync draws s es = Ok (s', outs) -> shape n s'.
Proof.
  induction es as [|e es IH]; intros s s' outs S H; cbn [history] in H; [injection H as <- _; exact S|].
  apply rbind_ok in H. destruct H as ([s1 o1] & E & H). apply rbind_ok in H. destruct H as ([s2 os] & E2 & H). injection H as <- _.
  apply (IH s1 _ _) with (2 := E2). destruct e as [obs ch|obs r d z]; cbn [step] in E.
  - injection E as <- _. destruct S as (A1 & A2 & A3). repeat split; cbn; auto. discriminate.
  - apply rbind_ok in E. destruct E as ([s3 bs] & E & E'). injection E' as <- _. exact (proj1 (observe_shape _ _ _ _ _ _ _ _ S E)).
Qed.

Lemma history_app es es' : forall s s' outs, history B U tui learn sync draws s (es ++ es') = Ok (s', outs) ->
  exists s1 o1 o2, history B U tui learn sync draws s es = Ok (s1, o1) /\ history B U tui learn sync draws s1 es' = Ok (s', o2).
Proof.
  induction es as [|e es IH]; intros s s' outs H; cbn [history app] in *; [eauto|].
  apply rbind_ok in H. destruct H as ([s1 o1] & E & H). apply rbind_ok in H. destruct H as ([s2 os] & E2 & H). injection H as <- _.
  destruct (IH _ _ _ E2) as (s3 & o3 & o4 & E3 & E4). rewrite E. cbn. rewrite E3. cbn. eauto.
Qed.

(** At the end of an episode nothing outside the snapshot and the buffer's memory is left. *)
Lemma boundary nsteps p o m0 es obs r done reset s outs : done || reset = true ->
  history B U tui learn sync draws (dqn_init p o nsteps m0) (es ++ [Observe obs r done reset]) = Ok (s, outs) ->
  num_steps (d_buf s) = nsteps /\ (forall e, last_n (d_buf s) e = []) /\ d_last s = None.
Proof.
  intros D H. destruct (history_app _ _ _ _ _ H) as (s1 & o1 & o2 & E1 & E2).
  assert (S0 : shape nsteps (dqn_init p o nsteps m0)) by (repeat split; auto).
  pose proof (history_shape _ _ _ _ _ S0 E1) as S1. cbn [history step] in E2.
  apply rbind_ok in E2. destruct E2 as ([s2 o3] & E2 & E3). apply rbind_ok in E2. destruct E2 as ([s3 bs] & E2 & E4).
  injection E4 as <- <-. cbn in E3. injection E3 as <- _. destruct (observe_shape _ _ _ _ _ _ _ _ S1 E2) as [(A1 & A2 & A3) A4].
  specialize (A4 D). repeat split; auto. intros e. destruct (Nat.eq_dec e 0) as [->|N]; auto.
Qed.

Lemma resume_ok nsteps p o p' o' m0 es obs r done reset s outs : done || reset = true ->
  history B U tui learn sync draws (dqn_init p o nsteps m0) (es ++ [Observe obs r done reset]) = Ok (s, outs) ->
  b_load B m0 (b_save B (memory (d_buf s))) = memory (d_buf s) ->
  forall es', same_future (history B U tui learn sync draws (load_snapshot B (dqn_init p' o' nsteps m0) (save_snapshot B s)) es')
                          (history B U tui learn sync draws s es').
Proof.
  intros D H L es'. destruct (boundary _ _ _ _ _ _ _ _ _ _ _ D H) as (A1 & A2 & A3).
  assert (S : sim (load_snapshot B (dqn_init p' o' nsteps m0) (save_snapshot B s)) s).
  { unfold sim, buf_sim. cbn. repeat split; auto. }
  pose proof (history_sim B U tui learn sync draws es' _ _ S) as G. unfold same_future.
  destruct (history _ _ _ _ _ _ (load_snapshot _ _ _) es') as [[s2 o2]|], (history _ _ _ _ _ _ s es') as [[s3 o3]|]; cbn in *; try contradiction; auto.
  destruct G as [(G1 & G2 & G3 & G4 & G5 & G6 & _) G7]. cbn in *. repeat split; auto.
Qed.
End Ends.

(** It holds with a ReplayBuffer. *)
Theorem C91_uniform_partial {Ob Ac Pm Op : Type} fuel (m0 : raq (list (trans (@entry Ob Ac)))) :
  @resumes Ob Ac Pm Op _ _ _ _ (uniform_buffer fuel) m0.
Proof. intros U tui learn sync draws nsteps p p' o o' es obs r done reset s outs D H. exact (resume_ok _ _ _ _ _ _ _ _ _ _ _ _ _ _ _ _ _ _ _ D H eq_refl). Qed.

(** With a PrioritizedReplayBuffer it holds when beta is not annealed (betasteps None), or when it was already at its start value. *)
Theorem C91_prioritized_partial {Ob Ac Pm Op : Type} (w : pwe) (b0 : pbuf (list (trans (@entry Ob Ac)))) U tui learn sync draws nsteps
    (p p' : Pm) (o o' : Op) es obs r done reset s outs :
  done || reset = true ->
  history prioritized_buffer U tui learn sync draws (dqn_init p o nsteps (w, b0)) (es ++ [Observe obs r done reset]) = Ok (s, outs) ->
  fst (memory (d_buf s)) = w ->
  forall es', same_future (history prioritized_buffer U tui learn sync draws (load_snapshot prioritized_buffer (dqn_init p' o' nsteps (w, b0)) (save_snapshot prioritized_buffer s)) es')
                          (history prioritized_buffer U tui learn sync draws s es').
Proof.
  intros D H W. apply (resume_ok _ _ _ _ _ _ _ _ _ _ _ _ _ _ _ _ _ _ _ D H). cbn. rewrite <- W. destruct (memory (d_buf s)); reflexivity.
Qed.

(** It fails with a PrioritizedReplayBuffer in general: beta is not part of the snapshot, so the new agent starts annealing again. *)
Definition ref_w : pwe := mkPwe 1 0 1 (1/100) NormBatch None None.
Definition ref_U : updater := mkUpd 2 false 1 2 2 None.
Definition ref_learn (_ _ _ : unit) (xs : list (list (trans (@entry nat nat)) * R)) : unit * unit * list Q := (tt, tt, [2; 1]%Q).
Definition ref_draws (_ : nat) : soracle := mkSo [] [0; 0]%Q.
Definition ref_episode (k : nat) : list (@event nat nat unit) :=
  [Act k (fun _ _ => 7); Observe (S k) 1%Q false false; Act (S k) (fun _ _ => 8); Observe (S (S k)) 1%Q true false].
Definition ref_run s es := @history nat nat unit unit _ _ _ _ prioritized_buffer ref_U 100 ref_learn (fun a _ => a) ref_draws s es.

Lemma weights2 a b ba e mn mx n x y m : (0 < x)%R -> (0 < y)%R ->
  weights_from_probabilities (mkPwe a b ba e NormBatch mn mx) n [x; y] m =
  Ok (mkPwe a (Rmin 1 (b + ba)) ba e NormBatch mn mx, [Rpower (x / Rmin x y) (- b); Rpower (y / Rmin x y) (- b)]).
Proof.
  intros X Y. assert (M : (0 < Rmin x y)%R) by (apply Rmin_glb_lt; assumption).
  unfold weights_from_probabilities. cbn [norm np_min rbind mapR beta]. unfold pypow.
  destruct (Rlt_dec 0 (x / Rmin x y)) as [_|N]; [|exfalso; apply N; apply Rdiv_lt_0_compat; assumption].
  destruct (Rlt_dec 0 (y / Rmin x y)) as [_|N]; [|exfalso; apply N; apply Rdiv_lt_0_compat; assumption].
  reflexivity.
Qed.

Definition ref_mem : pbuf (list (trans (@entry nat nat))) := pb_init None true 1%Q.
Definition ref_init := @dqn_init nat nat unit unit _ tt tt 1 (ref_w, ref_mem).

Ltac ref_compute := cbv -[weights_from_probabilities Q2R IZR Rdiv Rmin Rplus Rpower Ropp].
Ltac ref_weights := rewrite weights2 by (unfold Q2R; cbn; lra).
(** The first episode of two steps ends with one update; beta, 0 before it, becomes 1. *)
Lemma ref_first : exists s outs, ref_run ref_init (ref_episode 0) = Ok (s, outs) /\
  fst (memory (d_buf s)) = mkPwe 1 (Rmin 1 (0 + 1)) 1 (1/100) NormBatch None None /\
  (** with the memory and the counters left by it, the weights learned from in the second episode depend on beta *)
  forall b, exists xs ys,
    rmap snd (ref_run (mkDqn (d_model s) (d_target s) (d_opt s) (d_t s) (d_optim_t s) (d_steps s)
        (mkRb 1 (mkPwe 1 b 1 (1/100) NormBatch None None, snd (memory (d_buf s))) (fun _ => [])) None) (ref_episode 10)) =
    Ok [Acted 7; Learned []; Acted 8; Learned [[(xs, Rpower (Q2R (8#28) / Rmin (Q2R (8#28)) (Q2R (4#28))) (- b)); ys]]].
Proof.
  do 2 eexists. split; [|split].
  - ref_compute. ref_weights. ref_compute. reflexivity.
  - reflexivity.
  - intros b. do 2 eexists. ref_compute. ref_weights. ref_compute. reflexivity.
Qed.

Theorem C91_prioritized_resumes_refuted :
  exists w, pwe_init 1 0 (Some 1%R) (1/100) NormBatch None None = Ok w /\
    ~ @resumes nat nat unit unit _ _ _ _ prioritized_buffer (w, ref_mem).
Proof.
  exists (mkPwe 1 0 ((1 - 0) / 1) (1/100) NormBatch None None). split.
  - unfold pwe_init. destruct (Rle_dec 0 1); [|lra]. destruct (Rle_dec 0 0); [|lra]. destruct (Req_EM_T 1 0); [lra|reflexivity].
  - replace ((1 - 0) / 1)%R with 1%R by field. change (mkPwe 1 0 1 (1 / 100) NormBatch None None) with ref_w. intros H.
    destruct ref_first as (s & outs & E & W & K).
    specialize (H ref_U 100 ref_learn (fun a _ => a) ref_draws 1 tt tt tt tt (firstn 3 (ref_episode 0)) 2 1%Q true false s outs eq_refl E (ref_episode 10)).
    destruct (boundary prioritized_buffer ref_U 100 ref_learn (fun a _ => a) ref_draws 1 tt tt (ref_w, ref_mem) (firstn 3 (ref_episode 0)) 2 1%Q true false s outs eq_refl E) as (A1 & A2 & A3).
    destruct (K 0%R) as (xs & ys & K0). destruct (K (Rmin 1 (0 + 1))) as (xs' & ys' & K1).
    match type of K1 with rmap snd (ref_run ?n _) = _ => set (s' := n) in * end.
    assert (S : sim s s').
    { unfold sim, buf_sim, s'. cbn. repeat split; auto. rewrite <- W. destruct (memory (d_buf s)); reflexivity. }
    pose proof (history_sim prioritized_buffer ref_U 100 ref_learn (fun a _ => a) ref_draws (ref_episode 10) s s' S) as G.
    unfold same_future in H. clearbody s'.
    match type of K0 with rmap snd (ref_run ?n _) = _ => set (s0 := n) in * end.
    assert (L : load_snapshot prioritized_buffer (dqn_init tt tt 1 (ref_w, ref_mem)) (save_snapshot prioritized_buffer s) = s0) by reflexivity.
    rewrite L in H. clear L. clearbody s0. unfold ref_run in *.
    destruct (history _ _ _ _ _ _ s0 (ref_episode 10)) as [[s2 o2]|]; [|discriminate].
    destruct (history _ _ _ _ _ _ s (ref_episode 10)) as [[s3 o3]|]; [|contradiction].
    destruct (history _ _ _ _ _ _ s' (ref_episode 10)) as [[s4 o4]|]; [|contradiction].
    cbn in H, G, K0, K1. destruct H as [H _], G as [_ G]. cbn in G. injection K0 as K0. injection K1 as K1. rewrite K0, G, K1 in H.
    injection H as _ H _.
    assert (X : (Q2R (8 # 28) / Rmin (Q2R (8 # 28)) (Q2R (4 # 28)))%R = 2%R).
    { rewrite Rmin_right by (unfold Q2R; cbn; lra). unfold Q2R. cbn. field. }
    rewrite X in H. rewrite Ropp_0, Rpower_O in H by lra. rewrite Rplus_0_l, Rmin_left, Rpower_Ropp, Rpower_1 in H by lra. lra.
Qed.

(** The uniform buffer: an agent with n-step windows of length 2, two episodes, a snapshot in between; the agent that loaded it learns
    from the same minibatch as the saved one. *)
Definition C91_U : updater := mkUpd 1 false 1 2 2 None.
Definition C91_learn (p t o : nat) (xs : list (list (trans (@entry nat nat)))) : nat * nat * list Q := (p + length xs, o + 1, []).
Definition C91_draws (k : nat) : oracle := {| choice_norepl := [k mod 2]; draw := fun _ => [k mod 2; 0; 0] |}.
Definition C91_run s es := history (uniform_buffer 5) C91_U 3 C91_learn (fun p _ => p) C91_draws s es.
Definition C91_ep k : list (@event nat nat nat) :=
  [Act k (fun p t => p + t); Observe (S k) 1%Q false false; Act (S k) (fun p t => p + t); Observe (S (S k)) 1%Q true false].
Definition C91_s1 := match C91_run (dqn_init 5 0 2 (mkRaq None [] [])) (C91_ep 0) with Ok p => fst p | Err _ => dqn_init 0 0 1 (mkRaq None [] []) end.
Definition C91_s2 := load_snapshot (uniform_buffer 5) (dqn_init 77 3 2 (mkRaq None [] [])) (save_snapshot (uniform_buffer 5) C91_s1).
Example C91_ex :
  rmap snd (C91_run C91_s2 (C91_ep 10)) = rmap snd (C91_run C91_s1 (C91_ep 10)) /\
  rmap (fun p => (d_model (fst p), d_target (fst p), d_t (fst p), length (snd p))) (C91_run C91_s2 (C91_ep 10)) = Ok (7, 6, 4, 4).
Proof. vm_compute. split; reflexivity. Qed.
Print Assumptions C91_uniform_partial.
Print Assumptions C91_prioritized_partial.
Print Assumptions C91_prioritized_resumes_refuted.
