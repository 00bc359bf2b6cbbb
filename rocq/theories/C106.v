(** C106: the Atari environment as a whole. *)
From Verif Require Import Base M_Wrappers M_AtariStack.
From Coq Require Import Lia.
Open Scope nat_scope.

(** ** Specification *)
Section Spec.
Context {J : Type}.
Definition call : Type := cmd nat * reply (list Z) J.
(** Frames of the game since its last reset. *)
Definition since (l : list call) : nat := fold_left (fun n c => match fst c with CReset => 0 | CStep _ => S n end) l 0.
(** At no time more than [b] frames are played without a reset. *)
Definition at_most (b : nat) (l : list call) : Prop := forall k, since (firstn k l) <= b.
(** The game is over. *)
Definition over (l : list call) : bool := fold_left (fun b c => match snd c with RReset (Ok _) => false | RStep (Ok o) => b || o_done o | _ => b end) l false.
(** No frame is ever asked of a game that is over. *)
Definition never_after_end (l : list call) : Prop := forall k a r, nth_error l k = Some (CStep a, r) -> over (firstn k l) = false.
End Spec.

(** ** Invariants carried up through the wrappers *)
Section Safe.
Context {J : Type}.
(** [R]: a reset is allowed; [P]: a step is allowed; [B]: what holds at all times. *)
Definition safe {S Ob} (e : env S Ob nat J) (R P B : S -> Prop) : Prop :=
  (forall s, R s -> B s) /\ (forall s, P s -> B s) /\
  (forall s s' r, R s -> e_reset e s = (s', r) -> match r with Ok _ => P s' | Err _ => B s' end) /\
  (forall a s s' r, P s -> e_step e a s = (s', r) -> match r with Ok o => R s' /\ (o_done o || o_needs o = false -> P s') | Err _ => B s' end).
Lemma safe_trained {S Ob} (e : env S Ob nat J) (R P B : S -> Prop) acts s : safe e R P B -> R s -> B (trained e acts s).
Proof.
  intros (RB & PB & HR & HS) H. unfold trained. destruct (e_reset e s) as (s1, [o|x]) eqn:E; pose proof (HR _ _ _ H E) as H1; cbn in H1; [|exact H1]. clear - RB PB HR HS H1. revert s1 H1.
  induction acts as [|a acts IH]; intros s1 H; cbn [play]; [auto|]. destruct (e_step e a s1) as (s2, [o'|x]) eqn:E; pose proof (HS _ _ _ _ H E) as H2; cbn in H2; [|exact H2]. destruct H2 as [H2 H3].
  destruct (o_done o' || o_needs o'); [|apply IH; auto]. destruct (e_reset e s2) as (s3, [o3|x]) eqn:E3; pose proof (HR _ _ _ H2 E3) as H4; cbn in H4; [apply IH|]; exact H4.
Qed.
Lemma safe_without {S Ob X} (e : env S Ob nat J) (R P B : S -> Prop) : safe e R P B -> safe (without X e) (fun s => R (fst s)) (fun s => P (fst s)) (fun s => B (fst s)).
Proof.
  intros (RB & PB & HR & HS). split; [auto|]. split; [auto|]. split.
  - intros (s, x) s' r H E. cbn in *. destruct (e_reset e s) as (s1, r1) eqn:E1. injection E as <- <-. exact (HR _ _ _ H E1).
  - intros a (s, x) s' r H E. cbn in *. destruct (e_step e a s) as (s1, r1) eqn:E1. injection E as <- <-. exact (HS _ _ _ _ H E1).
Qed.
Lemma safe_obs {S Ob Ob'} (f : S -> Ob -> S * Ob') (e : env S Ob nat J) (R P B : S -> Prop) : (forall s o, (R s -> R (fst (f s o))) /\ (P s -> P (fst (f s o)))) -> safe e R P B -> safe (observation_wrapper f e) R P B.
Proof.
  intros F (RB & PB & HR & HS). split; [auto|]. split; [auto|]. split.
  - intros s s' r H E. cbn in *. destruct (e_reset e s) as (s1, [o|x]) eqn:E1; pose proof (HR _ _ _ H E1) as H1; cbn in H1.
    + destruct (F s1 o) as [_ F2]. destruct (f s1 o) as (s2, o2). injection E as <- <-. auto.
    + injection E as <- <-. exact H1.
  - intros a s s' r H E. cbn in *. destruct (e_step e a s) as (s1, [o|x]) eqn:E1; pose proof (HS _ _ _ _ H E1) as H1; cbn in H1.
    + destruct (F s1 (o_obs o)) as [F1 F2]. destruct (f s1 (o_obs o)) as (s2, o2). injection E as <- <-. cbn in *. split; [tauto|]. intros K. apply F2. tauto.
    + injection E as <- <-. exact H1.
Qed.
Lemma safe_clip {S Ob} (e : env S Ob nat J) (R P B : S -> Prop) : safe e R P B -> safe (clip_reward e) R P B.
Proof.
  intros (RB & PB & HR & HS). split; [auto|]. split; [auto|]. split; [exact HR|]. intros a s s' r H E. cbn in *. destruct (e_step e a s) as (s1, [o|x]) eqn:E1; pose proof (HS _ _ _ _ H E1) as H1; cbn in H1; injection E as <- <-; exact H1.
Qed.
Lemma safe_stack {S Ob} k (e : env S Ob nat J) (R P B : S -> Prop) : safe e R P B -> safe (frame_stack k e) (fun s => R (fst s)) (fun s => P (fst s)) (fun s => B (fst s)).
Proof.
  intros (RB & PB & HR & HS). split; [auto|]. split; [auto|]. split.
  - intros (s, x) s' r H E. cbn in *. destruct (e_reset e s) as (s1, [o|y]) eqn:E1; pose proof (HR _ _ _ H E1) as H1; cbn in H1; injection E as <- <-; [|exact H1]. destruct (get_ob k _); [exact H1|exact (PB _ H1)].
  - intros a (s, x) s' r H E. cbn in *. destruct (e_step e a s) as (s1, [o|y]) eqn:E1; pose proof (HS _ _ _ _ H E1) as H1; cbn in H1; injection E as <- <-; [|exact H1]. destruct (get_ob k _); cbn; [exact H1|apply RB; tauto].
Qed.
Lemma safe_fire {S Ob} (e : env S Ob nat J) (R P B : S -> Prop) one two : safe e R P B -> safe (fire_reset one two e) R P B.
Proof.
  intros (RB & PB & HR & HS). assert (FS : forall a s s' r, P s -> fire_step e a s = (s', r) -> match r with Ok _ => P s' | Err _ => B s' end).
  { intros a s s' r H E. unfold fire_step in E. destruct (e_step e a s) as (s1, [o|x]) eqn:E1; pose proof (HS _ _ _ _ H E1) as H1; cbn in H1; [|injection E as <- <-; exact H1]. destruct H1 as [H1 H2].
    destruct (o_done o || o_needs o); [|injection E as <- <-; auto]. destruct (e_reset e s1) as (s2, [o2|x]) eqn:E2; pose proof (HR _ _ _ H1 E2) as H3; cbn in H3; injection E as <- <-; exact H3. }
  split; [auto|]. split; [auto|]. split; [|exact HS]. intros s s' r H E. cbn in E. destruct (e_reset e s) as (s1, [o|x]) eqn:E1; pose proof (HR _ _ _ H E1) as H1; cbn in H1; [|injection E as <- <-; exact H1].
  destruct (fire_step e one s1) as (s2, [o2|x]) eqn:E2; pose proof (FS _ _ _ _ H1 E2) as H2; cbn in H2; [|injection E as <- <-; exact H2]. exact (FS _ _ _ _ H2 E).
Qed.
Lemma noop_loop_safe {S Ob} (e : env S Ob nat J) (R P B : S -> Prop) noop : safe e R P B -> forall n s obs s' r, P s -> noop_loop e noop n s obs = (s', r) -> match r with Ok _ => P s' | Err _ => B s' end.
Proof.
  intros (RB & PB & HR & HS). induction n as [|n IH]; intros s obs s' r H E; cbn [noop_loop] in E; [injection E as <- <-; destruct obs; [exact H|auto]|].
  destruct (e_step e noop s) as (s1, [o|x]) eqn:E1; pose proof (HS _ _ _ _ H E1) as H1; cbn in H1; [|injection E as <- <-; exact H1]. destruct H1 as [H1 H2].
  destruct (o_done o || o_needs o); [|exact (IH _ _ _ _ (H2 eq_refl) E)]. destruct (e_reset e s1) as (s2, [o2|x]) eqn:E2; pose proof (HR _ _ _ H1 E2) as H3; cbn in H3; [exact (IH _ _ _ _ H3 E)|injection E as <- <-; exact H3].
Qed.
Lemma safe_noop {S Ob} draw m noop (e : env S Ob nat J) (R P B : S -> Prop) : (forall s, P s -> P (snd (draw s))) -> safe e R P B -> safe (noop_reset_drawn draw m noop e) R P B.
Proof.
  intros D SF. pose proof SF as (RB & PB & HR & HS). split; [auto|]. split; [auto|]. split; [|exact HS]. intros s s' r H E. cbn [noop_reset_drawn e_reset] in E.
  destruct (e_reset e s) as (s1, [o|x]) eqn:E1; pose proof (HR _ _ _ H E1) as H1; cbn in H1; [|injection E as <- <-; exact H1]. pose proof (D _ H1) as D1. destruct (draw s1) as (k, s2). cbn [snd] in D1. exact (noop_loop_safe e R P B noop SF _ _ _ _ _ D1 E).
Qed.
Lemma skip_loop_safe {S} (e : env S (list Z) nat J) (R P B : S -> Prop) skip a : safe e R P B -> forall n i total buf s last s' buf' r, P s -> skip_loop skip e a n i total buf s last = (s', buf', r) ->
  (n = 0 -> match last with Some o => R s /\ (o_done o || o_needs o = false -> P s) | None => True end) -> match r with Ok (_, o) => R s' /\ (o_done o || o_needs o = false -> P s') | Err _ => B s' end.
Proof.
  intros (RB & PB & HR & HS). induction n as [|n IH]; intros i total buf s last s' buf' r H E L; cbn [skip_loop] in E.
  - injection E as <- <- <-. destruct last as [o|]; [exact (L eq_refl)|auto].
  - destruct (e_step e a s) as (s1, [o|x]) eqn:E1; pose proof (HS _ _ _ _ H E1) as H1; cbn in H1; [|injection E as <- <- <-; exact H1]. destruct (o_done o || o_needs o) eqn:D.
    + injection E as <- <- <-. rewrite D. exact H1.
    + destruct H1 as [H1 H2]. eapply IH; [exact (H2 eq_refl)|exact E|]. intros _. split; [exact H1|]. intros _. exact (H2 eq_refl).
Qed.
Lemma safe_skip {S} skip (e : env S (list Z) nat J) (R P B : S -> Prop) : safe e R P B -> safe (max_and_skip skip e) (fun s => R (fst s)) (fun s => P (fst s)) (fun s => B (fst s)).
Proof.
  intros SF. pose proof SF as (RB & PB & HR & HS). split; [auto|]. split; [auto|]. split.
  - intros (s, x) s' r H E. cbn in *. destruct (e_reset e s) as (s1, r1) eqn:E1. injection E as <- <-. exact (HR _ _ _ H E1).
  - intros a (s, buf) s' r H E. cbn [max_and_skip e_step fst] in *. destruct (skip_loop skip e a skip 0 0%Q buf s None) as ((s1, buf1), r1) eqn:E1.
    pose proof (skip_loop_safe e R P B skip a SF skip 0 0%Q buf s None s1 buf1 r1 H E1 (fun _ => I)) as H1. destruct r1 as [(t, o)|x]; injection E as <- <-; exact H1.
Qed.

(** A finer version for EpisodicLifeEnv: after an uneventful step ([P1]) one more step may be made, whatever it answers. *)
Definition safe1 {S Ob} (e : env S Ob nat J) (R P P1 B : S -> Prop) : Prop :=
  safe e R P B /\ (forall s, P1 s -> P s) /\
  (forall a s s' o, P s -> e_step e a s = (s', Ok o) -> o_done o || o_needs o = false -> P1 s') /\ (forall a s s' o, P1 s -> e_step e a s = (s', Ok o) -> P s').
Lemma safe1_noop {S Ob} draw m noop (e : env S Ob nat J) (R P P1 B : S -> Prop) : (forall s, P s -> P (snd (draw s))) -> safe1 e R P P1 B -> safe1 (noop_reset_drawn draw m noop e) R P P1 B.
Proof. intros D (SF & X). split; [now apply safe_noop|exact X]. Qed.
Lemma skip_loop_safe1 {S} (e : env S (list Z) nat J) (R P P1 B : S -> Prop) skip a : safe1 e R P P1 B -> forall n i total buf s last s' buf' t o, P s -> (n = 0 -> match last with Some o => o_done o || o_needs o = false -> P1 s | None => True end) ->
  skip_loop skip e a n i total buf s last = (s', buf', Ok (t, o)) -> (o_done o || o_needs o = false -> P1 s') /\ (P1 s -> P s').
Proof.
  intros (SF & P1P & HE & HA). pose proof SF as (RB & PB & HR & HS). induction n as [|n IH]; intros i total buf s last s' buf' t o H L E; cbn [skip_loop] in E.
  - destruct last as [o'|]; [|discriminate]. injection E as <- <- <- <-. split; [exact (L eq_refl)|auto].
  - destruct (e_step e a s) as (s1, [o1|x]) eqn:E1; [|discriminate]. destruct (o_done o1 || o_needs o1) eqn:D.
    + injection E as <- <- <- <-. rewrite D. split; [discriminate|]. intros Q. exact (HA _ _ _ _ Q E1).
    + pose proof (HE _ _ _ _ H E1 D) as Q1. destruct (IH _ _ _ s1 (Some o1) _ _ _ _ (P1P _ Q1) (fun _ _ => Q1) E) as [I1 I2]. split; [exact I1|]. auto.
Qed.
Lemma safe1_skip {S} skip (e : env S (list Z) nat J) (R P P1 B : S -> Prop) : safe1 e R P P1 B -> safe1 (max_and_skip skip e) (fun s => R (fst s)) (fun s => P (fst s)) (fun s => P1 (fst s)) (fun s => B (fst s)).
Proof.
  intros SF1. pose proof SF1 as (SF & P1P & HE & HA). split; [now apply safe_skip|]. split; [auto|].
  assert (X : forall a s s' o, P (fst s) -> e_step (max_and_skip skip e) a s = (s', Ok o) -> (o_done o || o_needs o = false -> P1 (fst s')) /\ (P1 (fst s) -> P (fst s'))).
  { intros a (s, buf) s' o H E. cbn [max_and_skip e_step fst] in *. destruct (skip_loop skip e a skip 0 0%Q buf s None) as ((s1, buf1), [(t, o1)|x]) eqn:E1; [|discriminate]. injection E as <- <-.
    exact (skip_loop_safe1 e R P P1 B skip a SF1 skip 0 0%Q buf s None s1 buf1 t o1 H (fun _ => I) E1). }
  split; [intros a s s' o H E D; exact (proj1 (X a s s' o H E) D)|]. intros a s s' o H E. exact (proj2 (X a s s' o (P1P _ H) E) H).
Qed.
Lemma safe_life {S Ob} lives noop (e : env S Ob nat J) (R P P1 B : S -> Prop) : safe1 e R P P1 B ->
  safe (episodic_life lives noop e) (fun s => R (fst s) /\ (snd (snd s) = false -> P1 (fst s))) (fun s => P (fst s)) (fun s => B (fst s)).
Proof.
  intros ((RB & PB & HR & HS) & P1P & HE & HA). split; [intros s [H _]; auto|]. split; [auto|]. split.
  - intros (s, (lv, nrr)) s' r [H H1] E. cbn [fst snd episodic_life e_reset] in *. destruct nrr.
    + destruct (e_reset e s) as (s1, [o|x]) eqn:E1; pose proof (HR _ _ _ H E1) as H2; cbn in H2; injection E as <- <-; exact H2.
    + specialize (H1 eq_refl). destruct (e_step e noop s) as (s1, [o|x]) eqn:E1; injection E as <- <-; cbn [fst]; [exact (HA _ _ _ _ H1 E1)|]. exact (HS _ _ _ _ (P1P _ H1) E1).
  - intros a (s, (lv, nrr)) s' r H E. cbn [fst snd episodic_life e_step] in *. destruct (e_step e a s) as (s1, [o|x]) eqn:E1; pose proof (HS _ _ _ _ H E1) as H2; cbn in H2; injection E as <- <-; [|exact H2].
    cbn [fst snd o_done o_needs]. destruct H2 as [H2 H3]. split; [split; [exact H2|]; intros D; exact (HE _ _ _ _ H E1 D)|]. intros D. apply H3. destruct (_ && _)%bool; cbn in D; [discriminate|exact D].
Qed.
End Safe.

(** ** The game at the bottom *)
Section Game.
Context {W J : Type} (raw : env W (list Z) nat J).
Notation log := (list (@call J)). Notation game := (W * log)%type.

Lemma since_app l c : since (l ++ [c]) = match fst c with CReset => 0 | CStep _ => S (@since J l) end.
Proof. unfold since. now rewrite fold_left_app. Qed.
Lemma over_app l c : over (l ++ [c]) = match snd c with RReset (Ok _) => false | RStep (Ok o) => @over J l || o_done o | _ => over l end.
Proof. unfold over. rewrite fold_left_app. reflexivity. Qed.
Lemma prefixes {X} (Q : list X -> Prop) l c : (forall k, Q (firstn k l)) -> Q (l ++ [c]) -> forall k, Q (firstn k (l ++ [c])).
Proof.
  intros H1 H2 k. rewrite firstn_app. destruct (Nat.le_gt_cases k (length l)) as [LE|GT]; [replace (k - length l) with 0 by lia; cbn [firstn]; rewrite app_nil_r; apply H1|].
  rewrite (firstn_all2 l) by lia. replace (k - length l) with (S (k - length l - 1)) by lia. cbn [firstn]. destruct (k - length l - 1); exact H2.
Qed.
Lemma at_most_app b l c : @at_most J b l -> since (l ++ [c]) <= b -> at_most b (l ++ [c]).
Proof. intros H1 H2. exact (prefixes (fun l => since l <= b) l c H1 H2). Qed.

(** The time limit. *)
Definition counted (b n : nat) (s : game * option nat) : Prop := exists m, snd s = Some m /\ since (snd (fst s)) = m /\ m <= n /\ at_most b (snd (fst s)).
Definition within (b : nat) (s : game * option nat) : Prop := at_most b (snd (fst s)).
Lemma limit_reset L b s s' r : within b s -> e_reset (continuing_time_limit L (logged raw)) s = (s', r) -> match r with Ok _ => counted b 0 s' | Err _ => within b s' end.
Proof.
  destruct s as ((w, l), el). intros H E. cbn in E. destruct (e_reset raw w) as (w1, r1). injection E as <- <-. assert (A : at_most b (l ++ [(CReset, RReset r1)])) by (apply at_most_app; [exact H|rewrite since_app; cbn; lia]).
  destruct r1; [|exact A]. exists 0. split; [reflexivity|]. split; [cbn [fst snd]; now rewrite since_app|]. split; [lia|exact A].
Qed.
Lemma limit_step L b n a s s' r : n < b -> counted b n s -> e_step (continuing_time_limit L (logged raw)) a s = (s', r) ->
  match r with Ok o => counted b (S n) s' /\ (o_needs o = false -> exists m, snd s' = Some m /\ m < L) | Err _ => within b s' end.
Proof.
  destruct s as ((w, l), el). intros N (m & E0 & S0 & M & H) E. cbn [fst snd] in *. subst el. cbn in E. destruct (e_step raw a w) as (w1, r1).
  assert (A : at_most b (l ++ [(CStep a, RStep r1)])) by (apply at_most_app; [exact H|rewrite since_app; cbn [fst]; lia]).
  destruct r1 as [o|x]; injection E as <- <-; [|exact A]. split.
  - exists (S m). cbn [fst snd]. split; [reflexivity|]. split; [rewrite since_app; cbn [fst]; lia|]. split; [lia|exact A].
  - cbn [o_needs snd]. intros D. exists (S m). split; [reflexivity|]. destruct (Nat.leb_spec L (S m)) as [Q|Q]; [cbn in D; replace (L <=? S m) with true in D by (symmetry; now apply Nat.leb_le); discriminate|exact Q].
Qed.
Lemma counted_lt b n k s : counted b n s -> (exists m, snd s = Some m /\ m < S k) -> counted b k s.
Proof. intros (m & E & S0 & M & H) (m' & E' & M'). exists m. rewrite E in E'. injection E' as <-. repeat split; auto. lia. Qed.
Lemma counted_le b n k s : counted b n s -> n <= k -> counted b k s.
Proof. intros (m & E & S0 & M & H) K. exists m. repeat split; auto. lia. Qed.
Lemma counted_within b n s : counted b n s -> within b s. Proof. intros (m & E & S0 & M & H). exact H. Qed.

Lemma limit_safe L : 1 <= L -> safe (continuing_time_limit L (logged raw)) (within L) (counted L (L - 1)) (within L).
Proof.
  intros HL. split; [auto|]. split; [intros s; apply counted_within|]. split.
  - intros s s' r H E. pose proof (limit_reset L L s s' r H E) as X. destruct r; [exact (counted_le _ _ _ _ X (Nat.le_0_l _))|exact X].
  - intros a s s' r H E. pose proof (limit_step L L (L - 1) a s s' r ltac:(lia) H E) as X. destruct r as [o|x]; [|exact X]. destruct X as [X1 X2]. split; [exact (counted_within _ _ _ X1)|].
    intros D. apply Bool.orb_false_iff in D. apply (counted_lt _ _ _ _ X1). replace (S (L - 1)) with L by lia. apply X2, D.
Qed.
Lemma limit_safe1 L : 1 <= L -> safe1 (continuing_time_limit L (logged raw)) (within (S L)) (counted (S L) L) (counted (S L) (L - 1)) (within (S L)).
Proof.
  intros HL. assert (ST : forall a s s' o, counted (S L) L s -> e_step (continuing_time_limit L (logged raw)) a s = (s', Ok o) -> o_done o || o_needs o = false -> counted (S L) (L - 1) s').
  { intros a s s' o H E D. destruct (limit_step L (S L) L a s s' (Ok o) ltac:(lia) H E) as [X1 X2]. apply Bool.orb_false_iff in D. apply (counted_lt _ _ _ _ X1). replace (S (L - 1)) with L by lia. apply X2, D. }
  split; [|split; [|split]].
  - split; [auto|]. split; [intros s; apply counted_within|]. split.
    + intros s s' r H E. pose proof (limit_reset L (S L) s s' r H E) as X. destruct r; [exact (counted_le _ _ _ _ X (Nat.le_0_l _))|exact X].
    + intros a s s' r H E. pose proof (limit_step L (S L) L a s s' r ltac:(lia) H E) as X. destruct r as [o|x]; [|exact X]. split; [exact (counted_within _ _ _ (proj1 X))|]. intros D. apply (counted_le _ (L - 1)); [exact (ST _ _ _ _ H E D)|lia].
  - intros s H. apply (counted_le _ (L - 1)); [exact H|lia].
  - exact ST.
  - intros a s s' o H E. destruct (limit_step L (S L) (L - 1) a s s' (Ok o) ltac:(lia) H E) as [X _]. apply (counted_le _ (S (L - 1))); [exact X|lia].
Qed.

(** The end of the game. *)
Definition alive (s : game * option nat) : Prop := never_after_end (snd (fst s)) /\ over (snd (fst s)) = false.
Definition fine (s : game * option nat) : Prop := never_after_end (snd (fst s)).
Lemma end_app l c : @never_after_end J l -> (forall a, fst c = CStep a -> over l = false) -> never_after_end (l ++ [c]).
Proof.
  intros H1 H2 k a r E. destruct (Nat.lt_trichotomy k (length l)) as [LT|[-> | GT]].
  - rewrite nth_error_app1 in E by exact LT. rewrite firstn_app. replace (k - length l) with 0 by lia. cbn [firstn]. rewrite app_nil_r. exact (H1 _ _ _ E).
  - rewrite nth_error_app2, Nat.sub_diag in E by lia. cbn in E. injection E as ->. rewrite firstn_app, Nat.sub_diag, firstn_all. cbn [firstn]. rewrite app_nil_r. exact (H2 a eq_refl).
  - assert (X : nth_error (l ++ [c]) k <> None) by congruence. apply nth_error_Some in X. rewrite app_length in X. cbn in X. lia.
Qed.
Lemma end_safe L : safe (if L =? 0 then without (option nat) (logged raw) else continuing_time_limit L (logged raw)) fine alive fine.
Proof.
  split; [auto|]. split; [intros s [H _]; exact H|]. split.
  - intros ((w, l), el) s' r H E. assert (X : exists w1 r1 el1, s' = ((w1, l ++ [(CReset, RReset r1)]), el1) /\ r = r1).
    { destruct (L =? 0); cbn in E; destruct (e_reset raw w) as (w1, r1); injection E as <- <-; eauto. }
    destruct X as (w1 & r1 & el1 & -> & ->). assert (F : never_after_end (l ++ [(CReset, RReset r1)])) by (apply end_app; [exact H|discriminate]). destruct r1; [|exact F]. split; [exact F|]. cbn [fst snd]. now rewrite over_app.
  - intros a ((w, l), el) s' r [H AL] E. cbn [fst snd] in *. assert (X : (s' = ((w, l), el) /\ exists x, r = Err x) \/ exists w1 r1 el1, s' = ((w1, l ++ [(CStep a, RStep r1)]), el1) /\ match r with Ok o => exists o1, r1 = Ok o1 /\ o_done o = o_done o1 | Err _ => exists x, r1 = Err x end).
    { destruct (L =? 0); cbn in E; [|destruct el as [n|]; [|injection E as <- <-; left; eauto]]; destruct (e_step raw a w) as (w1, [o1|x]); injection E as <- <-; right; repeat eexists; reflexivity. }
    destruct X as [[-> (x & ->)]|(w1 & r1 & el1 & -> & X)]; [exact H|]. assert (F : never_after_end (l ++ [(CStep a, RStep r1)])) by (apply end_app; [exact H|]; intros a' _; exact AL).
    destruct r as [o|x]; [|exact F]. destruct X as (o1 & -> & D1). split; [exact F|]. intros D. split; [exact F|]. cbn [fst snd]. rewrite over_app. cbn [snd]. rewrite AL, <- D1. apply Bool.orb_false_iff in D. tauto.
Qed.
End Game.

(** ** The whole environment *)
Section Whole.
Context {W J : Type} (raw : env W (list Z) nat J) (lives : W -> Z) (draw : W -> nat * W) (flip : W -> bool * W) (warp : list Z -> list Q) (has_fire : bool).
Notation log := (list (@call J)).
Definition draw' (s : W * log) : nat * (W * log) := let (k, w) := draw (fst s) in (k, (w, snd s)).
Definition flip' (s : W * log) : bool * (W * log) := let (k, w) := flip (fst s) in (k, (w, snd s)).
(** The environment around a game whose calls are recorded. *)
Definition watched (o : options) (max_frames : nat) := atari o max_frames has_fire (fun s : W * log => lives (fst s)) draw' flip' warp (logged raw).
Definition record (s : (((((W * log) * option nat) * (list Z * list Z)) * (Z * bool)) * list (list Q))) : log := snd (fst (fst (fst (fst s)))).
Definition new_game (zero : list Z) (w : W) := fresh zero (w, @nil (@call J)).

(** The upper layers keep what holds of the game and EpisodicLifeEnv's state, whatever the options. *)
Lemma upper_safe o (e : env ((((W * log) * option nat) * (list Z * list Z)) * (Z * bool)) (list Z) nat J) (R P B : (((W * log) * option nat) * (list Z * list Z)) * (Z * bool) -> Prop) :
  (forall w w' l n b x, (R (((((w, l), n), b), x)) -> R (((((w', l), n), b), x))) /\ (P (((((w, l), n), b), x)) -> P (((((w', l), n), b), x)))) -> safe e R P B ->
  let e := if o_fire_reset o && has_fire then fire_reset 1 2 e else e in
  let e := observation_wrapper (fun w f => (w, warp f)) e in
  let e := if o_scale o then observation_wrapper (fun w f => (w, scaled f)) e else e in
  let e := if o_clip_rewards o then clip_reward e else e in
  let e := if o_flicker o then observation_wrapper (flickered (fun '(w, x) => let (b, w) := (fun '((w, n), b) => let (x, w) := flip' w in (x, ((w, n), b))) w in (b, (w, x)))) e else e in
  let e := if o_frame_stack o then frame_stack 4 e else observation_wrapper (fun w f => (w, [f])) (without (list (list Q)) e) in
  safe e (fun s => R (fst s)) (fun s => P (fst s)) (fun s => B (fst s)).
Proof.
  intros RW SF. cbv zeta. set (e1 := if o_fire_reset o && has_fire then _ else _). assert (S1 : safe e1 R P B) by (unfold e1; destruct (_ && _)%bool; [now apply safe_fire|exact SF]). clearbody e1.
  set (e2 := observation_wrapper _ e1). assert (S2 : safe e2 R P B) by (apply safe_obs; [auto|exact S1]). clearbody e2.
  set (e3 := if o_scale o then _ else _). assert (S3 : safe e3 R P B) by (unfold e3; destruct (o_scale o); [apply safe_obs; [auto|]|]; exact S2). clearbody e3.
  set (e4 := if o_clip_rewards o then _ else _). assert (S4 : safe e4 R P B) by (unfold e4; destruct (o_clip_rewards o); [apply safe_clip|]; exact S3). clearbody e4.
  set (e5 := if o_flicker o then _ else _). assert (S5 : safe e5 R P B).
  { unfold e5. destruct (o_flicker o); [|exact S4]. apply safe_obs; [|exact S4]. intros ((((w, l), n), b), x) f. unfold flickered, flip'. cbn [fst snd]. destruct (flip w) as (k, w'). cbn [fst]. apply RW. }
  clearbody e5. destruct (o_frame_stack o); [now apply safe_stack|]. apply safe_obs; [auto|]. now apply safe_without.
Qed.
Lemma noop_draw (P : (W * log) * option nat -> Prop) : (forall w w' l n, P ((w, l), n) -> P ((w', l), n)) ->
  forall s, P s -> P (snd ((fun '(w, n) => let (k, w) := draw' w in (k, (w, n))) s)).
Proof. intros H ((w, l), n) X. unfold draw'. cbn [fst snd]. destruct (draw w) as (k, w'). cbn [snd]. exact (H _ _ _ _ X). Qed.

(** With a limit of L frames an agent that resets when told to plays at most L frames without a reset of the game, L + 1 with episodic lives. *)
Theorem C106_frame_limit o L zero w acts : 1 <= L -> at_most (if o_episode_life o then L + 1 else L) (record (trained (watched o L) acts (new_game zero w))).
Proof.
  intros HL. unfold watched, atari, wrap_deepmind. destruct (o_episode_life o) eqn:EL.
  - rewrite Nat.add_1_r. pose proof (limit_safe1 raw L HL) as S0. assert (S1 : safe1 (make_atari draw' L (logged raw)) (fun s => within (S L) (fst s)) (fun s => counted (S L) L (fst s)) (fun s => counted (S L) (L - 1) (fst s)) (fun s => within (S L) (fst s))).
    { unfold make_atari. replace (L =? 0) with false by (symmetry; apply Nat.eqb_neq; lia). apply safe1_skip, safe1_noop; [|exact S0]. apply noop_draw. intros w1 w' l n X. exact X. }
    pose proof (safe_life (fun s => lives (fst (fst (fst s)))) 0 _ _ _ _ _ S1) as S2.
    refine (safe_trained _ _ _ _ acts (new_game zero w) (upper_safe o _ _ _ _ _ S2) _); [intros w1 w' l n b x; split; intros X; exact X|]. cbn. split; [|discriminate]. intros k. rewrite firstn_nil. cbn. lia.
  - pose proof (limit_safe raw L HL) as S0. assert (S1 : safe (make_atari draw' L (logged raw)) (fun s => within L (fst s)) (fun s => counted L (L - 1) (fst s)) (fun s => within L (fst s))).
    { unfold make_atari. replace (L =? 0) with false by (symmetry; apply Nat.eqb_neq; lia). apply safe_skip, safe_noop; [|exact S0]. apply noop_draw. intros w1 w' l n X. exact X. }
    pose proof (safe_without (X := Z * bool) _ _ _ _ S1) as S2.
    refine (safe_trained _ _ _ _ acts (new_game zero w) (upper_safe o _ _ _ _ _ S2) _); [intros w1 w' l n b x; split; intros X; exact X|]. intros k. cbn. rewrite firstn_nil. cbn. lia.
Qed.
(** Without episodic lives, no frame is asked of a game that is over. *)
Theorem C106_no_step_after_end_partial o L zero w acts : o_episode_life o = false -> never_after_end (record (trained (watched o L) acts (new_game zero w))).
Proof.
  intros EL. unfold watched, atari, wrap_deepmind. rewrite EL. pose proof (end_safe raw L) as S0. assert (S1 : safe (make_atari draw' L (logged raw)) (fun s => fine (fst s)) (fun s => alive (fst s)) (fun s => fine (fst s))).
  { unfold make_atari. apply safe_skip, safe_noop; [|exact S0]. apply noop_draw. intros w1 w' l n X. exact X. }
  pose proof (safe_without (X := Z * bool) _ _ _ _ S1) as S2.
  refine (safe_trained _ _ _ _ acts (new_game zero w) (upper_safe o _ _ _ _ _ S2) _); [intros w1 w' l n b x; split; intros X; exact X|]. intros k a r. cbn. destruct k; discriminate.
Qed.

(** One step of the agent. *)
Lemma low_step L a w l el s' o : e_step (if L =? 0 then without (option nat) (logged raw) else continuing_time_limit L (logged raw)) a ((w, l), el) = (s', Ok o) ->
  exists w' el' r, s' = ((w', l ++ [(CStep a, RStep (Ok r))]), el') /\ o_done o = o_done r /\ o_rew o = o_rew r /\ o_obs o = o_obs r /\ o_info o = o_info r /\ (o_needs r = true -> o_needs o = true) /\
    (L <> 0 -> forall n, el = Some n -> el' = Some (S n) /\ o_needs o = (L <=? S n) || o_needs r) /\ (L = 0 -> o_needs o = o_needs r).
Proof.
  intros E. destruct (Nat.eqb_spec L 0) as [Z|NZ].
  - cbn in E. destruct (e_step raw a w) as (w1, r1). injection E as <- ->. exists w1, el, o. repeat split; auto; contradiction.
  - cbn in E. destruct el as [n|]; [|discriminate]. destruct (e_step raw a w) as (w1, [r|x]); [|discriminate]. injection E as <- <-. exists w1, (Some (S n)), r. cbn [o_done o_rew o_obs o_info o_needs].
    repeat split; auto; try (intros ->; now destruct (L <=? S n)); try contradiction; (injection H0 as ->; try reflexivity; cbn [o_needs]; now destruct (L <=? S n0)).
Qed.
Definition frames_asked (a : nat) (outs : list (out (list Z) J)) : log := map (fun r => (CStep a, RStep (Ok r))) outs.
Definition rewards (outs : list (out (list Z) J)) : Q := fold_right Qplus 0%Q (map o_rew outs).
Ltac parts f := split; [reflexivity|split; [lia|split; [f|split; [unfold rewards; cbn -[Qplus]; ring|split; [reflexivity|split; [auto|split]]]]]].
Lemma atari_step L a w l el buf s' o : e_step (make_atari draw' L (logged raw)) a (((w, l), el), buf) = (s', Ok o) ->
  exists outs r, snd (fst (fst s')) = l ++ frames_asked a (outs ++ [r]) /\ length outs <= 3 /\ Forall (fun r => o_done r = false /\ o_needs r = false) outs /\
    (o_rew o == rewards (outs ++ [r]))%Q /\ o_done o = o_done r /\ (o_needs r = true -> o_needs o = true) /\ (length outs < 3 -> o_done o || o_needs o = true) /\
    forall r1 r2 r3, outs = [r1; r2; r3] -> o_obs o = pixmax (o_obs r3) (o_obs r).
Proof.
  unfold make_atari, noop_reset_drawn, max_and_skip. cbn [e_step]. set (e1 := if L =? 0 then _ else _). intros E. cbn [skip_loop Nat.eqb e_step] in E.
  assert (LS : forall w l el s' o, e_step e1 a ((w, l), el) = (s', Ok o) -> exists w' el' r, s' = ((w', l ++ [(CStep a, RStep (Ok r))]), el') /\ o_done o = o_done r /\ o_rew o = o_rew r /\ o_obs o = o_obs r /\ (o_needs r = true -> o_needs o = true)).
  { intros w0 l0 el0 s0 o0 E0. destruct (low_step L a w0 l0 el0 s0 o0 E0) as (w' & el' & r & H1 & H2 & H3 & H4 & _ & H5 & _). eauto 10. }
  assert (NN : forall o r : out (list Z) J, o_done o = o_done r -> (o_needs r = true -> o_needs o = true) -> o_done o || o_needs o = false -> o_done r = false /\ o_needs r = false).
  { intros o0 r0 D N H. apply Bool.orb_false_iff in H. destruct H as [H1 H2]. rewrite D in H1. split; [exact H1|]. destruct (o_needs r0); [rewrite N in H2 by reflexivity; discriminate|reflexivity]. }
  destruct (e_step e1 a ((w, l), el)) as (s1, [o1|x]) eqn:E1; [|exfalso; cbn in E; discriminate E]. destruct (LS _ _ _ _ _ E1) as (w1 & el1 & r1 & -> & D1 & R1 & O1 & N1). clear E1.
  destruct (o_done o1 || o_needs o1) eqn:S1.
  { cbn in E. injection E as <- <-. exists [], r1. cbn -[Qplus]. rewrite D1, R1. parts ltac:(repeat (apply Forall_cons; [|]); try apply Forall_nil; solve [apply (NN o1); auto|eapply NN; eauto]); [intros _; congruence|intros ? ? ? X; discriminate X]. }
  destruct (e_step e1 a _) as (s2, [o2|x]) eqn:E2; [|exfalso; cbn in E; discriminate E]. destruct (LS _ _ _ _ _ E2) as (w2 & el2 & r2 & -> & D2 & R2 & O2 & N2). clear E2.
  destruct (o_done o2 || o_needs o2) eqn:S2.
  { cbn in E. injection E as <- <-. exists [r1], r2. cbn -[Qplus]. rewrite D2, R2, R1, <- app_assoc. parts ltac:(repeat (apply Forall_cons; [|]); try apply Forall_nil; solve [apply (NN o1); auto|eapply NN; eauto]); [intros _; congruence|intros ? ? ? X; discriminate X]. }
  destruct (e_step e1 a _) as (s3, [o3|x]) eqn:E3; [|exfalso; cbn in E; discriminate E]. destruct (LS _ _ _ _ _ E3) as (w3 & el3 & r3 & -> & D3 & R3 & O3 & N3). clear E3.
  destruct (o_done o3 || o_needs o3) eqn:S3.
  { cbn in E. injection E as <- <-. exists [r1; r2], r3. cbn -[Qplus]. rewrite D3, R3, R2, R1, <- !app_assoc. parts ltac:(repeat (apply Forall_cons; [|]); try apply Forall_nil; solve [apply (NN o1); auto|eapply NN; eauto]); [intros _; congruence|intros ? ? ? X; discriminate X]. }
  destruct (e_step e1 a _) as (s4, [o4|x]) eqn:E4; [|exfalso; cbn in E; discriminate E]. destruct (LS _ _ _ _ _ E4) as (w4 & el4 & r4 & -> & D4 & R4 & O4 & N4). clear E4.
  assert (E' : s' = (((w4, (((l ++ [(CStep a, RStep (Ok r1))]) ++ [(CStep a, RStep (Ok r2))]) ++ [(CStep a, RStep (Ok r3))]) ++ [(CStep a, RStep (Ok r4))]), el4), (o_obs o3, o_obs o4)) /\ o = mkOut (pixmax (o_obs o3) (o_obs o4)) (0 + o_rew o1 + o_rew o2 + o_rew o3 + o_rew o4)%Q (o_done o4) (o_needs o4) (o_info o4)).
  { destruct (o_done o4 || o_needs o4); cbn in E; injection E as <- <-; auto. }
  destruct E' as [-> ->]. exists [r1; r2; r3], r4. cbn -[Qplus]. rewrite D4, R4, R3, R2, R1, O3, O4, <- !app_assoc. parts ltac:(repeat (apply Forall_cons; [|]); try apply Forall_nil; solve [apply (NN o1); auto|apply (NN o2); auto|apply (NN o3); auto]).
  - intros ?; lia.
  - intros ? ? ? X. injection X as <- <- <-. reflexivity.
Qed.

Lemma upper_step {S} o hf (lv : S -> Z) (fl : S -> bool * S) wp (e : env S (list Z) nat J) a s n fr s' r :
  e_step (wrap_deepmind o hf lv fl wp e) a ((s, n), fr) = (s', Ok r) ->
  exists s1 o1, e_step e a s = (s1, Ok o1) /\ fst (fst s') = (if o_flicker o then snd (fl s1) else s1) /\ o_rew r = (if o_clip_rewards o then sign (o_rew o1) else o_rew o1) /\ o_needs r = o_needs o1 /\
    o_done r = (o_episode_life o && (lv s1 <? fst n)%Z && (0 <? lv s1)%Z) || o_done o1 /\ (o_episode_life o = true -> fst (snd (fst s')) = lv s1) /\
    exists f, o_obs r = (if o_frame_stack o then lastn 4 (fr ++ [f]) else [f]) /\ (o_frame_stack o = true -> snd s' = o_obs r) /\
      let g := if o_scale o then scaled (wp (o_obs o1)) else wp (o_obs o1) in if o_flicker o then f = (if fst (fl s1) then map (fun _ => 0%Q) g else g) else f = g.
Proof.
  unfold wrap_deepmind. destruct n as (n0, nrr). destruct o as [el cl fs sc fi fk]. cbn [o_episode_life o_clip_rewards o_frame_stack o_scale o_fire_reset o_flicker]. intros E.
  assert (HE : forall X (y : env (S * (Z * bool)) X nat J) s2 o2, e_step (if el then episodic_life lv 0 e else without (Z * bool) e) a (s, (n0, nrr)) = (s2, Ok o2) ->
    exists s1 o1, e_step e a s = (s1, Ok o1) /\ fst s2 = s1 /\ o_obs o2 = o_obs o1 /\ o_rew o2 = o_rew o1 /\ o_needs o2 = o_needs o1 /\ o_done o2 = (el && (lv s1 <? n0)%Z && (0 <? lv s1)%Z) || o_done o1 /\ (el = true -> fst (snd s2) = lv s1)).
  { intros _ _ s2 o2 E2. destruct el; cbn in E2; destruct (e_step e a s) as (s1, [o1|x]) eqn:E1; try discriminate; injection E2 as <- <-; exists s1, o1; cbn; repeat split; auto; try discriminate. }
  specialize (HE (list Z) {| e_reset := fun s => (s, Err RuntimeError); e_step := fun _ s => (s, Err RuntimeError) |}).
  set (e2 := if el then episodic_life lv 0 e else without (Z * bool) e) in *. clearbody e2.
  assert (HF : e_step (if fi && hf then fire_reset 1 2 e2 else e2) = e_step e2) by (destruct (fi && hf); reflexivity).
  set (e3 := if fi && hf then fire_reset 1 2 e2 else e2) in *. clearbody e3.
  destruct fs, fk, cl, sc; cbn [frame_stack observation_wrapper without e_step clip_reward reward_wrapper] in E; rewrite HF in E; destruct (e_step e2 a (s, (n0, nrr))) as (s2, [o2|x]) eqn:E2;
    try (exfalso; cbn in E; discriminate E); destruct (HE _ _ eq_refl) as (s1 & o1 & H1 & H2 & H3 & H4 & H5 & H6 & H7); exists s1, o1; split; auto; destruct s2 as (s2, n2);
    cbn [fst snd] in *; subst s2; rewrite <- H3, <- H4, <- H5, <- H6; unfold flickered, get_ob, passert, rbind in E; destruct (fl s1) as (b, s1') eqn:EF; cbn [o_obs o_rew o_done o_needs o_info fst snd] in *;
    try (destruct (length (deque_append _ _ _) =? 4) eqn:EQ; [|discriminate E]); injection E as <- <-; cbn [o_obs o_rew o_done o_needs o_info fst snd]; repeat (split; [solve [auto]|]);
    (eexists; split; [reflexivity|split; [reflexivity + discriminate|reflexivity]]).
Qed.
(** The agent's step: the action is repeated on the game until something happens, at most four times; the reward is their sum, or its sign; the episode ends when the game does or, with
    episodic lives, when a life was lost; and what is seen is what was seen before, less the oldest frame, and a new frame, after four frames of the game made of the last two. *)
Definition seen (s : (((((W * log) * option nat) * (list Z * list Z)) * (Z * bool)) * list (list Q))) : list (list Q) := snd s.
Definition lives_seen (s : (((((W * log) * option nat) * (list Z * list Z)) * (Z * bool)) * list (list Q))) : Z := fst (snd (fst s)).
Definition rewarded (clip : bool) (total r : Q) : Prop :=
  if clip then ((0 < total -> r = 1) /\ (total < 0 -> r = -1) /\ (total == 0 -> r = 0))%Q else (r == total)%Q.
Lemma sign_rewarded x t : (x == t)%Q -> rewarded true t (sign x).
Proof.
  intros E. unfold rewarded, sign. destruct (Qle_bool x 0) eqn:A; [apply Qle_bool_iff in A; destruct (Qle_bool 0 x) eqn:B; [apply Qle_bool_iff in B|]|]; repeat split; intros H; auto; exfalso; rewrite <- E in H.
  - now apply Qlt_not_le in H.
  - now apply Qlt_not_le in H.
  - now apply Qlt_not_le in H.
  - assert (X : (0 <= x)%Q) by (rewrite H; apply Qle_refl). apply Qle_bool_iff in X. congruence.
  - assert (X : (x <= 0)%Q) by now apply Qlt_le_weak. apply Qle_bool_iff in X. congruence.
  - assert (X : (x <= 0)%Q) by (rewrite H; apply Qle_refl). apply Qle_bool_iff in X. congruence.
Qed.
Theorem C106_step o L a s s' r : e_step (watched o L) a s = (s', Ok r) ->
  exists before final lives_now frame,
    record s' = record s ++ frames_asked a (before ++ [final]) /\
    length before <= 3 /\ Forall (fun r => o_done r = false /\ o_needs r = false) before /\ (length before < 3 -> o_done final || o_needs r = true) /\
    rewarded (o_clip_rewards o) (rewards (before ++ [final])) (o_rew r) /\
    o_done r = (o_episode_life o && (lives_now <? lives_seen s)%Z && (0 <? lives_now)%Z) || o_done final /\ (o_episode_life o = true -> lives_seen s' = lives_now) /\ (o_needs final = true -> o_needs r = true) /\
    o_obs r = (if o_frame_stack o then lastn 4 (seen s ++ [frame]) else [frame]) /\ (o_frame_stack o = true -> seen s' = o_obs r) /\
    forall r1 r2 r3, before = [r1; r2; r3] -> o_flicker o = false -> frame = (if o_scale o then scaled else fun f => f) (warp (pixmax (o_obs r3) (o_obs final))).
Proof.
  destruct s as (((((w, l), el), buf), n), fr). unfold watched, atari. intros E.
  destruct (upper_step _ _ _ _ _ _ _ _ _ _ _ _ E) as (s1 & o1 & E1 & Hs & Hr & Hn & Hd & Hl & f & Hf & Hfs & Hg).
  destruct (atari_step _ _ _ _ _ _ _ _ E1) as (outs & q & A1 & A2 & A3 & A4 & A5 & A6 & A7 & A8). destruct s1 as (((w1, l1), el1), buf1). cbn [fst snd] in *.
  exists outs, q, (lives w1), f. unfold record, seen, lives_seen. cbn [fst snd]. split.
  - rewrite Hs. destruct (o_flicker o); [|cbn; exact A1]. unfold flip'. cbn [fst snd]. destruct (flip w1). cbn. exact A1.
  - split; [exact A2|]. split; [exact A3|]. split; [intros LT; rewrite Hn, <- A5; exact (A7 LT)|]. split.
    + rewrite Hr. destruct (o_clip_rewards o); [apply sign_rewarded|]; exact A4.
    + split; [rewrite Hd, <- A5; reflexivity|]. split; [exact Hl|]. split; [rewrite Hn; exact A6|]. split; [exact Hf|]. split; [exact Hfs|]. intros r1 r2 r3 X FK. rewrite FK in Hg. cbn zeta in Hg. rewrite (A8 _ _ _ X) in Hg. rewrite Hg. destruct (o_scale o); reflexivity.
Qed.
End Whole.

(** ** Games *)
(** A game whose state is the number of frames since the reset; it shows that number, pays 2 for every frame, has three lives for three frames and two after that, and ends with the
    [e]th frame.  The no-ops of a reset are one. *)
Definition counting (e : nat) : env nat (list Z) nat unit := {|
  e_reset := fun _ => (0, Ok [0%Z]);
  e_step := fun _ n => (S n, Ok (mkOut [Z.of_nat (S n)] 2%Q (e <=? S n) false tt)) |}.
Definition three_lives (n : nat) : Z := if n <? 3 then 3%Z else 2%Z.
Definition played (o : options) (e L : nat) (acts : list nat) :=
  trained (watched (counting e) three_lives (fun n => (0, n)) (fun n => (false, n)) (map inject_Z) true o L) acts (new_game [0%Z] 0).
Definition usual := mkOptions true true true false false false.
Definition plain := mkOptions false true true false false false.
(** Episodic lives: the no-op that stands for a reset can be the last frame the limit allows; nobody looks, and one more is played. *)
Theorem C106_frame_limit_refuted : ~ (forall W J (raw : env W (list Z) nat J) lives draw flip warp fire o L zero w acts, 1 <= L ->
  at_most L (record (trained (watched raw lives draw flip warp fire o L) acts (new_game zero w)))).
Proof.
  intros H. specialize (H nat unit (counting 100) three_lives (fun n => (0, n)) (fun n => (false, n)) (map inject_Z) true usual 9 [0%Z] 0 [2; 3] ltac:(lia) 11). vm_compute in H. lia.
Qed.
(** And it can be the frame that ends the game, which is then asked for one more. *)
Theorem C106_no_step_after_end_refuted : ~ (forall W J (raw : env W (list Z) nat J) lives draw flip warp fire o L zero w acts,
  never_after_end (record (trained (watched raw lives draw flip warp fire o L) acts (new_game zero w)))).
Proof.
  intros H. specialize (H nat unit (counting 7) three_lives (fun n => (0, n)) (fun n => (false, n)) (map inject_Z) true usual 0 [0%Z] 0 [2; 3] 8 3). vm_compute in H. specialize (H _ eq_refl). discriminate.
Qed.

(** The frames of two steps: reset and no-op, four frames of the first action, a life is lost, four no-ops for a reset, four frames of the second action; limit 108000. *)
Example C106_ex : map fst (record (played usual 100 20 [2; 3])) = [CReset; CStep 0] ++ repeat (CStep 2) 4 ++ repeat (CStep 0) 4 ++ repeat (CStep 3) 4 /\ seen (played usual 100 20 [2; 3]) = map (fun z => [inject_Z z]) [9; 9; 9; 13]%Z.
Proof. vm_compute. split; reflexivity. Qed.
(** Without episodic lives the limit of 9 ends the episode after one no-op and two steps of four frames. *)
Example C106_ex' : map fst (record (played plain 100 9 [2; 3; 1])) = [CReset; CStep 0] ++ repeat (CStep 2) 4 ++ repeat (CStep 3) 4 ++ [CReset; CStep 0] ++ repeat (CStep 1) 4.
Proof. vm_compute. reflexivity. Qed.
Print Assumptions C106_step.
Print Assumptions C106_frame_limit.
Print Assumptions C106_frame_limit_refuted.
Print Assumptions C106_no_step_after_end_refuted.
Print Assumptions C106_no_step_after_end_partial.
