(** C113: watching an environment, casting its observations and filtering its actions and rewards changes nothing else. *)
From Coq Require Import Lqa.
From Verif Require Import Base P_Base M_Wrappers M_Watch.
Close Scope Q_scope. Open Scope nat_scope.

(** ** Specification *)
(** What happens when the environment is used directly: every command with its reply and the state after it. *)
Fixpoint history {W Ob A J} (e : env W Ob A J) (w : W) (cmds : list (cmd A)) : list (cmd A * reply Ob J * W) :=
  match cmds with
  | [] => []
  | c :: t => let (w', r) := env_do e w c in (c, r, w') :: history e w' t
  end.
Definition replies {W Ob A J} (h : list (cmd A * reply Ob J * W)) : list (reply Ob J) := map (fun x => snd (fst x)) h.
Definition final {W Ob A J} (w : W) (h : list (cmd A * reply Ob J * W)) : W := last (map snd h) w.
(** The states after the calls that returned. *)
Definition after_call {W Ob A J} (x : cmd A * reply Ob J * W) : list W :=
  match snd (fst x) with RReset (Ok _) | RStep (Ok _) => [snd x] | _ => [] end.
Definition after_step {W Ob A J} (x : cmd A * reply Ob J * W) : list W :=
  match snd (fst x) with RStep (Ok _) => [snd x] | _ => [] end.
(** The observation a reply brings. *)
Definition observed {Ob J} (r : reply Ob J) : list Ob := match r with RReset (Ok o) => [o] | RStep (Ok o) => [o_obs o] | _ => [] end.
(** A reply with another observation, or another reward. *)
Definition with_obs {Ob Ob' J} (f : Ob -> Ob') (r : reply Ob J) : reply Ob' J :=
  match r with
  | RReset (Ok o) => RReset (Ok (f o)) | RReset (Err x) => RReset (Err x)
  | RStep (Ok o) => RStep (Ok (mkOut (f (o_obs o)) (o_rew o) (o_done o) (o_needs o) (o_info o))) | RStep (Err x) => RStep (Err x)
  end.
Definition with_reward {Ob J} (f : Q -> Q) (r : reply Ob J) : reply Ob J :=
  match r with RStep (Ok o) => RStep (Ok (mkOut (o_obs o) (f (o_rew o)) (o_done o) (o_needs o) (o_info o))) | r => r end.
Definition with_action {A A'} (f : A -> A') (c : cmd A) : cmd A' := match c with CReset => CReset | CStep a => CStep (f a) end.

(** ** Lemmas *)
Lemma final_cons {W Ob A J} (w : W) (c : cmd A) (r : reply Ob J) w' h : final w ((c, r, w') :: h) = final w' h.
Proof.
  unfold final. cbn [map snd]. destruct (map snd h) as [|a l] eqn:L; [reflexivity|]. clear. cbn [last]. revert a.
  induction l as [|b l IH]; intros a; [reflexivity|]. exact (IH b).
Qed.
Section Render.
Context {W Ob A J P : Type}.
Variable pic : W -> result P.
Variable picture : W -> P.
Variable e : env W Ob A J.
Hypothesis works : forall w, pic w = Ok (picture w).
Lemma render_do w d c w' r : env_do e w c = (w', r) -> env_do (render pic e) (w, d) c = ((w', d ++ map picture (after_call (c, r, w'))), r).
Proof using works.
  destruct c as [|a]; cbn [env_do render e_reset e_step]; intros E.
  - destruct (e_reset e w) as [w1 [o|x]]; injection E as <- <-; unfold rendering; rewrite ?works; cbn; rewrite ?app_nil_r; reflexivity.
  - destruct (e_step e a w) as [w1 [o|x]]; injection E as <- <-; unfold rendering; rewrite ?works; cbn; rewrite ?app_nil_r; reflexivity.
Qed.
Lemma make_rendered_do w d c w' r : env_do e w c = (w', r) -> env_do (make_rendered pic e) (w, d) c = ((w', d ++ map picture (after_step (c, r, w'))), r).
Proof using works.
  destruct c as [|a]; cbn [env_do make_rendered e_reset e_step]; intros E.
  - destruct (e_reset e w) as [w1 [o|x]]; injection E as <- <-; cbn; rewrite ?app_nil_r; reflexivity.
  - destruct (e_step e a w) as [w1 [o|x]]; injection E as <- <-; unfold rendering; rewrite ?works; cbn; rewrite ?app_nil_r; reflexivity.
Qed.
End Render.

(** ** Theorems *)
(** An environment that can be drawn: using it through Render gives the same replies and leaves the same state as using it directly; every reset and every step that returns is followed
    by one picture, of the state after it, and nothing else is drawn. *)
Theorem C113_render {W Ob A J P} (pic : W -> result P) (picture : W -> P) (e : env W Ob A J) w d cmds : (forall w, pic w = Ok (picture w)) ->
  let h := history e w cmds in
  run (env_do (render pic e)) (w, d) cmds = ((final w h, d ++ map picture (flat_map after_call h)), replies h).
Proof.
  intros works. cbn zeta. revert w d. induction cmds as [|c t IH]; intros w d; [cbn; rewrite app_nil_r; reflexivity|]. cbn [run history].
  destruct (env_do e w c) as [w' r] eqn:E. rewrite (render_do pic picture e works w d c w' r E), IH, final_cons.
  cbn [flat_map replies map fst snd]. rewrite map_app, app_assoc. reflexivity.
Qed.
(** make_rendered: the same, but there is no picture after a reset. *)
Theorem C113_make_rendered {W Ob A J P} (pic : W -> result P) (picture : W -> P) (e : env W Ob A J) w d cmds : (forall w, pic w = Ok (picture w)) ->
  let h := history e w cmds in
  run (env_do (make_rendered pic e)) (w, d) cmds = ((final w h, d ++ map picture (flat_map after_step h)), replies h).
Proof.
  intros works. cbn zeta. revert w d. induction cmds as [|c t IH]; intros w d; [cbn; rewrite app_nil_r; reflexivity|]. cbn [run history].
  destruct (env_do e w c) as [w' r] eqn:E. rewrite (make_rendered_do pic picture e works w d c w' r E), IH, final_cons.
  cbn [flat_map replies map fst snd]. rewrite map_app, app_assoc. reflexivity.
Qed.
(** Even when drawing fails, and whatever the exceptions, the environment goes through the same states. *)
Theorem C113_undisturbed {W Ob A J P} (pic : W -> result P) (e : env W Ob A J) w d cmds :
  fst (fst (run (env_do (render pic e)) (w, d) cmds)) = fst (run (env_do e) w cmds) /\
  fst (fst (run (env_do (make_rendered pic e)) (w, d) cmds)) = fst (run (env_do e) w cmds).
Proof.
  revert w d. assert (G : forall m : env (W * list P) Ob A J, (forall w d c, fst (fst (env_do m (w, d) c)) = fst (env_do e w c)) ->
    forall w d, fst (fst (run (env_do m) (w, d) cmds)) = fst (run (env_do e) w cmds)).
  { intros m H. induction cmds as [|c t IH]; intros w d; [reflexivity|]. cbn [run]. specialize (H w d c). destruct (env_do m (w, d) c) as [[w1 d1] r1].
    destruct (env_do e w c) as [w2 r2]. cbn in H. subst w2. specialize (IH w1 d1). destruct (run (env_do m) (w1, d1) t). destruct (run (env_do e) w1 t). exact IH. }
  intros w d. split; apply G; clear; intros w d [|a]; cbn.
  - destruct (e_reset e w) as [w1 [o|x]]; [unfold rendering; destruct (pic w1)|]; reflexivity.
  - destruct (e_step e a w) as [w1 [o|x]]; [unfold rendering; destruct (pic w1)|]; reflexivity.
  - destruct (e_reset e w) as [w1 r]; reflexivity.
  - destruct (e_step e a w) as [w1 [o|x]]; [unfold rendering; destruct (pic w1)|]; reflexivity.
Qed.
(** close of an environment given to make_rendered closes it exactly when its render accepts close=True without raising; otherwise the environment stays open and the exception is raised. *)
Theorem C113_closing {W} (closing : W -> result unit) (base : W -> W * result unit) w :
  (closing w = Ok tt -> close_rendered closing base w = base w) /\ (forall x, closing w = Err x -> close_rendered closing base w = (w, Err x)).
Proof. unfold close_rendered. split; [intros ->; reflexivity|intros x ->; reflexivity]. Qed.

(** CastObservation: the same replies with every observation cast, the same states, and original_observation is the last observation before the cast. *)
Theorem C113_cast {W Ob Ob' A J} (cast : Ob -> Ob') (e : env W Ob A J) w orig cmds :
  let h := history e w cmds in
  run (env_do (cast_observation cast e)) (w, orig) cmds =
  ((final w h, last (map Some (flat_map observed (replies h))) orig), map (with_obs cast) (replies h)).
Proof.
  cbn zeta. revert w orig. induction cmds as [|c t IH]; intros w orig; [reflexivity|]. cbn [run history].
  destruct (env_do e w c) as [w' r] eqn:E.
  assert (L : forall (T : Type) (o : T) (l : list T) z, last (Some o :: map Some l) z = last (map Some l) (Some o)).
  { intros T o l z. revert o z. induction l as [|b l IHl]; intros o z; [reflexivity|]. cbn [map]. change (last (Some b :: map Some l) z = last (Some b :: map Some l) (Some o)). rewrite !IHl. reflexivity. }
  assert (D : env_do (cast_observation cast e) (w, orig) c = ((w', last (map Some (observed r)) orig), with_obs cast r)).
  { destruct c as [|a]; cbn [env_do cast_observation e_reset e_step] in *.
    - destruct (e_reset e w) as [w1 [o|x]]; injection E as <- <-; reflexivity.
    - destruct (e_step e a w) as [w1 [o|x]]; injection E as <- <-; reflexivity. }
  rewrite D, IH, final_cons. unfold replies. cbn [flat_map map fst snd]. f_equal. f_equal. rewrite map_app.
  destruct r as [[o|x]|[o|x]]; cbn [observed map app last]; try reflexivity; symmetry; apply L.
Qed.

(** make_action_filtered passes the filtered actions on, make_reward_filtered filters the rewards, make_reward_clipped cuts them off at the bounds; nothing else changes. *)
Theorem C113_filters {W Ob A J} (e : env W Ob A J) w :
  (forall A' (f : A' -> A) cmds, run (env_do (make_action_filtered f e)) w cmds = run (env_do e) w (map (with_action f) cmds)) /\
  (forall f cmds, run (env_do (make_reward_filtered f e)) w cmds = (fst (run (env_do e) w cmds), map (with_reward f) (snd (run (env_do e) w cmds)))) /\
  (forall low high, (low <= high)%Q -> exists f, (forall x, (low <= f x <= high)%Q /\ ((low <= x <= high)%Q -> (f x == x)%Q) /\ ((x <= low)%Q -> (f x == low)%Q) /\ ((high <= x)%Q -> (f x == high)%Q)) /\
    forall cmds, run (env_do (make_reward_clipped low high e)) w cmds = (fst (run (env_do e) w cmds), map (with_reward f) (snd (run (env_do e) w cmds)))).
Proof.
  assert (F : forall f cmds w, run (env_do (make_reward_filtered f e)) w cmds = (fst (run (env_do e) w cmds), map (with_reward f) (snd (run (env_do e) w cmds)))).
  { intros f. induction cmds as [|c t IH]; intros v; [reflexivity|]. cbn [run].
    assert (D : env_do (make_reward_filtered f e) v c = (fst (env_do e v c), with_reward f (snd (env_do e v c)))).
    { destruct c as [|a]; cbn [env_do make_reward_filtered e_reset e_step]; [destruct (e_reset e v); reflexivity|]. destruct (e_step e a v) as [v1 [o|x]]; reflexivity. }
    rewrite D. destruct (env_do e v c) as [v1 r]. cbn [fst snd]. rewrite IH. destruct (run (env_do e) v1 t). reflexivity. }
  split; [|split].
  - intros A' f cmds. revert w. induction cmds as [|c t IH]; intros v; [reflexivity|]. cbn [run map].
    replace (env_do (make_action_filtered f e) v c) with (env_do e v (with_action f c)) by (destruct c; reflexivity).
    destruct (env_do e v (with_action f c)) as [v1 r]. rewrite IH. reflexivity.
  - intros f cmds. apply F.
  - intros low high H. exists (np_clip low high). split; [|intros cmds; apply F]. intros x. unfold np_clip.
    destruct (Qle_bool x low) eqn:E1; [apply Qle_bool_iff in E1|assert (~ (x <= low)%Q) by (rewrite <- Qle_bool_iff; congruence)];
    match goal with |- context [Qle_bool high ?y] => destruct (Qle_bool high y) eqn:E2; [apply Qle_bool_iff in E2|assert (~ (high <= y)%Q) by (rewrite <- Qle_bool_iff; congruence)] end;
    repeat split; intros; try destruct H1 as [? ?]; try destruct H0 as [? ?]; try lra; try (apply Qle_antisym; lra).
Qed.
(** Modifiers act in the order in which they were applied: clipping before repeating actions bounds every reward, clipping after it bounds the sum. *)
Example C113_order : exists (e : env nat unit unit unit) w0 w1,
  snd (e_step (action_repeated 2 (make_reward_clipped (-1) 1 e)) tt w0) = Ok (mkOut tt 2 false false tt) /\
  snd (e_step (make_reward_clipped (-1) 1 (action_repeated 2 e)) tt w1) = Ok (mkOut tt 1 false false tt) /\ w0 = w1.
Proof.
  exists (mkEnv (fun w => (w, Ok tt)) (fun _ w => (S w, Ok (mkOut tt 3 false false tt)))), 0, 0. repeat split.
Qed.

(** A corridor: the state is a position, drawn as itself; steps beyond 2 raise. *)
Definition corridor : env nat nat nat unit := mkEnv (fun _ => (0, Ok 0)) (fun a w => if w + a <=? 2 then (w + a, Ok (mkOut (w + a) (inject_Z (Z.of_nat (5 * a))) false false tt)) else (w, Err ValueError)).
Example C113_case : run (env_do (render (@Ok nat) corridor)) (7, []) [CReset; CStep 1; CStep 9; CStep 1] =
    ((2, [0; 1; 2]), [RReset (Ok 0); RStep (Ok (mkOut 1 5 false false tt)); RStep (Err ValueError); RStep (Ok (mkOut 2 5 false false tt))]) /\
  fst (run (env_do (make_rendered (@Ok nat) corridor)) (7, []) [CReset; CStep 1; CStep 9; CStep 1]) = (2, [1; 2]) /\
  snd (run (env_do (make_reward_clipped (-1) 2 corridor)) 7 [CReset; CStep 1]) = [RReset (Ok 0); RStep (Ok (mkOut 1 2 false false tt))] /\
  run (env_do (cast_observation (fun n => inject_Z (Z.of_nat n)) corridor)) (7, None) [CReset; CStep 2] = ((2, Some 2), [RReset (Ok 0%Q); RStep (Ok (mkOut 2%Q 10 false false tt))]) /\
  run (env_do (make_action_filtered S corridor)) 7 [CReset; CStep 0] = (1, [RReset (Ok 0); RStep (Ok (mkOut 1 5 false false tt))]).
Proof. repeat split. Qed.

Print Assumptions C113_render.
Print Assumptions C113_make_rendered.
Print Assumptions C113_undisturbed.
Print Assumptions C113_closing.
Print Assumptions C113_cast.
Print Assumptions C113_filters.
