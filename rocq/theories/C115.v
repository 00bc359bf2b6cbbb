(** C115: pruning with Optuna. *)
From Verif Require Import Base P_Base M_Train S_Train P_Train P_TrainBatch M_Evaluator S_Evaluator P_Evaluator M_TrainEval S_TrainEval C102 M_Pruner.
From Coq Require Import ZifyBool ZifyNat Sorted.
Open Scope nat_scope.

(** ** Specification *)
(** The evaluations in the record of a run that returned: step and mean score. *)
Definition evaluations (rs : list (nat * nat * option Q)) : list (nat * Q) := flat_map (fun x => match snd x with Some m => [(fst (fst x), m)] | None => [] end) rs.
(** No report so far made the trial say that it should be pruned. *)
Definition unpruned (decide : list (nat * Q) -> bool) (l : list (nat * Q)) : Prop := forall a b, l = a ++ b -> a <> [] -> decide a = false.

Section Pruning.
Context {W : Type} (reports : W -> list (nat * Q)) (decide : list (nat * Q) -> bool) (report : Q -> nat -> W -> W) (should_prune : W -> bool) (pruned : exn).
Notation hook := (optuna_hook report should_prune pruned).
(** The trial remembers what it was told, and decides on that. *)
Definition trial : Prop := (forall m t w, reports (report m t w) = reports w ++ [(t, m)]) /\ forall w, should_prune w = decide (reports w).
Notation untouched := (keeps_call reports).
Context (HT : trial) (hs1 hs2 : list (ehook W)) (K1 : Forall (fun h => forall t q, untouched (h_call h t q)) hs1) (K2 : Forall (fun h => forall t q, untouched (h_call h t q)) hs2).
Notation hooks := (hs1 ++ hook :: hs2).

Lemma other_hooks hs t m : Forall (fun h => forall t q, untouched (h_call h t q)) hs -> forall i w, reports (fst (fst (ev_run_hooks i (map h_call hs) t m w))) = reports w.
Proof using. intros F i w. apply (keeps_hooks reports). induction F; constructor; auto. Qed.
Lemma ev_run_app (a b : list (nat -> Q -> W -> W * result unit)) t m : forall i w, ev_run_hooks i (a ++ b) t m w =
  match ev_run_hooks i a t m w with
  | (w, es, Ok _) => let '(w, es', r) := ev_run_hooks (i + length a) b t m w in (w, es ++ es', r)
  | (w, es, Err e) => (w, es, Err e)
  end.
Proof using.
  induction a as [|h a IH]; intros i w; cbn [app ev_run_hooks length]; [rewrite Nat.add_0_r; destruct (ev_run_hooks i b t m w) as [[? ?] ?]; reflexivity|].
  destruct (h t m w) as [w1 [u|e]]; [|reflexivity]. rewrite IH. destruct (ev_run_hooks (S i) a t m w1) as [[w2 es2] [u2|e2]]; [|reflexivity].
  replace (i + S (length a)) with (S i + length a) by lia. destruct (ev_run_hooks (S i + length a) b t m w2) as [[w3 es3] r3]. reflexivity.
Qed.
Lemma run_hooks_reports t m i w w' es r : ev_run_hooks i (map h_call hooks) t m w = (w', es, r) ->
  match r with
  | Ok _ => reports w' = reports w ++ [(t, m)] /\ decide (reports w') = false
  | Err e => reports w' = reports w \/ (reports w' = reports w ++ [(t, m)] /\ (decide (reports w') = true -> e = pruned))
  end.
Proof using HT K1 K2.
  destruct HT as [T1 T2]. rewrite map_app. cbn [map]. rewrite ev_run_app. pose proof (other_hooks hs1 t m K1 i w) as E1. destruct (ev_run_hooks i (map h_call hs1) t m w) as [[w1 es1] [u1|e1]]; cbn [fst] in E1.
  - cbn [ev_run_hooks optuna_hook h_call]. set (w2 := report m t w1). assert (E2 : reports w2 = reports w ++ [(t, m)]) by (unfold w2; now rewrite T1, E1). rewrite T2. destruct (decide (reports w2)) eqn:D.
    + intros H. injection H as <- <- <-. right. auto.
    + pose proof (other_hooks hs2 t m K2 (S (i + length (map h_call hs1))) w2) as E3. destruct (ev_run_hooks (S (i + length (map h_call hs1))) (map h_call hs2) t m w2) as [[w3 es3] [u3|e3]]; cbn [fst] in E3; intros H; injection H as <- <- <-.
      * rewrite E3, E2 in *. auto.
      * right. rewrite E3, <- E2. split; [reflexivity|]. congruence.
  - intros H. injection H as <- <- <-. now left.
Qed.

(** What one request to the evaluator does to the trial. *)
Lemma consult_reports sc EP t ep ws ws' r : untouched sc -> consult (mkEv sc (map h_call hooks)) EP t ep ws = (ws', r) ->
  match r with
  | Ok None => reports (fst ws') = reports (fst ws)
  | Ok (Some m) => reports (fst ws') = reports (fst ws) ++ [(t, m)] /\ decide (reports (fst ws')) = false
  | Err e => reports (fst ws') = reports (fst ws) \/ exists m, reports (fst ws') = reports (fst ws) ++ [(t, m)] /\ (decide (reports (fst ws')) = true -> e = pruned)
  end.
Proof using HT K1 K2.
  intros KS. unfold consult, evaluate_if_necessary. destruct (_ <=? t); [|intros H; injection H as <- <-; reflexivity].
  unfold evaluate_and_update. cbn [ev_scores ev_hooks]. specialize (KS (fst ws)). destruct (sc (fst ws)) as [w1 [l|e]]; cbn [fst] in KS; [|intros H; injection H as <- <-; now left].
  destruct (mean_of l) as [m|e]; [|intros H; injection H as <- <-; now left].
  destruct (ev_run_hooks 0 (map h_call hooks) t m w1) as [[w2 es] [u|e]] eqn:E; pose proof (run_hooks_reports _ _ _ _ _ _ _ E) as R; rewrite KS in R.
  - destruct (negb _); intros H; injection H as <- <-; exact R.
  - intros H. injection H as <- <-. cbn [fst]. destruct R as [R|R]; [now left|right; eauto].
Qed.

(** ** Programs: reports grow with the evaluations *)
Context {E : Type} (req : E -> list (nat * nat * option Q)).
Notation evs := (fun tr => evaluations (flat_map req tr)).
Lemma evs_app a b : evs (a ++ b) = evs a ++ evs b.
Proof using. unfold evaluations. now rewrite !flat_map_app. Qed.
Definition told {X} (s s' : W * evstate * nat) (tr : list E) (r : result X) : Prop :=
  let l := reports (fst (fst s)) in let l' := reports (fst (fst s')) in
  (l' = l ++ evs tr /\ unpruned decide l') \/
  exists e pre v t ep q, r = Err e /\ tr = pre ++ [v] /\ req v = [(t, ep, None)] /\ l' = l ++ evs pre ++ [(t, q)] /\ unpruned decide (l ++ evs pre) /\ (decide l' = true -> e = pruned) /\ snd s' = t.
(** [T]: the value of t if it stays the same during the program. *)
Definition at_t (T : option nat) (s : W * evstate * nat) : Prop := match T with Some t => snd s = t | None => True end.
Definition tells (T : option nat) {X} (m : @prog (W * evstate) E X) : Prop := forall s s' tr r, at_t T s -> unpruned decide (reports (fst (fst s))) -> m s = (s', tr, r) -> told s s' tr r /\ at_t T s'.
Lemma tells_quiet T {X} (m : @prog (W * evstate) E X) : (forall s s' tr r, at_t T s -> m s = (s', tr, r) -> reports (fst (fst s')) = reports (fst (fst s)) /\ evs tr = [] /\ at_t T s') -> tells T m.
Proof using. intros H s s' tr r A U Em. destruct (H _ _ _ _ A Em) as (E1 & E2 & A'). split; [|exact A']. left. rewrite E1, E2. now rewrite app_nil_r. Qed.
Lemma tells_ret T {X} (x : X) : tells T (pret x).
Proof using. apply tells_quiet. intros s s' tr r A H. injection H as <- <- _. auto. Qed.
Lemma tells_get_w T : tells T pget_w.
Proof using. apply tells_quiet. intros s s' tr r A H. injection H as <- <- _. auto. Qed.
Lemma tells_pget T : tells T pget_t.
Proof using. apply tells_quiet. intros s s' tr r A H. injection H as <- <- _. auto. Qed.
Lemma tells_set_t t : tells None (pset_t t).
Proof using. apply tells_quiet. intros s s' tr r A H. injection H as <- <- _. cbn. auto. Qed.
Lemma tells_emit T v : req v = [] -> tells T (pemit v).
Proof using. intros R. apply tells_quiet. intros s s' tr r A H. injection H as <- <- _. cbn. rewrite R. auto. Qed.
Lemma tells_err T {X} e : tells T (fun s => (s, [], Err e) : _ * _ * result X).
Proof using. apply tells_quiet. intros s s' tr r A H. injection H as <- <- _. auto. Qed.
Lemma tells_call T {X} (v : result X -> E) (f : W -> W * result X) : (forall r, req (v r) = []) -> untouched f -> tells T (pcall v (lift f)).
Proof using.
  intros R K. apply tells_quiet. intros s s' tr r A H. unfold pcall, lift in H. specialize (K (fst (fst s))). destruct (f (fst (fst s))) as (w, y). injection H as <- <- <-. cbn in *. rewrite R. auto.
Qed.
Lemma told_app {X Y} s s1 s2 tr1 tr2 (x : X) (r : result Y) : told s s1 tr1 (Ok x) -> (unpruned decide (reports (fst (fst s1))) -> told s1 s2 tr2 r) -> told s s2 (tr1 ++ tr2) r.
Proof using.
  intros [[A1 A2]|(? & ? & ? & ? & ? & ? & C & _)] B; [|discriminate]. unfold told in *. cbn zeta in *. destruct (B A2) as [[B1 B2]|(e & pre & v & t & ep & q & B1 & B2 & B3 & B4 & B5 & B6 & B7)].
  - left. rewrite evs_app, app_assoc, <- A1. auto.
  - right. exists e, (tr1 ++ pre), v, t, ep, q. rewrite evs_app. repeat match goal with |- _ /\ _ => split end; auto.
    + rewrite B2. now rewrite app_assoc.
    + rewrite <- (app_assoc (evs tr1)), app_assoc, <- A1. exact B4.
    + rewrite app_assoc, <- A1. exact B5.
Qed.
Lemma tells_bind T {X Y} (m : @prog (W * evstate) E X) (k : X -> prog Y) : tells T m -> (forall x, tells T (k x)) -> tells T (pbind m k).
Proof using.
  intros M K s s' tr r A U H. unfold pbind in H. destruct (m s) as ((s1, l1), [x|e]) eqn:E1; destruct (M _ _ _ _ A U E1) as [M1 M2].
  - destruct (k x s1) as ((s2, l2), r2) eqn:E2. injection H as <- <- <-. split.
    + eapply told_app; [exact M1|]. intros U1. exact (proj1 (K x _ _ _ _ M2 U1 E2)).
    + destruct M1 as [[_ U1]|(? & ? & ? & ? & ? & ? & C & _)]; [|discriminate]. exact (proj2 (K x _ _ _ _ M2 U1 E2)).
  - injection H as <- <- <-. split; [|exact M2]. destruct M1 as [M1|(e' & pre & v & t & ep & q & A1 & A2)]; [now left|right]. injection A1 as <-. exists e, pre, v, t, ep, q. auto.
Qed.
Lemma tells_get_t {Y} (k : nat -> prog Y) : (forall t, tells (Some t) (k t)) -> tells None (pbind pget_t k).
Proof using.
  intros K s s' tr r _ U H. unfold pbind, pget_t in H. destruct (k (snd s) s) as [[s1 l1] r1] eqn:E1. injection H as <- <- <-. split; [exact (proj1 (K (snd s) s _ _ _ eq_refl U E1))|exact I].
Qed.
Lemma tells_tick {Y} (k : nat -> prog Y) : (forall t, tells (Some (S t)) (k t)) -> tells None (pbind pget_t (fun t => pbind (pset_t (S t)) (fun _ => k t))).
Proof using.
  intros K s s' tr r _ U H. unfold pbind, pget_t, pset_t in H. destruct (k (snd s) (fst s, S (snd s))) as [[s1 l1] r1] eqn:E1. injection H as <- <- <-. split; [exact (proj1 (K (snd s) (fst s, S (snd s)) _ _ _ eq_refl U E1))|exact I].
Qed.
Lemma unpruned_snoc l x : unpruned decide l -> decide (l ++ [x]) = false -> unpruned decide (l ++ [x]).
Proof using.
  intros U D a b H N. destruct b as [|y b _] using rev_ind.
  - rewrite app_nil_r in H. now rewrite <- H.
  - rewrite app_assoc in H. apply app_inj_tail in H. destruct H as [H _]. exact (U a b H N).
Qed.
Lemma tells_consult sc EP v t ep : untouched sc -> (forall s, req (v s) = [(t, ep, match s with Ok o => o | Err _ => None end)]) -> tells (Some t) (pcall v (consult (mkEv sc (map h_call hooks)) EP t ep)).
Proof using HT K1 K2.
  intros KS R s0 s' tr r Et U H. unfold pcall in H. destruct (consult _ EP t ep (fst s0)) as [ws' r'] eqn:C. pose proof (consult_reports _ _ _ _ _ _ _ KS C) as Q. injection H as <- <- <-. split; [|exact Et].
  unfold told. cbn zeta. cbn [fst snd]. destruct r' as [[m|]|e].
  - left. destruct Q as [Q1 Q2]. unfold evaluations. cbn [flat_map]. rewrite R. cbn. split; [exact Q1|]. rewrite Q1 in *. now apply unpruned_snoc.
  - left. unfold evaluations. cbn [flat_map]. rewrite R. cbn. rewrite app_nil_r. rewrite Q. auto.
  - destruct Q as [Q|(m & Q1 & Q2)].
    + left. unfold evaluations. cbn [flat_map]. rewrite R. cbn. rewrite app_nil_r, Q. auto.
    + right. exists e, [], (v (Err e)), t, ep, m. rewrite R. cbn [flat_map evaluations app]. rewrite app_nil_r. repeat match goal with |- _ /\ _ => split end; auto.
Qed.
End Pruning.

(** ** train_agent *)
Section Train.
Context {W Ob A : Type} (reports : W -> list (nat * Q)) (decide : list (nat * Q) -> bool) (report : Q -> nat -> W -> W) (should_prune : W -> bool) (pruned : exn).
Notation untouched := (keeps_call reports).
Context (HT : trial reports decide report should_prune) (hs1 hs2 : list (ehook W)) (K1 : Forall (fun h => forall t q, untouched (h_call h t q)) hs1) (K2 : Forall (fun h => forall t q, untouched (h_call h t q)) hs2).
Context (sc : W -> W * result (list Q)) (KS : untouched sc).
Section One.
Context (U : userland W Ob A) (P : train_args) (EP : evargs).
Context (Q1 : untouched (env_reset U)) (Q2 : forall o, untouched (agent_act U o)) (Q3 : forall a, untouched (env_step U a)) (Q4 : forall o r d b, untouched (agent_observe U o r d b)) (Q5 : Forall (fun h => forall t, untouched (h t)) (step_hooks U)).
Notation V := (with_evaluator U (mkEv sc (map h_call (hs1 ++ optuna_hook report should_prune pruned :: hs2))) EP).
Notation ok := (tells reports decide pruned req1).
Lemma tells_hooks T t : forall hs i, Forall (fun h => forall t, untouched (h t)) hs -> ok T (run_hooks i (map (fun h t => lift (h t)) hs) t).
Proof using. induction hs as [|h hs IH]; intros i F; cbn [map run_hooks]; [apply tells_ret|]. inversion F; subst. apply tells_bind; [apply tells_call; auto|]. intros _. now apply IH. Qed.
Lemma tells_body l : ok None (train_body V P l).
Proof using HT K1 K2 KS Q1 Q2 Q3 Q4 Q5.
  unfold train_body. apply tells_bind; [apply tells_call; [reflexivity|apply Q2]|]. intros a. apply tells_bind; [apply tells_call; [intros [[[[? ?] ?] ?]|]; reflexivity|apply Q3]|]. intros [[[obs r] d] nr].
  apply tells_tick. intros t. cbv zeta.
  apply tells_bind; [apply tells_call; [reflexivity|apply Q4]|]. intros _. apply tells_bind; [now apply tells_hooks|]. intros _. apply tells_bind.
  - unfold eval_block. cbn [with_evaluator evaluator]. destruct (_ || a_eval_during_episode P); [|apply tells_ret].
    apply tells_bind; [eapply tells_consult; eauto; intros [[?|]|]; reflexivity|]. intros s. apply tells_bind; [apply tells_get_w|]. intros w. apply tells_ret.
  - intros [hist brk]. destruct brk; [apply tells_ret|]. unfold next_block. destruct (_ && (_ =? _)); [apply tells_ret|]. apply tells_bind.
    + destruct (_ || _); [|apply tells_ret]. apply tells_bind; [apply tells_call; [reflexivity|apply Q1]|]. intros o. apply tells_ret.
    + intros l'. apply tells_bind; [|intros _; apply tells_ret]. destruct (checkpoint_due _ _); [now apply tells_emit|apply tells_ret].
Qed.
Lemma tells_loop : forall fuel l, ok None (train_loop V P fuel l).
Proof using HT K1 K2 KS Q1 Q2 Q3 Q4 Q5.
  induction fuel as [|fuel IH]; intros l; cbn [train_loop].
  - intros s s' tr r _ Un H. unfold pbind, pget_t in H. destruct (snd s <? a_steps P); [refine (tells_err reports decide pruned req1 None OutOfFuel s s' tr r I Un _)|refine (tells_ret reports decide pruned req1 None l s s' tr r I Un _)]; exact H.
  - intros s s' tr r _ Un H. unfold pbind at 1 in H. unfold pget_t in H. destruct (snd s <? a_steps P).
    + assert (B : ok None ('(brk, l) <-- train_body V P l;;; if brk then pret l else train_loop V P fuel l)) by (apply tells_bind; [apply tells_body|]; intros [brk l']; destruct brk; [apply tells_ret|apply IH]).
      destruct (('(brk, l) <-- train_body V P l;;; if brk then pret l else train_loop V P fuel l) s) as [[s1 l1] r1] eqn:E. injection H as <- <- <-. exact (B _ _ _ _ I Un E).
    + injection H as <- <- <-. apply (tells_ret reports decide pruned req1 None l s _ _ _ I Un eq_refl).
Qed.
Lemma train_told w s0 t0 s' tr r : reports w = [] -> train_agent V P (w, s0, t0) = (s', tr, r) ->
  (reports (fst (fst s')) = evaluations (requests tr) /\ unpruned decide (reports (fst (fst s')))) \/
  exists e pre t ep q, r = Err e /\ tr = pre ++ [EEval t ep None; ESave t Except] /\ reports (fst (fst s')) = evaluations (requests pre) ++ [(t, q)] /\ unpruned decide (evaluations (requests pre)) /\ (decide (reports (fst (fst s'))) = true -> e = pruned).
Proof using HT K1 K2 KS Q1 Q2 Q3 Q4 Q5.
  intros R0 H. assert (Un : unpruned decide (reports w)) by (rewrite R0; intros a b Hh N; symmetry in Hh; apply app_eq_nil in Hh; now destruct Hh).
  unfold train_agent in H.
  assert (PRE : forall (k : Ob -> prog (list Q)) (Hk : forall o s s' tr r, unpruned decide (reports (fst (fst s))) -> k o s = (s', tr, r) ->
      (reports (fst (fst s')) = reports (fst (fst s)) ++ evaluations (requests tr) /\ unpruned decide (reports (fst (fst s')))) \/
      exists e pre t ep q, r = Err e /\ tr = pre ++ [EEval t ep None; ESave t Except] /\ reports (fst (fst s')) = reports (fst (fst s)) ++ evaluations (requests pre) ++ [(t, q)] /\ unpruned decide (reports (fst (fst s)) ++ evaluations (requests pre)) /\ (decide (reports (fst (fst s'))) = true -> e = pruned)),
      (obs <-- pcall (fun _ => EReset) (env_reset V) ;;; k obs) (w, s0, t0) = (s', tr, r) ->
      (reports (fst (fst s')) = evaluations (requests tr) /\ unpruned decide (reports (fst (fst s')))) \/
      exists e pre t ep q, r = Err e /\ tr = pre ++ [EEval t ep None; ESave t Except] /\ reports (fst (fst s')) = evaluations (requests pre) ++ [(t, q)] /\ unpruned decide (evaluations (requests pre)) /\ (decide (reports (fst (fst s'))) = true -> e = pruned)).
  { clear H. intros k Hk H. unfold pbind, pcall in H. cbn [with_evaluator env_reset] in H. unfold lift in H. cbn [fst snd] in H. pose proof (Q1 w) as Q. destruct (env_reset U w) as [w1 [o|e]]; cbn [fst] in Q.
    - destruct (k o (w1, s0, t0)) as [[s2 l2] r2] eqn:E2. injection H as <- <- <-. assert (Un1 : unpruned decide (reports w1)) by (rewrite Q; exact Un). destruct (Hk o (w1, s0, t0) _ _ _ Un1 E2) as [[B1 B2]|(e & pre & t & ep & q & B1 & B2 & B3 & B4 & B5)].
      + left. cbn [fst] in B1. rewrite Q, R0 in B1. auto.
      + right. cbn [fst] in B3, B4. rewrite Q, R0 in B3, B4. exists e, (EReset :: pre), t, ep, q. rewrite B2. auto.
    - injection H as <- <- <-. left. cbn [fst]. rewrite Q, R0 in *. auto. }
  refine (PRE _ _ H). clear PRE H s' tr r. intros o s s' tr r Us H.
  unfold pbind at 1 in H. unfold pset_t in H. unfold pbind in H.
  assert (L : forall s1 tr1 r1, (match train_loop V P (a_steps P - a_offset P) (mkLoc o 0 0 []) (fst s, a_offset P) with
    | (s1, l1, Ok l) => (s1, l1 ++ [ESave (snd s1) Finish], Ok (l_hist l)) | (s1, l1, Err e) => (s1, l1 ++ [ESave (snd s1) Except], Err e) end) = (s1, tr1, r1) ->
      (reports (fst (fst s1)) = reports (fst (fst s)) ++ evaluations (requests tr1) /\ unpruned decide (reports (fst (fst s1)))) \/
      exists e pre t ep q, r1 = Err e /\ tr1 = pre ++ [EEval t ep None; ESave t Except] /\ reports (fst (fst s1)) = reports (fst (fst s)) ++ evaluations (requests pre) ++ [(t, q)] /\ unpruned decide (reports (fst (fst s)) ++ evaluations (requests pre)) /\ (decide (reports (fst (fst s1))) = true -> e = pruned)).
  { intros s1 tr1 r1 H1. destruct (train_loop V P _ _ (fst s, a_offset P)) as [[s2 l2] r2] eqn:E2. destruct (proj1 (tells_loop _ _ (fst s, a_offset P) _ _ _ I Us E2)) as [[B1 B2]|(e & pre & v & t & ep & q & B1 & B2 & B3 & B4 & B5 & B6 & B7)].
    - assert (RQ : forall x y, evaluations (requests (l2 ++ [ESave x y])) = evaluations (requests l2)) by (intros x y; unfold requests; rewrite flat_map_app; cbn; now rewrite app_nil_r).
      left. destruct r2; injection H1 as <- <- <-; rewrite RQ; auto.
    - right. subst r2. injection H1 as <- <- <-. destruct v; try discriminate B3. injection B3 as -> -> ->. exists e, pre, t, ep, q. rewrite B2, B7. split; [reflexivity|]. split; [now rewrite <- app_assoc|]. auto. }
  cbn [with_evaluator agent_has_t] in H. destruct (agent_has_t U); unfold pemit, pret in H; cbn [fst snd] in H;
    match type of L with forall s1 tr1 r1, ?m = _ -> _ => destruct m as [[s1 tr1] r1] eqn:E1 end; injection H as <- <- <-; destruct (L _ _ _ eq_refl) as [B|(e & pre & t & ep & q & B1 & B2 & B3)]; [left; exact B|right|left; exact B|right].
  - exists e, (ESetT (a_offset P) :: pre), t, ep, q. rewrite B2. auto.
  - exists e, pre, t, ep, q. rewrite B2. auto.
Qed.
End One.

Section Many.
Context (U : buserland W Ob A) (P : train_args) (EP : evargs).
Context (Q1 : forall m, untouched (benv_reset U m)) (Q2 : forall o, untouched (batch_act U o)) (Q3 : forall a, untouched (benv_step U a)) (Q4 : forall o r d b, untouched (batch_observe U o r d b)) (Q5 : Forall (fun h => forall t, untouched (h t)) (bstep_hooks U)).
Notation V := (with_bevaluator U (mkEv sc (map h_call (hs1 ++ optuna_hook report should_prune pruned :: hs2))) EP).
Notation ok := (tells reports decide pruned req2).
Lemma btells_hooks T t : forall hs i, Forall (fun h => forall t, untouched (h t)) hs -> ok T (brun_hooks i (map (fun h t => lift (h t)) hs) t).
Proof using. induction hs as [|h hs IH]; intros i F; cbn [map brun_hooks]; [apply tells_ret|]. inversion F; subst. apply tells_bind; [apply tells_call; auto|]. intros _. now apply IH. Qed.
Lemma btells_ticks : forall n, ok None (tick_block V P n).
Proof using Q5.
  induction n as [|n IH]; cbn [tick_block]; [apply tells_ret|]. apply tells_bind; [apply tells_pget|]. intros t. apply tells_bind; [apply tells_set_t|]. intros _.
  apply tells_bind; [destruct (checkpoint_due _ _); [now apply tells_emit|apply tells_ret]|]. intros _. apply tells_bind; [now apply btells_hooks|]. intros _. exact IH.
Qed.
Lemma btells_body l : ok None (batch_body V P l).
Proof using HT K1 K2 KS Q1 Q2 Q3 Q4 Q5.
  unfold batch_body. apply tells_bind; [apply tells_call; [reflexivity|apply Q2]|]. intros a. apply tells_bind; [apply tells_call; [reflexivity|apply Q3]|]. intros outs. cbv zeta.
  apply tells_bind; [apply tells_call; [reflexivity|apply Q4]|]. intros _. apply tells_bind; [apply btells_ticks|]. intros _. apply tells_get_t. intros t. apply tells_bind.
  - unfold beval_block. cbn [with_bevaluator bevaluator]. apply tells_bind; [eapply tells_consult; eauto; intros [[?|]|]; reflexivity|]. intros [s|]; [|apply tells_ret]. apply tells_bind; [apply tells_get_w|]. intros w. apply tells_ret.
  - intros [hist brk]. destruct brk; [apply tells_ret|]. destruct (a_steps P <=? t); [apply tells_ret|]. apply tells_bind; [apply tells_call; [reflexivity|apply Q1]|]. intros o. apply tells_ret.
Qed.
Lemma btells_loop : forall fuel l, ok None (batch_loop V P fuel l).
Proof using HT K1 K2 KS Q1 Q2 Q3 Q4 Q5.
  induction fuel as [|fuel IH]; intros l; cbn [batch_loop]; [apply tells_err|]. apply tells_bind; [apply btells_body|]. intros [brk l']. destruct brk; [apply tells_ret|apply IH].
Qed.
Lemma btrain_told w s0 t0 s' tr r : reports w = [] -> train_agent_batch V P (w, s0, t0) = (s', tr, r) ->
  (reports (fst (fst s')) = evaluations (brequests tr) /\ unpruned decide (reports (fst (fst s')))) \/
  exists e pre t ep q, r = Err e /\ tr = pre ++ [BEval t ep None; BSave t Except; BClose] /\ reports (fst (fst s')) = evaluations (brequests pre) ++ [(t, q)] /\ unpruned decide (evaluations (brequests pre)) /\ (decide (reports (fst (fst s'))) = true -> e = pruned).
Proof using HT K1 K2 KS Q1 Q2 Q3 Q4 Q5.
  intros R0 H. assert (Un : unpruned decide (reports w)) by (rewrite R0; intros a b Hh N; symmetry in Hh; apply app_eq_nil in Hh; now destruct Hh).
  unfold train_agent_batch in H.
  assert (PRE : forall (k : list Ob -> prog (list Q)) (Hk : forall o s s' tr r, unpruned decide (reports (fst (fst s))) -> k o s = (s', tr, r) ->
      (reports (fst (fst s')) = reports (fst (fst s)) ++ evaluations (brequests tr) /\ unpruned decide (reports (fst (fst s')))) \/
      exists e pre t ep q, r = Err e /\ tr = pre ++ [BEval t ep None; BSave t Except; BClose] /\ reports (fst (fst s')) = reports (fst (fst s)) ++ evaluations (brequests pre) ++ [(t, q)] /\ unpruned decide (reports (fst (fst s)) ++ evaluations (brequests pre)) /\ (decide (reports (fst (fst s'))) = true -> e = pruned)),
      (obs <-- pcall (fun _ => BReset None) (benv_reset V None) ;;; k obs) (w, s0, t0) = (s', tr, r) ->
      (reports (fst (fst s')) = evaluations (brequests tr) /\ unpruned decide (reports (fst (fst s')))) \/
      exists e pre t ep q, r = Err e /\ tr = pre ++ [BEval t ep None; BSave t Except; BClose] /\ reports (fst (fst s')) = evaluations (brequests pre) ++ [(t, q)] /\ unpruned decide (evaluations (brequests pre)) /\ (decide (reports (fst (fst s'))) = true -> e = pruned)).
  { clear H. intros k Hk H. unfold pbind, pcall in H. cbn [with_bevaluator benv_reset] in H. unfold lift in H. cbn [fst snd] in H. pose proof (Q1 None w) as Q. destruct (benv_reset U None w) as [w1 [o|e]]; cbn [fst] in Q.
    - destruct (k o (w1, s0, t0)) as [[s2 l2] r2] eqn:E2. injection H as <- <- <-. assert (Un1 : unpruned decide (reports w1)) by (rewrite Q; exact Un). destruct (Hk o (w1, s0, t0) _ _ _ Un1 E2) as [[B1 B2]|(e & pre & t & ep & q & B1 & B2 & B3 & B4 & B5)].
      + left. cbn [fst] in B1. rewrite Q, R0 in B1. auto.
      + right. cbn [fst] in B3, B4. rewrite Q, R0 in B3, B4. exists e, (BReset None :: pre), t, ep, q. rewrite B2. auto.
    - injection H as <- <- <-. left. cbn [fst]. rewrite Q, R0 in *. auto. }
  refine (PRE _ _ H). clear PRE H s' tr r. intros o s s' tr r Us H.
  unfold pbind at 1 in H. unfold pset_t in H. unfold pbind in H.
  assert (L : forall s1 tr1 r1, (match batch_loop V P (S (a_steps P - a_offset P)) (mkBLoc o (repeat 0 (num_envs V)) 0 []) (fst s, a_offset P) with
    | (s1, l1, Ok l) => (s1, l1 ++ [BSave (snd s1) Finish], Ok (bl_hist l)) | (s1, l1, Err e) => (s1, l1 ++ [BSave (snd s1) Except; BClose], Err e) end) = (s1, tr1, r1) ->
      (reports (fst (fst s1)) = reports (fst (fst s)) ++ evaluations (brequests tr1) /\ unpruned decide (reports (fst (fst s1)))) \/
      exists e pre t ep q, r1 = Err e /\ tr1 = pre ++ [BEval t ep None; BSave t Except; BClose] /\ reports (fst (fst s1)) = reports (fst (fst s)) ++ evaluations (brequests pre) ++ [(t, q)] /\ unpruned decide (reports (fst (fst s)) ++ evaluations (brequests pre)) /\ (decide (reports (fst (fst s1))) = true -> e = pruned)).
  { intros s1 tr1 r1 H1. destruct (batch_loop V P _ _ (fst s, a_offset P)) as [[s2 l2] r2] eqn:E2. destruct (proj1 (btells_loop _ _ (fst s, a_offset P) _ _ _ I Us E2)) as [[B1 B2]|(e & pre & v & t & ep & q & B1 & B2 & B3 & B4 & B5 & B6 & B7)].
    - assert (RQ : forall x y, evaluations (brequests (l2 ++ [BSave x y])) = evaluations (brequests l2)) by (intros x y; unfold brequests; rewrite flat_map_app; cbn; now rewrite app_nil_r).
      assert (RQ2 : forall x y, evaluations (brequests (l2 ++ [BSave x y; BClose])) = evaluations (brequests l2)) by (intros x y; unfold brequests; rewrite flat_map_app; cbn; now rewrite app_nil_r).
      left. destruct r2; injection H1 as <- <- <-; rewrite ?RQ, ?RQ2; auto.
    - right. subst r2. injection H1 as <- <- <-. destruct v; try discriminate B3. injection B3 as -> -> ->. exists e, pre, t, ep, q. rewrite B2, B7. split; [reflexivity|]. split; [now rewrite <- app_assoc|]. auto. }
  cbn [with_bevaluator bagent_has_t] in H. destruct (bagent_has_t U); unfold pemit, pret in H; cbn [fst snd] in H;
    match type of L with forall s1 tr1 r1, ?m = _ -> _ => destruct m as [[s1 tr1] r1] eqn:E1 end; injection H as <- <- <-; destruct (L _ _ _ eq_refl) as [B|(e & pre & t & ep & q & B1 & B2 & B3)]; [left; exact B|right|left; exact B|right].
  - exists e, (BSetT (a_offset P) :: pre), t, ep, q. rewrite B2. auto.
  - exists e, pre, t, ep, q. rewrite B2. auto.
Qed.
End Many.
End Train.

(** ** The properties *)
Definition calls_untouched {W Ob A} (reports : W -> list (nat * Q)) (U : userland W Ob A) : Prop :=
  keeps_call reports (env_reset U) /\ (forall o, keeps_call reports (agent_act U o)) /\ (forall a, keeps_call reports (env_step U a)) /\ (forall o r d b, keeps_call reports (agent_observe U o r d b)) /\
  Forall (fun h => forall t, keeps_call reports (h t)) (step_hooks U).
Definition bcalls_untouched {W Ob A} (reports : W -> list (nat * Q)) (U : buserland W Ob A) : Prop :=
  (forall m, keeps_call reports (benv_reset U m)) /\ (forall o, keeps_call reports (batch_act U o)) /\ (forall a, keeps_call reports (benv_step U a)) /\ (forall o r d b, keeps_call reports (batch_observe U o r d b)) /\
  Forall (fun h => forall t, keeps_call reports (h t)) (bstep_hooks U).

(** train_agent_with_evaluation with the pruner among its evaluation hooks, for a new trial.  The user's environments, agent and other hooks do not touch the trial (the evaluation environment and the agent
    in evaluation mode are gathered in [V]).
    If training returns, the trial was told the step and the mean score of every evaluation, in order, and never wanted to be pruned.  If the trial wants to be pruned after some report, training ends right
    there: TrialPruned is raised after saving the agent, and the trial hears nothing more. *)
Theorem C115_pruning {W Ob A} (reports : W -> list (nat * Q)) decide report should_prune pruned (U V : userland W Ob A) P EA hs1 hs2 (separate : bool) fuel w t0 w' tr r :
  trial reports decide report should_prune -> Forall (fun h => forall t q, keeps_call reports (h_call h t q)) (hs1 ++ hs2) -> calls_untouched reports U -> calls_untouched reports V -> reports w = [] ->
  train_agent_with_evaluation U P EA (hs1 ++ optuna_hook report should_prune pruned :: hs2) (agent_act V) (agent_observe V) (if separate then Some (env_reset V, env_step V) else None) fuel w t0 = (w', tr, r) ->
  (forall hist, r = Ok hist -> reports w' = evaluations (requests tr) /\ map snd (reports w') = hist /\ unpruned decide (reports w')) /\
  (forall e, r = Err e -> (reports w' = evaluations (requests tr) /\ unpruned decide (reports w')) \/
     exists pre t ep q, tr = pre ++ [EEval t ep None; ESave t Except] /\ reports w' = evaluations (requests pre) ++ [(t, q)] /\ unpruned decide (evaluations (requests pre)) /\ (decide (reports w') = true -> e = pruned)) /\
  (forall l x rest, reports w' = l ++ x :: rest -> decide (l ++ [x]) = true -> rest = [] /\ r = Err pruned).
Proof.
  intros HT F (Q1 & Q2 & Q3 & Q4 & Q5) (V1 & V2 & V3 & V4 & V5) R0 H. apply Forall_app in F. destruct F as [K1 K2].
  assert (M : (reports w' = evaluations (requests tr) /\ unpruned decide (reports w')) \/
    exists e pre t ep q, r = Err e /\ tr = pre ++ [EEval t ep None; ESave t Except] /\ reports w' = evaluations (requests pre) ++ [(t, q)] /\ unpruned decide (evaluations (requests pre)) /\ (decide (reports w') = true -> e = pruned)).
  { assert (Z : reports w = [] /\ unpruned decide (reports w)) by (split; [exact R0|]; rewrite R0; intros a b Hh N; symmetry in Hh; apply app_eq_nil in Hh; now destruct Hh).
    unfold train_agent_with_evaluation in H. destruct (negb _); [injection H as <- <- <-; left; exact Z|]. match type of H with (if ?b then _ else _) = _ => destruct b end; [injection H as <- <- <-; left; exact Z|].
    destruct (eval_mode EA) as [m|]; [|injection H as <- <- <-; left; exact Z]. destruct (evaluator_init _) as [s0|]; [|injection H as <- <- <-; left; exact Z]. set (ee := if separate then _ else _) in *.
    assert (KS : keeps_call reports (scores U P EA (agent_act V) (agent_observe V) ee fuel m)).
    { intros w1. unfold scores. pose proof (keeps_run reports (eval_user U (agent_act V) (agent_observe V) ee) m (eval_len P EA) fuel) as K.
      specialize (K ltac:(destruct separate; assumption) ltac:(assumption) ltac:(destruct separate; assumption) ltac:(assumption) (w1, 0)). destruct (run_episodes _ m _ fuel (w1, 0)) as ((s, l), r1). exact K. }
    destruct (train_agent _ P (w, s0, t0)) as [[s1 tr1] r1] eqn:E. injection H as <- <- <-. exact (train_told reports decide report should_prune pruned HT hs1 hs2 K1 K2 _ KS U P _ Q1 Q2 Q3 Q4 Q5 _ _ _ _ _ _ R0 E). }
  split; [|split].
  - intros hist ->. destruct M as [[M1 M2]|(? & ? & ? & ? & ? & C & _)]; [|discriminate]. split; [exact M1|]. split; [|exact M2]. destruct (C102_schedule _ _ _ _ _ _ _ _ _ _ _ _ _ H) as (_ & _ & -> & _).
    rewrite M1. unfold evaluations, scored. clear. induction (requests tr) as [|[[t ep] [q|]] rs IH]; cbn; congruence.
  - intros e ->. destruct M as [M|(e' & pre & t & ep & q & C & M)]; [now left|right]. injection C as <-. exists pre, t, ep, q. exact M.
  - intros l x rest E D. destruct M as [[_ M2]|(e & pre & t & ep & q & -> & _ & M3 & M4 & M5)].
    + rewrite (M2 (l ++ [x]) rest) in D; [discriminate| |now destruct l]. now rewrite E, <- app_assoc.
    + destruct rest as [|y rest _] using rev_ind.
      * split; [reflexivity|]. f_equal. apply M5. now rewrite E.
      * exfalso. rewrite M3 in E. change (x :: rest ++ [y]) with ((x :: rest) ++ [y]) in E. rewrite app_assoc in E. apply app_inj_tail in E. destruct E as [E _]. rewrite (M4 (l ++ [x]) rest) in D; [discriminate| |now destruct l]. now rewrite E, <- app_assoc.
Qed.
(** The same for several environments; they are closed after the agent was saved. *)
Theorem C115_batch_pruning {W Ob A} (reports : W -> list (nat * Q)) decide report should_prune pruned (U V : buserland W Ob A) P EA hs1 hs2 (separate : bool) fuel w t0 w' tr r :
  trial reports decide report should_prune -> Forall (fun h => forall t q, keeps_call reports (h_call h t q)) (hs1 ++ hs2) -> bcalls_untouched reports U -> bcalls_untouched reports V -> reports w = [] ->
  train_agent_batch_with_evaluation U P EA (hs1 ++ optuna_hook report should_prune pruned :: hs2) (batch_act V) (batch_observe V) (if separate then Some (num_envs V, benv_reset V, benv_step V) else None) fuel w t0 = (w', tr, r) ->
  (forall hist, r = Ok hist -> reports w' = evaluations (brequests tr) /\ unpruned decide (reports w')) /\
  (forall e, r = Err e -> (reports w' = evaluations (brequests tr) /\ unpruned decide (reports w')) \/
     exists pre t ep q, tr = pre ++ [BEval t ep None; BSave t Except; BClose] /\ reports w' = evaluations (brequests pre) ++ [(t, q)] /\ unpruned decide (evaluations (brequests pre)) /\ (decide (reports w') = true -> e = pruned)) /\
  (forall l x rest, reports w' = l ++ x :: rest -> decide (l ++ [x]) = true -> rest = [] /\ r = Err pruned).
Proof.
  intros HT F (Q1 & Q2 & Q3 & Q4 & Q5) (V1 & V2 & V3 & V4 & V5) R0 H. apply Forall_app in F. destruct F as [K1 K2].
  assert (M : (reports w' = evaluations (brequests tr) /\ unpruned decide (reports w')) \/
    exists e pre t ep q, r = Err e /\ tr = pre ++ [BEval t ep None; BSave t Except; BClose] /\ reports w' = evaluations (brequests pre) ++ [(t, q)] /\ unpruned decide (evaluations (brequests pre)) /\ (decide (reports w') = true -> e = pruned)).
  { assert (Z : reports w = [] /\ unpruned decide (reports w)) by (split; [exact R0|]; rewrite R0; intros a b Hh N; symmetry in Hh; apply app_eq_nil in Hh; now destruct Hh).
    unfold train_agent_batch_with_evaluation in H. destruct (negb _); [injection H as <- <- <-; left; exact Z|].
    destruct (eval_mode EA) as [m|]; [|injection H as <- <- <-; left; exact Z]. destruct (evaluator_init _) as [s0|]; [|injection H as <- <- <-; left; exact Z]. set (ee := if separate then _ else _) in *.
    assert (KS : keeps_call reports (bscores U P EA (batch_act V) (batch_observe V) ee fuel m)).
    { intros w1. unfold bscores. pose proof (keeps_brun reports (beval_user U (batch_act V) (batch_observe V) ee) m (eval_len P EA) fuel) as K.
      specialize (K ltac:(destruct separate; assumption) ltac:(assumption) ltac:(destruct separate; assumption) ltac:(assumption) (w1, 0)). destruct (batch_run_episodes _ m _ fuel (w1, 0)) as ((s, l), r1). exact K. }
    destruct (train_agent_batch _ P (w, s0, t0)) as [[s1 tr1] r1] eqn:E. injection H as <- <- <-. exact (btrain_told reports decide report should_prune pruned HT hs1 hs2 K1 K2 _ KS U P _ Q1 Q2 Q3 Q4 Q5 _ _ _ _ _ _ R0 E). }
  split; [|split].
  - intros hist ->. destruct M as [M|(? & ? & ? & ? & ? & C & _)]; [exact M|discriminate].
  - intros e ->. destruct M as [M|(e' & pre & t & ep & q & C & M)]; [now left|right]. injection C as <-. exists pre, t, ep, q. exact M.
  - intros l x rest E D. destruct M as [[_ M2]|(e & pre & t & ep & q & -> & _ & M3 & M4 & M5)].
    + rewrite (M2 (l ++ [x]) rest) in D; [discriminate| |now destruct l]. now rewrite E, <- app_assoc.
    + destruct rest as [|y rest _] using rev_ind.
      * split; [reflexivity|]. f_equal. apply M5. now rewrite E.
      * exfalso. rewrite M3 in E. change (x :: rest ++ [y]) with ((x :: rest) ++ [y]) in E. rewrite app_assoc in E. apply app_inj_tail in E. destruct E as [E _]. rewrite (M4 (l ++ [x]) rest) in D; [discriminate| |now destruct l]. now rewrite E, <- app_assoc.
Qed.

(** No step is reported twice, and the steps increase. *)
Theorem C115_steps {W Ob A} (reports : W -> list (nat * Q)) decide report should_prune pruned (U V : userland W Ob A) P EA hs1 hs2 (separate : bool) fuel w t0 w' tr hist :
  trial reports decide report should_prune -> Forall (fun h => forall t q, keeps_call reports (h_call h t q)) (hs1 ++ hs2) -> calls_untouched reports U -> calls_untouched reports V -> reports w = [] ->
  train_agent_with_evaluation U P EA (hs1 ++ optuna_hook report should_prune pruned :: hs2) (agent_act V) (agent_observe V) (if separate then Some (env_reset V, env_step V) else None) fuel w t0 = (w', tr, Ok hist) ->
  StronglySorted lt (a_offset P :: map fst (reports w')).
Proof.
  intros HT F KU KV R0 H. destruct (C115_pruning _ _ _ _ _ _ _ _ _ _ _ _ _ _ _ _ _ _ HT F KU KV R0 H) as [C _]. destruct (C hist eq_refl) as (-> & _ & _). destruct (C102_schedule _ _ _ _ _ _ _ _ _ _ _ _ _ H) as (_ & S & _ & _ & _).
  set (I := e_interval EA) in *. clearbody I.
  assert (G : forall rs bs, (forall pre t ep s post, rs = pre ++ (t, ep, s) :: post -> (s <> None <-> forall b, In b (bs ++ map at_time pre) -> b / I < t / I)) ->
    StronglySorted lt (map fst (evaluations rs)) /\ Forall (fun t => Forall (fun b => b < t) bs) (map fst (evaluations rs))).
  { clear. assert (DL : forall a b, a / I < b / I -> a < b) by (intros a b Hd; destruct (Nat.lt_ge_cases a b) as [|G]; [assumption|]; destruct (Nat.eq_dec I 0) as [->|N]; [cbn in Hd; lia|]; pose proof (Nat.div_le_mono b a I N G); lia).
    induction rs as [|[[t ep] s] rs IH]; intros bs H; [split; constructor|].
    destruct (IH (bs ++ [t])) as [A1 A2]. { intros pre t' ep' s' post E. specialize (H ((t, ep, s) :: pre) t' ep' s' post). rewrite E in H. specialize (H eq_refl). rewrite <- app_assoc. exact H. }
    assert (A3 : Forall (fun x => Forall (fun b => b < x) bs) (map fst (evaluations rs))) by (eapply Forall_impl; [|exact A2]; cbn; intros x Hx; now apply Forall_app in Hx).
    destruct s as [m|]; [|exact (conj A1 A3)]. change (evaluations ((t, ep, Some m) :: rs)) with ((t, m) :: evaluations rs). cbn [map fst]. split.
    - constructor; [exact A1|]. eapply Forall_impl; [|exact A2]. cbn. intros x Hx. apply Forall_app in Hx. destruct Hx as [_ Hx]. now inversion Hx.
    - constructor; [|exact A3]. apply Forall_forall. intros b Hb. apply DL. destruct (H [] t ep (Some m) rs eq_refl) as [H1 _]. apply H1; [discriminate|]. cbn. rewrite app_nil_r. exact Hb. }
  destruct (G (requests tr) [a_offset P]) as [G1 G2]; [exact S|]. constructor; [exact G1|]. eapply Forall_impl; [|exact G2]. cbn. intros t Ht. now inversion Ht.
Qed.

(** The evaluation that prunes the trial is recorded in scores.txt; but even if its score is the best so far, the best agent is not saved: the hooks are called before. *)
Definition C115_hook : ehook (list (nat * Q)) := optuna_hook (fun m t l => l ++ [(t, m)]) (fun l => 2 <=? length l) RuntimeError.
Definition C115_ev : evuser (list (nat * Q)) := mkEv (fun l => (l, Ok [inject_Z (Z.of_nat (length l))])) [h_call C115_hook].
Theorem C115_best_agent_refuted :
  let P := mkEvArgs 10 0 true in
  exists s0 s1 s2 m,
    evaluator_init P = Ok s0 /\
    evaluate_if_necessary C115_ev P s0 [] 10 1 = (s1, [(10, 0%Q)], [VRow 10 1 0%Q; VHook 0 10 0%Q; VBest], Ok (Some 0%Q)) /\
    evaluate_if_necessary C115_ev P s1 [(10, 0%Q)] 20 2 = (s2, [(10, 0%Q); (20, m)], [VRow 20 2 m; VHook 0 20 m], Err RuntimeError) /\
    (0 < m)%Q /\ es_max s2 = 0%Q.
Proof. cbv zeta. eexists _, _, _, _. split; [reflexivity|]. split; [vm_compute; reflexivity|]. split; [vm_compute; reflexivity|]. split; reflexivity. Qed.

(** Episodes of three steps, evaluations every 4 steps, training of 30 steps.  The trial wants to be pruned after the third report. *)
Definition C115_world : Type := w1 * list (nat * Q).
Definition C115_user : userland C115_world nat nat := {|
  env_reset := lift (env_reset count_env1); agent_act := fun o => lift (agent_act count_env1 o); env_step := fun a => lift (env_step count_env1 a);
  agent_observe := fun o r d b => lift (agent_observe count_env1 o r d b); step_hooks := []; evaluator := None; max_score := fun _ => 0%Q; agent_has_t := false |}.
Definition C115_report (m : Q) (t : nat) (w : C115_world) : C115_world := (fst w, snd w ++ [(t, m)]).
Definition C115_run n := train_agent_with_evaluation C115_user (mkArgs 30 0 None None None false) (mkEvalArgs None (Some 1) 4 (Some 2) true)
  ([mkEHook true true (fun _ _ w => (w, Ok tt))] ++ optuna_hook C115_report (fun w => n <=? length (snd w)) RuntimeError :: []) (agent_act C115_user) (agent_observe C115_user) None 10 ((0, []), []) 0.
Example C115_ex :
  trial snd (fun l => 3 <=? length l) C115_report (fun w => 3 <=? length (snd w)) /\ calls_untouched snd C115_user /\
  snd (fst (fst (C115_run 3))) = [(6, 2%Q); (9, 2%Q); (12, 2%Q)] /\ snd (C115_run 3) = Err RuntimeError /\
  firstn 2 (rev (snd (fst (C115_run 3)))) = [ESave 12 Except; EEval 12 4 None] /\
  map fst (snd (fst (fst (C115_run 10)))) = [6; 9; 12; 18; 21; 24; 30] /\ is_ok (snd (C115_run 10)) = true.
Proof.
  split; [split; reflexivity|]. split; [unfold calls_untouched, keeps_call; repeat split; auto; constructor|]. vm_compute. repeat split.
Qed.
Print Assumptions C115_pruning.
Print Assumptions C115_batch_pruning.
Print Assumptions C115_steps.
Print Assumptions C115_best_agent_refuted.
