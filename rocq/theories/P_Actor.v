(** Proofs for C89: the invariant of actor-learner communication. *)
From Verif Require Import Base P_Base M_Actor S_Actor.
From Coq Require Import QArith.
Close Scope Q_scope.
Open Scope nat_scope.

Section Proofs.
Context {Ob Ac RS : Type} (rec : bool).
Notation call := (@call Ob Ac RS).
Notation bufop := (@bufop Ob Ac RS).
Notation world := (@world Ob Ac RS).
Notation msg := (@msg Ob Ac RS).

(** The state due after a record. *)
Fixpoint due (i : nat) (mode : bool) (cur : option RS) (cs : list call) : option RS :=
  match cs with
  | [] => cur
  | CAct j m _ s s' _ :: cs => due i mode (if (j =? i) && Bool.eqb m mode then Some s' else cur) cs
  | CObserve j m _ _ done reset :: cs =>
      due i mode (if (j =? i) && Bool.eqb m mode && (done || reset) then None else cur) cs
  | CAnswer _ _ _ :: cs => due i mode cur cs
  end.
Lemma due_app i m : forall cs cur cs', due i m cur (cs ++ cs') = due i m (due i m cur cs) cs'.
Proof.
  induction cs as [|c cs IH]; intros cur cs'; [reflexivity|].
  destruct c; cbn [due app]; apply IH.
Qed.
Lemma carries_app i m : forall cs cur cs', carries i m cur cs -> carries i m (due i m cur cs) cs' -> carries i m cur (cs ++ cs').
Proof.
  induction cs as [|c cs IH]; intros cur cs' A B; [exact B|].
  destruct c; cbn [due app carries] in *.
  - destruct ((i0 =? i) && Bool.eqb training m); [destruct A as [A1 A2]; split; [exact A1|]|]; apply IH; assumption.
  - apply IH; assumption.
  - apply IH; assumption.
Qed.

Lemma owed_app i (cs : list call) c : owed rec i (cs ++ [c]) = owes rec i (owed rec i cs) c.
Proof. unfold owed. rewrite fold_left_app. reflexivity. Qed.
Lemma ops_for_app i (a b : list bufop) : ops_for i (a ++ b) = ops_for i a ++ ops_for i b.
Proof. apply filter_app. Qed.
Lemma appends_app (a b : list bufop) : appends (a ++ b) = appends a + appends b.
Proof. unfold appends. rewrite filter_app, app_length. reflexivity. Qed.
Lemma appends_for i (l : list bufop) : appends (ops_for i l) <= appends l.
Proof.
  unfold appends, ops_for. induction l as [|o l IH]; [auto|]. cbn [filter].
  destruct (env_of o =? i); cbn [filter]; destruct (is_append o); cbn [length]; lia.
Qed.

Definition data1 (i : nat) (m : msg) : list bufop :=
  match m with MTransition t => [BAppend i t] | MStopEpisode => [BStop i] | _ => [] end.
Definition data (i : nat) (out : list msg) : list bufop := flat_map (data1 i) out.
Lemma data_app i (a b : list msg) : data i (a ++ b) = data i a ++ data i b.
Proof. apply flat_map_app. Qed.
Definition is_trans (m : msg) : Prop := match m with MTransition _ => True | _ => False end.
Definition req (k : @wait Ob Ac RS) : msg := match k with WObserve => MStopEpisode | WRequest m => m end.

(** The invariant for actor [i]. *)
Record inv1 (l : learner) (i : nat) (nd : node) (cs : list call) : Prop := mkInv1 {
  i_owed : forall p ops, owed rec i cs = Some (p, ops) ->
      match p with
      | Some (o, u, s, s') =>
          ac_last_state (nd_actor nd) = Some o /\ ac_last_action (nd_actor nd) = Some u /\
          (rec = true -> ac_prev (nd_actor nd) = s /\ ac_train (nd_actor nd) = Some s')
      | None => True
      end /\
      exists rest, ops_for i (lr_ops l) ++ rest = ops /\ (lr_exn l = false -> rest = data i (nd_out nd));
  i_wait : match nd_wait nd with
      | None => nd_in nd = [] /\ Forall is_trans (nd_out nd)
      | Some k =>
          (match k with WRequest m => is_request m = true | WObserve => forall p ops, owed rec i cs = Some (p, ops) -> p = None end) /\
          ((nd_in nd = [] /\ exists pre, nd_out nd = pre ++ [req k] /\ Forall is_trans pre) \/
           (nd_in nd = [] /\ nd_out nd = [] /\ lr_exn l = true) \/
           (exists r, nd_in nd = [r] /\ nd_out nd = [] /\
              (k = WRequest MGetStatistics -> exists c, r = RStats c /\ forall p ops, owed rec i cs = Some (p, ops) -> appends ops <= c)))
      end;
  i_due : rec = true ->
      due i true None cs = (match nd_wait nd with Some WObserve => None | _ => ac_train (nd_actor nd) end) /\
      due i false None cs = ac_test (nd_actor nd);
  i_never : ac_last_state (nd_actor nd) = None \/ ac_last_action (nd_actor nd) = None -> rec = true -> due i true None cs = None;
  i_carry : rec = true -> forall m, carries i m None cs }.

Definition answered (cs : list call) : Prop := forall cs1 cs2 i r, cs = cs1 ++ CAnswer i MGetStatistics r :: cs2 ->
  exists c, r = RStats c /\ forall p ops, owed rec i cs1 = Some (p, ops) -> appends ops <= c.

Record inv (n : nat) (w : world) (cs : list call) : Prop := mkInv {
  v_len : length (snd w) = n;
  v_steps : lr_steps (fst w) = appends (lr_ops (fst w));
  v_env : Forall (fun o => env_of o < n) (lr_ops (fst w));
  v_ans : answered cs;
  v_node : forall i nd, nth_error (snd w) i = Some nd -> inv1 (fst w) i nd cs }.

(** A call on one actor means nothing for the others. *)
Definition who (c : call) : nat := match c with CAct i _ _ _ _ _ | CObserve i _ _ _ _ _ | CAnswer i _ _ => i end.
Lemma owes_other i st c : who c <> i -> owes rec i st c = st.
Proof.
  intros N. destruct st as [[p ops]|]; [|reflexivity]. destruct c as [j [] | j [] | j]; cbn in *; auto;
    destruct (Nat.eqb_spec j i); auto; contradiction.
Qed.
Lemma due_other i m cur c : who c <> i -> due i m cur [c] = cur.
Proof. intros N. destruct c; cbn in *; auto; destruct (Nat.eqb_spec i0 i); auto; contradiction. Qed.
Lemma carries_other i m cur c : who c <> i -> carries i m cur [c].
Proof. intros N. destruct c; cbn in *; auto; destruct (Nat.eqb_spec i0 i); cbn; auto; contradiction. Qed.

Lemma inv1_other l i nd cs c : who c <> i -> inv1 l i nd cs -> inv1 l i nd (cs ++ [c]).
Proof.
  intros N [A B C D E]. split.
  - intros p ops. rewrite owed_app, owes_other by exact N. apply A.
  - destruct (nd_wait nd) as [k|]; [|exact B]. destruct B as [B0 B].
    split; [destruct k; [intros p ops; rewrite owed_app, owes_other by exact N; apply B0|exact B0]|].
    destruct B as [B|[B|(r & B1 & B2 & B3)]]; auto.
    right; right. exists r. repeat split; auto. intros K. destruct (B3 K) as (x & X1 & X2). exists x. split; [exact X1|].
    intros p ops. rewrite owed_app, owes_other by exact N. apply X2.
  - intros R. rewrite !due_app, !due_other by exact N. auto.
  - rewrite due_app, due_other by exact N. auto.
  - intros R m. apply carries_app; [auto|apply carries_other, N].
Qed.

(** The learner's buffer growing by calls for another environment, or the event being set. *)
Lemma inv1_ext l l' i nd cs extra :
  lr_ops l' = lr_ops l ++ extra -> ops_for i extra = [] -> (lr_exn l' = false -> lr_exn l = false) ->
  inv1 l i nd cs -> inv1 l' i nd cs.
Proof.
  intros H1 H2 H3 [A B C D E]. split; auto.
  - intros p ops O. destruct (A p ops O) as [A1 (rest & A2 & A3)]. split; [exact A1|]. exists rest.
    rewrite H1, ops_for_app, H2, app_nil_r. auto.
  - destruct (nd_wait nd); [|exact B]. destruct B as [B0 B]. split; [exact B0|].
    destruct B as [B|[(B1 & B2 & B3)|B]]; auto.
    right; left. repeat split; auto. destruct (lr_exn l') eqn:X; [reflexivity|]. rewrite H3 in B3; [discriminate|reflexivity].
Qed.

Lemma answered_app cs c : answered cs -> (forall i r, c = CAnswer i MGetStatistics r -> exists k, r = RStats k /\ forall p ops, owed rec i cs = Some (p, ops) -> appends ops <= k) ->
  answered (cs ++ [c]).
Proof.
  intros H K cs1 cs2 i r E. destruct cs2 as [|x cs2] using rev_ind.
  - apply app_inj_tail in E. destruct E as [-> ->]. apply K. reflexivity.
  - rewrite app_comm_cons, app_assoc in E. apply app_inj_tail in E. destruct E as [E _]. exact (H _ _ _ _ E).
Qed.

Lemma inv_set n l ns l' i nd nd' cs c extra :
  inv n (l, ns) cs -> nth_error ns i = Some nd -> who c = i ->
  l' = l -> extra = tt ->
  inv1 l i nd' (cs ++ [c]) ->
  (forall r, c = CAnswer i MGetStatistics r -> exists k, r = RStats k /\ forall p ops, owed rec i cs = Some (p, ops) -> appends ops <= k) ->
  inv n (l', list_set ns i nd') (cs ++ [c]).
Proof.
  intros [L S V W N] E <- -> -> I K. cbn [fst snd] in *. split; cbn [fst snd]; auto.
  - rewrite list_set_length. exact L.
  - apply answered_app; [exact W|]. intros j r ->. apply K. reflexivity.
  - intros j x. rewrite nth_error_list_set. destruct (Nat.eqb_spec j (who c)) as [->|D].
    + destruct (_ <? _) eqn:Y; cbn; [injection 1 as <-; exact I|].
      apply Nat.ltb_ge in Y. intros X. apply nth_error_None in Y. congruence.
    + cbn. intros X. apply inv1_other; auto.
Qed.

Lemma inv_quiet n l ns l' i nd nd' cs :
  inv n (l, ns) cs -> nth_error ns i = Some nd -> inv1 l' i nd' cs ->
  lr_steps l' = appends (lr_ops l') -> Forall (fun o => env_of o < n) (lr_ops l') ->
  (exists extra, lr_ops l' = lr_ops l ++ extra /\ forall j, j <> i -> ops_for j extra = []) ->
  (lr_exn l' = false -> lr_exn l = false) ->
  inv n (l', list_set ns i nd') cs.
Proof.
  intros [L S V W N] E I S' V' (extra & X1 & X2) X3. cbn [fst snd] in *. split; cbn [fst snd]; auto.
  - rewrite list_set_length. exact L.
  - intros j x. rewrite nth_error_list_set. destruct (Nat.eqb_spec j i) as [->|D].
    + destruct (_ <? _) eqn:Y; cbn; [injection 1 as <-; exact I|].
      apply Nat.ltb_ge in Y. intros X. apply nth_error_None in Y. congruence.
    + cbn. intros X. eapply inv1_ext; eauto.
Qed.

Lemma step_ok n w cs e : inv n w cs -> inv n (fst (step rec w e)) (cs ++ snd (step rec w e)).
Proof.
  intros IV. destruct w as [l ns]. pose proof (v_node _ _ _ IV) as N. cbn [fst snd] in N.
  destruct e as [i obs net expl | i obs r done reset | i b | i m | i | i raise | ]; cbn [step].
  - (* act *)
    destruct (nth_error ns i) as [[a out inn [k|]]|] eqn:E; cbn [fst snd]; rewrite ?app_nil_r; auto.
    unfold act. destruct (net _) as [g s'] eqn:Enet.
    specialize (N i _ E). destruct N as [A B C D F]. cbn [nd_wait nd_actor nd_in nd_out] in *.
    destruct (ac_training a) eqn:T; cbn [fst snd].
    + eapply (inv_set n l ns l i); eauto; [|discriminate].
      split; cbn [nd_wait nd_actor nd_in nd_out ac_last_state ac_last_action ac_prev ac_train ac_test].
      * intros p ops. rewrite owed_app. destruct (owed rec i cs) as [[p0 ops0]|] eqn:O; cbn [owes]; [|discriminate].
        rewrite Nat.eqb_refl. injection 1 as <- <-. destruct (A p0 ops0 eq_refl) as [_ A2]. split; [|exact A2].
        repeat split; auto; destruct rec; auto; discriminate.
      * exact B.
      * intros R. rewrite !due_app. cbn. rewrite Nat.eqb_refl. cbn. rewrite R. destruct (C R) as [_ C2]. auto.
      * intros [X|X]; discriminate.
      * intros R m. apply carries_app; [auto|]. cbn. rewrite Nat.eqb_refl. destruct (C R) as [C1 C2].
        destruct m; cbn; auto. split; auto. rewrite R. auto.
    + eapply (inv_set n l ns l i); eauto; [|discriminate].
      split; cbn [nd_wait nd_actor nd_in nd_out ac_last_state ac_last_action ac_prev ac_train ac_test].
      * intros p ops. rewrite owed_app. destruct (owed rec i cs) as [[p0 ops0]|] eqn:O; cbn [owes]; [|discriminate]. apply A.
      * exact B.
      * intros R. rewrite !due_app. cbn. rewrite Nat.eqb_refl. cbn. rewrite R. destruct (C R) as [C1 _]. auto.
      * intros X R. rewrite due_app. cbn. rewrite Nat.eqb_refl. cbn. apply D; auto.
      * intros R m. apply carries_app; [auto|]. cbn. rewrite Nat.eqb_refl. destruct (C R) as [C1 C2].
        destruct m; cbn; auto. split; auto. rewrite R. auto.
  - (* observe *)
    destruct (nth_error ns i) as [[a out inn [k|]]|] eqn:E; cbn [fst snd]; rewrite ?app_nil_r; auto.
    unfold observe. specialize (N i _ E). destruct N as [A B C D F]. cbn [nd_wait nd_actor nd_in nd_out] in *.
    destruct (ac_training a) eqn:T.
    + destruct (ac_last_state a) as [o|] eqn:LS; [destruct (ac_last_action a) as [u|] eqn:LA|].
      * cbn [fst snd]. eapply (inv_set n l ns l i); eauto; [|discriminate].
        split; cbn [nd_wait nd_actor nd_in nd_out ac_last_state ac_last_action ac_prev ac_train ac_test].
        -- intros p ops. rewrite owed_app. destruct (owed rec i cs) as [[p0 ops0]|] eqn:O; cbn [owes]; [|discriminate].
           rewrite Nat.eqb_refl. destruct (A p0 ops0 eq_refl) as [A1 (rest & A2 & A3)].
           destruct p0 as [[[[o0 u0] s0] s1]|]; [|discriminate]. injection 1 as <- <-. split; [exact I|].
           exists (rest ++ BAppend i (mkTr o u r obs done (if rec then Some (ac_prev a, ac_train a) else None)) :: (if done || reset then [BStop i] else [])).
           destruct A1 as (X1 & X2 & X3). injection X1 as ->. injection X2 as ->.
           split.
           ++ rewrite app_assoc, A2. f_equal. f_equal. f_equal. f_equal. destruct rec; auto. destruct X3 as [-> ->]; auto.
           ++ intros Q. rewrite data_app, <- (A3 Q). f_equal. cbn. f_equal. destruct (done || reset); reflexivity.
        -- destruct B as [B1 B2]. destruct (done || reset); (split; [|]); auto.
           ++ intros p ops. rewrite owed_app. destruct (owed rec i cs) as [[[[[[? ?] ?] ?]|] ?]|]; cbn [owes]; rewrite ?Nat.eqb_refl; try discriminate.
              injection 1 as <- _. reflexivity.
           ++ left. split; [exact B1|]. exists (out ++ [MTransition (mkTr o u r obs done (if rec then Some (ac_prev a, ac_train a) else None))]).
              split; [rewrite <- app_assoc; reflexivity|]. apply Forall_app. split; [exact B2|]. repeat constructor.
           ++ apply Forall_app. split; [exact B2|]. repeat constructor.
        -- intros R. rewrite !due_app. cbn. rewrite Nat.eqb_refl. cbn. destruct (C R) as [C1 C2]. rewrite C1.
           destruct (done || reset); auto.
        -- intros [X|X]; discriminate.
        -- intros R m. apply carries_app; [auto|]. exact I.
      * cbn [fst snd]. eapply (inv_set n l ns l i); eauto; [|discriminate].
        split; cbn [nd_wait nd_actor nd_in nd_out ac_last_state ac_last_action ac_prev ac_train ac_test].
        -- intros p ops. rewrite owed_app. destruct (owed rec i cs) as [[p0 ops0]|] eqn:O; cbn [owes]; [|discriminate].
           rewrite Nat.eqb_refl. destruct (A p0 ops0 eq_refl) as [A1 _].
           destruct p0 as [[[[o0 u0] s0] s1]|]; [|discriminate]. destruct A1 as (_ & X & _). discriminate.
        -- exact B.
        -- intros R. rewrite !due_app. cbn. rewrite Nat.eqb_refl. cbn. destruct (C R) as [C1 C2].
           rewrite C1. split; auto. destruct (done || reset); auto. rewrite <- C1. symmetry. apply D; auto.
        -- intros _ R. rewrite due_app, (D (or_intror eq_refl) R). cbn. destruct (_ && _); reflexivity.
        -- intros R m. apply carries_app; [auto|]. exact I.
      * assert (EQ : (match ac_last_action a with Some _ => Err AssertionError | None => Err AssertionError end) = (Err AssertionError : result (list msg * bool))) by (destruct (ac_last_action a); reflexivity).
        cbn [fst snd]. eapply (inv_set n l ns l i); eauto; [|discriminate].
        split; cbn [nd_wait nd_actor nd_in nd_out ac_last_state ac_last_action ac_prev ac_train ac_test].
        -- intros p ops. rewrite owed_app. destruct (owed rec i cs) as [[p0 ops0]|] eqn:O; cbn [owes]; [|discriminate].
           rewrite Nat.eqb_refl. destruct (A p0 ops0 eq_refl) as [A1 _].
           destruct p0 as [[[[o0 u0] s0] s1]|]; [|discriminate]. destruct A1 as (X & _ & _). discriminate.
        -- exact B.
        -- intros R. rewrite !due_app. cbn. rewrite Nat.eqb_refl. cbn. destruct (C R) as [C1 C2].
           rewrite C1. split; auto. destruct (done || reset); auto. rewrite <- C1. symmetry. apply D; auto.
        -- intros _ R. rewrite due_app, (D (or_introl eq_refl) R). cbn. destruct (_ && _); reflexivity.
        -- intros R m. apply carries_app; [auto|]. exact I.
    + cbn [fst snd]. rewrite app_nil_r. eapply (inv_set n l ns l i); eauto; [|discriminate].
      split; cbn [nd_wait nd_actor nd_in nd_out ac_last_state ac_last_action ac_prev ac_train ac_test].
      * intros p ops. rewrite owed_app. destruct (owed rec i cs) as [[p0 ops0]|] eqn:O; cbn [owes]; [|discriminate]. apply A.
      * exact B.
      * intros R. rewrite !due_app. cbn. rewrite Nat.eqb_refl. cbn. destruct (C R) as [C1 C2]. rewrite C1, C2, R.
        destruct (done || reset); auto.
      * intros X R. rewrite due_app. cbn. rewrite Nat.eqb_refl. cbn. apply D; auto.
      * intros R m. apply carries_app; [auto|]. exact I.
  - (* mode *)
    destruct (nth_error ns i) as [[a out inn [k|]]|] eqn:E; cbn [fst snd]; rewrite ?app_nil_r; auto.
    pose proof (N i _ E) as [A B C D F]. cbn [nd_wait nd_actor nd_in nd_out] in *.
    eapply inv_quiet; eauto.
    + split; cbn [nd_wait nd_actor nd_in nd_out ac_last_state ac_last_action ac_prev ac_train ac_test]; auto.
    + exact (v_steps _ _ _ IV). + exact (v_env _ _ _ IV).
    + exists []. rewrite app_nil_r. auto.
  - (* request *)
    destruct (nth_error ns i) as [[a out inn [k|]]|] eqn:E; cbn [fst snd]; rewrite ?app_nil_r; auto.
    destruct (is_request m) eqn:M; cbn [fst snd]; rewrite ?app_nil_r; auto.
    pose proof (N i _ E) as [A B C D F]. cbn [nd_wait nd_actor nd_in nd_out] in *.
    eapply inv_quiet; eauto.
    + split; cbn [nd_wait nd_actor nd_in nd_out ac_last_state ac_last_action ac_prev ac_train ac_test]; auto.
      * intros p ops O. destruct (A p ops O) as [A1 (rest & A2 & A3)]. split; auto. exists rest. split; auto.
        intros Q. rewrite (A3 Q), data_app. destruct m; try discriminate; cbn; rewrite app_nil_r; reflexivity.
      * destruct B as [B1 B2]. split; [exact M|]. left. split; auto. exists out. auto.
    + exact (v_steps _ _ _ IV). + exact (v_env _ _ _ IV).
    + exists []. rewrite app_nil_r. auto.
  - (* recv *)
    destruct (nth_error ns i) as [[a out [|r inn] [k|]]|] eqn:E; cbn [fst snd]; rewrite ?app_nil_r; auto.
    pose proof (N i _ E) as [A B C D F]. cbn [nd_wait nd_actor nd_in nd_out] in *.
    destruct B as [B0 [(B1 & _)|[(B1 & _)|(r' & B1 & B2 & B3)]]]; try discriminate. injection B1 as -> ->.
    destruct k as [|m]; cbn [fst snd]; rewrite ?app_nil_r.
    + eapply inv_quiet; eauto.
      * split; cbn [nd_wait nd_actor nd_in nd_out]; auto.
        -- intros p ops O. destruct (A p ops O) as [A1 (rest & A2 & A3)]. split; [|eauto].
           rewrite (B0 _ _ O). exact I.
        -- subst out. auto.
        -- intros R. unfold observe_end. rewrite R. cbn. destruct (C R). auto.
        -- intros _ R. destruct (C R) as [C1 _]. exact C1.
      * exact (v_steps _ _ _ IV). * exact (v_env _ _ _ IV).
      * exists []. rewrite app_nil_r. auto.
    + eapply (inv_set n l ns l i); eauto.
      * split; cbn [nd_wait nd_actor nd_in nd_out].
        -- intros p ops. rewrite owed_app. destruct (owed rec i cs) as [[p0 ops0]|] eqn:O; cbn [owes]; [|discriminate]. apply A.
        -- subst out. auto.
        -- intros R. rewrite !due_app. cbn. auto.
        -- rewrite due_app. exact D.
        -- intros R m'. apply carries_app; [auto|exact I].
      * intros r0 X. injection X as -> ->. apply B3. reflexivity.
  - (* poll *)
    destruct (lr_exn l) eqn:X; cbn [fst snd]; rewrite ?app_nil_r; auto.
    destruct (nth_error ns i) as [[a [|m out] inn k]|] eqn:E; cbn [fst snd]; rewrite ?app_nil_r; auto.
    pose proof (N i _ E) as [A B C D F]. cbn [nd_wait nd_actor nd_in nd_out] in *.
    destruct raise.
    + cbn [fst snd]. rewrite app_nil_r. eapply inv_quiet; eauto.
      * split; cbn [nd_wait nd_actor nd_in nd_out lr_ops lr_exn]; auto.
        -- intros p ops O. destruct (A p ops O) as [A1 (rest & A2 & A3)]. split; [exact A1|]. exists rest. split; [exact A2|discriminate].
        -- destruct k as [k|].
           ++ destruct B as [B0 B]. split; [exact B0|]. destruct B as [(B1 & pre & B2 & B3)|[(B1 & B2 & B3)|(r & B1 & B2 & B3)]]; try discriminate.
              destruct pre as [|x pre]; injection B2 as -> ->.
              ** right; left. auto.
              ** left. split; auto. exists pre. inversion B3; auto.
           ++ destruct B as [B1 B2]. inversion B2; auto.
      * exact (v_steps _ _ _ IV). * exact (v_env _ _ _ IV).
      * exists []. rewrite app_nil_r. auto.
    + assert (LT : i < n).
      { pose proof (v_len _ _ _ IV) as L. cbn in L. rewrite <- L. apply nth_error_Some. rewrite E. discriminate. }
      pose proof (v_steps _ _ _ IV) as ST. pose proof (v_env _ _ _ IV) as EN. cbn [fst] in ST, EN.
      assert (G : forall l' rs, handle i m l = (l', rs) -> lr_ops l' = lr_ops l ++ data1 i m /\ lr_exn l' = false /\
                  lr_steps l' = lr_steps l + appends (data1 i m) /\ rs = (if is_request m then rs else match m with MStopEpisode => [RStats (lr_steps l)] | _ => [] end) /\
                  (m = MGetStatistics -> rs = [RStats (lr_steps l)]) /\ (is_trans m -> rs = []) /\ (~ is_trans m -> length rs = 1)).
      { intros l' rs. destruct m; cbn; intros H; injection H as <- <-; cbn; rewrite ?app_nil_r, ?X, ?Nat.add_0_r, ?Nat.add_1_r; repeat split; auto; try discriminate; try contradiction; intros Y; exfalso; apply Y; exact I. }
      destruct (handle i m l) as [l' rs]. destruct (G _ _ eq_refl) as (G1 & G2 & G3 & _ & G5 & G6 & G7). clear G.
      assert (OF : ops_for i (data1 i m) = data1 i m) by (destruct m; cbn; rewrite ?Nat.eqb_refl; reflexivity).
      cbn [fst snd]. rewrite app_nil_r. eapply inv_quiet; eauto.
      * split; cbn [nd_wait nd_actor nd_in nd_out]; auto.
        -- intros p ops O. destruct (A p ops O) as [A1 (rest & A2 & A3)]. split; [exact A1|]. exists (data i out).
           rewrite G1, ops_for_app, OF. split; [|reflexivity]. rewrite <- app_assoc. rewrite <- A2, (A3 X). reflexivity.
        -- destruct k as [k|].
           ++ destruct B as [B0 B]. split; [exact B0|]. destruct B as [(B1 & pre & B2 & B3)|[(B1 & B2 & B3)|(r & B1 & B2 & B3)]]; try discriminate.
              destruct pre as [|x pre]; injection B2 as -> ->.
              ** right; right. subst inn. assert (NT : ~ is_trans (req k)) by (destruct k as [|[]]; cbn in *; auto; discriminate).
                 destruct rs as [|r [|]]; try (specialize (G7 NT); discriminate). exists r. repeat split; auto.
                 intros ->. cbn [req] in *. specialize (G5 eq_refl). injection G5 as ->. exists (lr_steps l). split; auto.
                 intros p ops O. destruct (A p ops O) as [_ (rest & A2 & A3)]. rewrite (A3 X) in A2. cbn in A2.
                 rewrite app_nil_r in A2. rewrite <- A2, ST. apply appends_for.
              ** left. inversion B3; subst. rewrite (G6 H1). split; auto. exists pre. auto.
           ++ destruct B as [B1 B2]. inversion B2; subst. rewrite (G6 H1). auto.
      * rewrite G1, G3, appends_app, ST. reflexivity.
      * rewrite G1. apply Forall_app. split; [exact EN|]. destruct m; cbn; repeat constructor; exact LT.
      * exists (data1 i m). split; [exact G1|]. intros j J. destruct m; cbn; auto; destruct (Nat.eqb_spec i j); auto; congruence.
  - (* learner fails *)
    cbn [fst snd]. rewrite app_nil_r. destruct IV as [L S V W N']. split; cbn [fst snd lr_ops lr_steps]; auto.
    intros i nd E. eapply (inv1_ext l _ _ _ _ []); cbn; rewrite ?app_nil_r; auto. discriminate.
Qed.

Lemma inv0 n : inv n (world0 n) [].
Proof.
  split; cbn [world0 fst snd].
  - apply repeat_length.
  - reflexivity.
  - constructor.
  - intros cs1 cs2 i r E. destruct cs1; discriminate.
  - intros i nd E. apply nth_error_In, repeat_spec in E. subst nd.
    split; cbn; auto.
    intros p ops O. injection O as <- <-. split; auto. exists []. auto.
Qed.

Lemma exec_inv n : forall es w cs w' cs', inv n w cs -> exec rec w es = (w', cs') -> inv n w' (cs ++ cs').
Proof.
  induction es as [|e es IH]; intros w cs w' cs' I H; cbn [exec] in H.
  - injection H as <- <-. rewrite app_nil_r. exact I.
  - pose proof (step_ok n w cs e I) as S. destruct (step rec w e) as [w1 c1]. destruct (exec rec w1 es) as [w2 c2] eqn:E.
    injection H as <- <-. rewrite app_assoc. eapply IH; eauto.
Qed.

(** The answer reaches a waiting actor once the poller gets to its pipe. *)
Lemma drained i : forall pre l ns a m inn k, nth_error ns i = Some (mkNode a (pre ++ [m]) [] k) -> Forall is_trans pre -> ~ is_trans m ->
  lr_exn l = false -> inn = tt ->
  exists l' ns' cs r, exec rec (l, ns) (repeat (EvPoll i false) (S (length pre))) = ((l', ns'), cs) /\ nth_error ns' i = Some (mkNode a [] [r] k).
Proof.
  induction pre as [|x pre IH]; intros l ns a m inn k E F M X U.
  - cbn [repeat length exec step app]. rewrite X, E. cbn [app].
    assert (exists l' r, handle i m l = (l', [r])) as (l' & r & ->) by (destruct m; cbn; eauto; exfalso; apply M; exact I).
    do 4 eexists. split; [reflexivity|]. rewrite nth_error_list_set, Nat.eqb_refl. destruct (_ <? _) eqn:Y; [reflexivity|].
    apply Nat.ltb_ge, nth_error_None in Y. congruence.
  - inversion F as [|? ? Fx Fp]; subst. change (length (x :: pre)) with (S (length pre)). cbn [repeat exec]. cbn [step]. rewrite X, E. cbn [app].
    destruct x; try contradiction. cbn [handle].
    set (ns1 := list_set ns i _). set (l1 := mkLearner _ _ _).
    destruct (IH l1 ns1 a m tt k) as (l' & ns' & cs & r & H & H'); auto.
    + unfold ns1. rewrite nth_error_list_set, Nat.eqb_refl. destruct (_ <? _) eqn:Y; [reflexivity|].
      apply Nat.ltb_ge, nth_error_None in Y. congruence.
    + exists l', ns', cs, r. change (S (length pre)) with (length (x0 :: pre)) in H || idtac.
      cbn [repeat exec] in H. cbn [repeat]. split; [|exact H']. destruct (step rec (l1, ns1) (EvPoll i false)) as [w1 c1].
      destruct (exec rec w1 (repeat (EvPoll i false) (length pre))) as [w2 c2]. injection H as -> <-. reflexivity.
Qed.
End Proofs.
