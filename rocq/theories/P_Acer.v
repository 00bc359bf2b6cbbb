(** Proofs about the ACER worker. *)
From Coq Require Import QArith Lqa.
From Verif Require Import Base P_Base M_RandomAccessQueue P_RandomAccessQueue M_SampleNK S_SampleNK P_SampleNK M_ReplayBuffer S_ReplayBuffer M_Episodic S_Episodic P_Episodic
  S_PPO M_A3C S_A3C P_A3C M_Acer S_Acer.
Open Scope nat_scope.

(** * Stored episodes are not empty *)
Section Fin.
  Context {T : Type}.
  Lemma episodes_nonempty e (ops : list (rb_op T)) : Forall (fun ep => ep <> []) (fst (episodes e ops)).
  Proof.
    induction ops as [|o ops IH] using rev_ind; [constructor|].
    unfold episodes. rewrite fold_left_app. cbn [fold_left]. fold (episodes e ops). destruct (episodes e ops) as [dn cur]. cbn [fst] in *.
    unfold ep_step. destruct o as [e' t|e']; destruct (e' =? e); try exact IH.
    - destruct (terminal t); [|exact IH]. cbn [fst]. apply Forall_app. split; [exact IH|]. repeat constructor. destruct cur; discriminate.
    - destruct cur; [exact IH|]. cbn [fst]. apply Forall_app. split; [exact IH|]. repeat constructor. discriminate.
  Qed.
  Lemma finished_from_nonempty (ops : list (rb_op T)) : forall past, Forall (fun ep => ep <> []) (finished_from past ops).
  Proof.
    induction ops as [|o ops IH]; intros past; cbn [finished_from]; [constructor|].
    apply Forall_app. split; [|apply IH]. pose proof (episodes_nonempty (env_of o) (past ++ [o])) as H. rewrite Forall_forall in *.
    intros ep Hep. apply H. rewrite <- (firstn_skipn (length (fst (episodes (env_of o) past)))). apply in_or_app. right. exact Hep.
  Qed.
  Lemma finished_nonempty (ops : list (rb_op T)) : Forall (fun ep => ep <> []) (finished ops).
  Proof. apply finished_from_nonempty. Qed.
  Lemma kept_incl {A} (eps kept : list A) (H : exists k, kept = skipn k eps) : forall x, In x kept -> In x eps.
  Proof. destruct H as [k ->]. intros x Hx. rewrite <- (firstn_skipn k). apply in_or_app. right. exact Hx. Qed.
  Lemma kept_nonempty cap (ops : list (rb_op T)) kept : kept_within cap (finished ops) kept -> Forall (fun ep => ep <> []) kept.
  Proof.
    intros H. pose proof (finished_nonempty ops) as F. rewrite Forall_forall in *. intros x Hx. apply F. apply (kept_incl (finished ops) kept).
    - destruct cap; [destruct H as (k & -> & _); eauto|]. exists 0. exact H.
    - exact Hx.
  Qed.
  Lemma finished_from_app (a b : list (rb_op T)) : forall past, finished_from past (a ++ b) = finished_from past a ++ finished_from (past ++ a) b.
  Proof.
    induction a as [|o a IH]; intros past; cbn [app finished_from]; [rewrite app_nil_r; reflexivity|].
    rewrite IH, <- !app_assoc. reflexivity.
  Qed.
End Fin.

Lemma sample_one fuel o n : 1 <= n -> numpy_contract n 1 o -> sample_n_k fuel o (Z.of_nat n) (Z.of_nat 1) <> Err OutOfFuel.
Proof.
  intros Hn ((C1 & _) & (C2 & _) & _). unfold sample_n_k.
  destruct (negb _); [discriminate|]. destruct (Z.of_nat 1 =? 0)%Z; [discriminate|]. destruct (Z.of_nat n <=? 3 * Z.of_nat 1)%Z; [discriminate|].
  change (Z.to_nat (Z.of_nat 1)) with 1. cbn [seq pick res]. destruct (draw o 0) as [|x l] eqn:E; [discriminate|]. cbn [nth_error].
  destruct fuel; cbn [reject memb existsb sel]; cbn [rbind]; discriminate.
Qed.

Lemma unroll_along {Ob P RS} (N : net Ob P RS) p obs : forall rs,
  length (unroll N p rs obs) = length obs /\
  forall i o, nth_error obs i = Some o -> nth_error (unroll N p rs obs) i = Some (fold_left (fun rs o => Some (advance N p rs o)) (firstn i obs) rs, o).
Proof.
  induction obs as [|x obs IH]; intros rs; [split; [reflexivity|intros [|i] o H; discriminate]|].
  destruct (IH (Some (advance N p rs x))) as [L H]. cbn [unroll length]. split; [f_equal; exact L|].
  intros [|i] o Hi; cbn [nth_error firstn fold_left] in *; [congruence|]. apply H. exact Hi.
Qed.

Section Worker.
  Context {Ob Act P RS : Type}.
  Notation ctx := (ctx Ob P RS).
  Notation btr := (btr Ob Act P RS).
  Notation aupd := (aupd Ob Act P RS).
  Notation ast := (ast Ob Act P RS).
  Notation aview := (aview Ob Act P RS).
  Variable N : net Ob P RS.
  Variable opt : P -> aupd -> P.
  Variable soft : P -> P -> P.
  Variable c : acfg.
  Variable buf : option (option nat).

  Lemma forward_along p obs : along N c p obs (forward_all N (a_recurrent c) p obs).
  Proof.
    unfold forward_all, along, rs_after. destruct (a_recurrent c).
    - destruct (unroll_along N p obs None) as [L H]. rewrite map_length. split; [exact L|]. intros i o Hi. rewrite nth_error_map, (H i o Hi). reflexivity.
    - rewrite !map_length. split; [reflexivity|]. intros i o Hi. rewrite nth_error_map, nth_error_map, Hi. reflexivity.
  Qed.

  (** * Replays *)
  Definition ps_of (s : ast) : P * P * P := (a_model s, a_shared s, a_average s).
  Definition buf_ok (ops : list (rb_op btr)) (b : option (ebuf btr)) : Prop :=
    match buf, b with
    | None, None => True
    | Some cap, Some b => eb_inv cap ops (finished ops) b
    | _, _ => False
    end.
  Definition kept_of (b : option (ebuf btr)) : list (list (trans btr)) := match b with Some b => raq_iter (episodic_memory b) | None => [] end.

  Lemma flat_total {A} (l : list (list A)) : length (map (fun t => [t]) (concat l)) = total l.
  Proof. rewrite map_length. reflexivity. Qed.

  (** everything but the parameters *)
  Definition same_but_params (s s' : ast) : Prop :=
    s' = set_params (a_training s) (a_model s') (a_shared s') (a_average s') s.

  Lemma one_replay ops s o offs : 1 <= replay_start_size c -> 1 <= a_t_max c -> buf_ok ops (replay s) ->
    (forall n, 1 <= n -> numpy_contract n 1 (o n)) -> (forall j, randint_ok (offs j)) ->
    exists s' u, update_from_replay N opt soft c o offs s = Ok (s', u) /\ same_but_params s s' /\
      match buf with
      | None => u = None /\ ps_of s' = ps_of s
      | Some cap => let kept := kept_of (replay s) in
          if replay_start_size c <=? total kept
          then exists u', u = Some u' /\ ps_of s' = (opt (a_shared s) u', opt (a_shared s) u', soft (a_average s) (opt (a_shared s) u')) /\
               exists ep x, In ep kept /\ block x ep /\ x <> [] /\ length x = Nat.min (a_t_max c) (length ep) /\ off_policy N c (a_model s) (a_average s) x u'
          else u = None /\ ps_of s' = ps_of s
      end.
  Proof.
    intros Hs Htm Hb Ho Hoffs. unfold update_from_replay. unfold buf_ok in Hb.
    destruct (replay s) as [b|] eqn:Er; destruct buf as [cap|]; try contradiction.
    2:{ exists s, None. split; [reflexivity|]. split; [|split; reflexivity]. unfold same_but_params. destruct s; reflexivity. }
    destruct Hb as (_ & _ & _ & _ & _ & Hf & Hk). cbn [kept_of]. cbv zeta.
    rewrite raq_len_iter. rewrite Hf. unfold flat. rewrite flat_total.
    rewrite Nat.ltb_antisym. destruct (replay_start_size c <=? total (raq_iter (episodic_memory b))) eqn:Es; cbn [negb].
    2:{ exists s, None. split; [reflexivity|]. split; [|split; reflexivity]. unfold same_but_params. destruct s; reflexivity. }
    apply Nat.leb_le in Es.
    assert (H1 : 1 <= length (raq_iter (episodic_memory b))).
    { destruct (raq_iter (episodic_memory b)); [cbn in Es; lia|cbn; lia]. }
    rewrite raq_len_iter. pose proof (Ho _ H1) as Hc.
    pose proof (sample_episodes_ok 1 (o (length (raq_iter (episodic_memory b)))) offs b 1 (Some (a_t_max c)) H1 Hc Hoffs) as Hsam.
    assert (Hnf : eb_sample_episodes 1 (o (length (raq_iter (episodic_memory b)))) offs b 1 (Some (a_t_max c)) <> Err OutOfFuel).
    { unfold eb_sample_episodes. destruct (1 <=? _); [|discriminate]. cbn [passert rbind].
      unfold raq_sample. rewrite raq_len_iter. pose proof (sample_one 1 _ _ H1 Hc) as Hne.
      pose proof (sample_n_k_ok 1 (o (length (raq_iter (episodic_memory b)))) _ 1 H1 Hc) as Hk2.
      destruct (sample_n_k 1 _ _ _) as [ixs|e]; cbn [rbind] in *; [|congruence].
      destruct Hk2 as (_ & _ & Hr). destruct (raq_getmany_spec (episodic_memory b) ixs) as (xs & Ex & _); [exact Hr|].
      rewrite Ex. cbn [rbind]. discriminate. }
    destruct (eb_sample_episodes 1 _ offs b 1 (Some (a_t_max c))) as [eps|e]; [|congruence]. cbn [rbind].
    destruct Hsam as (ixs & (Hl & _ & _) & HF). destruct ixs as [|ix [|]]; try discriminate. inversion HF as [|? x ? ? (ep & Hep & Hbl & Hlen) HF2]. subst. inversion HF2. subst.
    cbn [py_get Z.ltb Z.compare Z.to_nat nth_error]. cbn [rbind].
    assert (Hep2 : In ep (raq_iter (episodic_memory b))) by (eapply nth_error_In; exact Hep).
    assert (Hne : ep <> []) by (pose proof (kept_nonempty _ _ _ Hk) as F; rewrite Forall_forall in F; apply F; exact Hep2).
    assert (Hx : x <> []) by (destruct ep; [congruence|]; destruct x; [cbn in Hlen; lia|discriminate]).
    destruct (exists_last Hx) as (x0 & y & Exy).
    assert (Hlast : py_get x (-1) = Ok y).
    { rewrite Exy. unfold py_get. rewrite app_length. cbn [length]. change (-1 <? 0)%Z with true. cbv iota.
      replace (-1 + Z.of_nat (length x0 + 1))%Z with (Z.of_nat (length x0)) by lia. destruct (Z.of_nat (length x0) <? 0)%Z eqn:E; [lia|].
      rewrite Nat2Z.id, nth_error_app2, Nat.sub_diag by lia. reflexivity. }
    rewrite Hlast. cbn [rbind]. eexists _, _. split; [reflexivity|]. split; [reflexivity|]. eexists. split; [reflexivity|]. split; [reflexivity|].
    exists ep, x. split; [exact Hep2|]. split; [exact Hbl|]. split; [exact Hx|]. split; [exact Hlen|].
    unfold off_policy. cbn [u_R u_acts u_rewards u_values u_action_values u_distribs u_mus u_avgs]. repeat (split; [reflexivity|]).
    repeat (split; [apply forward_along|]). exists x0, y. split; [exact Exy|]. unfold rs_after, state_after. destruct (terminal y), (a_recurrent c); reflexivity.
  Qed.

  Lemma same_refl s : same_but_params s s.
  Proof. unfold same_but_params. destruct s; reflexivity. Qed.
  Lemma same_trans s s' s'' : same_but_params s s' -> same_but_params s' s'' -> same_but_params s s''.
  Proof. unfold same_but_params. intros H1 H2. rewrite H2. rewrite H1. reflexivity. Qed.

  Lemma replays_ok ops (Hs : 1 <= replay_start_size c) (Htm : 1 <= a_t_max c) draws : forall s, buf_ok ops (replay s) ->
    Forall (fun d : (nat -> oracle) * (nat -> nat -> nat) => (forall n, 1 <= n -> numpy_contract n 1 (fst d n)) /\ (forall j, randint_ok (snd d j))) draws ->
    exists s' us, replays N opt soft c draws s = Ok (s', us) /\ same_but_params s s' /\
      match buf with
      | None => us = [] /\ ps_of s' = ps_of s
      | Some cap => let kept := kept_of (replay s) in
          length us = (if replay_start_size c <=? total kept then length draws else 0) /\ replayed N opt soft c kept (ps_of s) us (ps_of s')
      end.
  Proof.
    induction draws as [|[o offs] draws IH]; intros s Hb Hd.
    - exists s, []. split; [reflexivity|]. split; [apply same_refl|]. destruct buf; [|auto]. cbv zeta. split; [|reflexivity]. cbn [length]. destruct (_ <=? _); reflexivity.
    - inversion Hd as [|? ? [D1 D2] Hd']. subst. cbn [fst snd] in *. cbn [replays].
      destruct (one_replay ops s o offs Hs Htm Hb D1 D2) as (s1 & u & E1 & S1 & C1). rewrite E1. cbn [rbind].
      assert (Er : replay s1 = replay s) by (rewrite S1; reflexivity).
      destruct (IH s1) as (s2 & us & E2 & S2 & C2); [rewrite Er; exact Hb|exact Hd'|]. rewrite E2. cbn [rbind].
      eexists s2, _. split; [reflexivity|]. split; [eapply same_trans; eassumption|].
      destruct buf as [cap|].
      + cbv zeta in *. rewrite Er in C2. destruct C2 as [L2 R2].
        destruct (replay_start_size c <=? total (kept_of (replay s))).
        * destruct C1 as (u' & -> & P1 & ep & x & Hx). rewrite P1 in R2. cbn [length]. split; [f_equal; exact L2|].
          cbn [replayed]. unfold ps_of at 1. split; [exists ep, x; exact Hx|exact R2].
        * destruct C1 as [-> P1]. rewrite P1 in R2. split; assumption.
      + destruct C1 as [-> P1]. destruct C2 as [-> P2]. split; [reflexivity|congruence].
  Qed.

  (** * The invariant *)
  Definition chosen_ctx (v : aview) : list ctx := match w_chosen v with Some (x, _, _) => [x] | None => [] end.
  Definition chosen_act (v : aview) : list Act := match w_chosen v with Some (_, a, _) => [a] | None => [] end.
  Definition chosen_avg (v : aview) : list ctx := match w_chosen v with Some (_, _, g) => [g] | None => [] end.

  Record arel (s : ast) (v : aview) : Prop := {
    q_mode : a_training s = w_training v;
    q_ps : ps_of s = w_ps v;
    q_rs : a_train_rs s = w_rs v;
    q_avg : a_shared_rs s = w_avg_rs v;
    q_test : a_test_rs s = w_test_rs v;
    q_plain : a_recurrent c = false -> w_rs v = None /\ w_avg_rs v = None /\ w_test_rs v = None;
    q_t : a_t s = a_t_start s + length (w_seg v);
    q_acts : stored (past_actions s) (a_t_start s) (map as_act (w_seg v) ++ chosen_act v);
    q_vals : stored (past_values s) (a_t_start s) (map as_from (w_seg v) ++ chosen_ctx v);
    q_qs : stored (past_action_values s) (a_t_start s) (map as_from (w_seg v) ++ chosen_ctx v);
    q_ds : stored (past_action_distrib s) (a_t_start s) (map as_from (w_seg v) ++ chosen_ctx v);
    q_avgs : stored (past_avg_action_distrib s) (a_t_start s) (map as_avg (w_seg v) ++ chosen_avg v);
    q_rew : stored (a_past_rewards s) (a_t_start s) (map as_reward (w_seg v));
    q_last : match w_chosen v with
             | Some (x, a, _) => last_state s = Some (x_obs x) /\ last_action s = Some a /\ last_action_distrib s = Some x
             | None => True
             end;
    q_buf : buf_ok (w_ops v) (replay s) }.

  Lemma arel_act s v o a : arel s v -> w_training v = true -> w_chosen v = None ->
    let '(model, _, average) := w_ps v in
    let x := {| x_params := model; x_rs := w_rs v; x_obs := o |} in
    let avg := {| x_params := average; x_rs := w_avg_rs v; x_obs := o |} in
    arel (fst (a_act_train N c o a s))
      {| w_training := true; w_chosen := Some (x, a, avg); w_seg := w_seg v; w_ps := w_ps v;
         w_rs := if a_recurrent c then Some (advance N model (w_rs v) o) else None;
         w_avg_rs := if a_recurrent c then Some (advance N average (w_avg_rs v) o) else None; w_test_rs := w_test_rs v; w_ops := w_ops v |} /\
    snd (a_act_train N c o a s) = AChose x.
  Proof.
    intros R Hm Hc. destruct R. unfold chosen_act, chosen_ctx, chosen_avg in *. rewrite Hc in *. rewrite !app_nil_r in *.
    destruct (w_ps v) as [[model shared] average] eqn:Eps. injection q_ps0 as E1 E2 E3. cbv zeta.
    assert (Ex : {| x_params := a_model s; x_rs := if a_recurrent c then a_train_rs s else None; x_obs := o |} = {| x_params := model; x_rs := w_rs v; x_obs := o |}).
    { f_equal; [exact E1|]. destruct (a_recurrent c); [exact q_rs0|]. symmetry. apply (q_plain0 eq_refl). }
    assert (Eg : {| x_params := a_average s; x_rs := if a_recurrent c then a_shared_rs s else None; x_obs := o |} = {| x_params := average; x_rs := w_avg_rs v; x_obs := o |}).
    { f_equal; [exact E3|]. destruct (a_recurrent c); [exact q_avg0|]. symmetry. apply (q_plain0 eq_refl). }
    assert (K : forall X Y (f : Y -> X) (d : dict X) l x, stored d (a_t_start s) (map f l) -> length l = length (w_seg v) -> stored (dset d (a_t s) x) (a_t_start s) (map f l ++ [x])).
    { intros X Y f d l x Hst Hl. rewrite q_t0, <- Hl, <- (map_length f l). apply stored_snoc. exact Hst. }
    unfold a_act_train. rewrite Ex, Eg. split; [|reflexivity].
    constructor; cbn [fst a_training a_t a_t_start past_actions a_past_rewards past_values past_action_distrib past_action_values past_avg_action_distrib last_state last_action
        last_action_distrib a_train_rs a_shared_rs a_test_rs a_model a_shared a_average replay w_training w_chosen w_seg w_ps w_rs w_avg_rs w_test_rs w_ops];
      unfold chosen_act, chosen_ctx, chosen_avg; cbn [w_chosen w_seg]; try assumption; try (apply K; [assumption|reflexivity]).
    - congruence.
    - unfold ps_of. cbn [a_model a_shared a_average]. congruence.
    - destruct (a_recurrent c); [congruence|]. rewrite q_rs0. apply (q_plain0 eq_refl).
    - destruct (a_recurrent c); [congruence|]. rewrite q_avg0. apply (q_plain0 eq_refl).
    - intros E. rewrite E. destruct (q_plain0 E) as (A & B & C). auto.
    - cbn [x_obs]. auto.
  Qed.

  Lemma store_ok (ops : list (rb_op btr)) (b : ebuf btr) (x : ctx) (a : Act) r (o : Ob) done reset cap : eb_inv cap ops (finished ops) b ->
    let tr := mkTrans {| b_state := x_obs x; b_action := a; b_reward := r; b_next := o; b_mu := x |} done in
    let ops' := ops ++ RAppend 0 tr :: (if done || reset then [RStop 0] else []) in
    exists b', store o r done reset b (x_obs x) a x = Ok b' /\ eb_inv cap ops' (finished ops') b'.
  Proof.
    intros Hb tr ops'. destruct (eb_run_inv cap (RAppend 0 tr :: (if done || reset then [RStop 0] else [])) ops (finished ops) b Hb) as (b' & E & I).
    exists b'. split.
    - unfold store. fold tr. cbn [eb_run eb_step] in E. destruct (eb_append b 0 tr) as [b1|]; cbn [rbind] in *; [|discriminate].
      destruct (done || reset); cbn [eb_run eb_step] in E; [destruct (eb_stop b1 0); cbn [rbind] in E; congruence|congruence].
    - unfold finished, ops'. rewrite finished_from_app. exact I.
  Qed.

  Lemma online_ok s seg statevar R : seg <> [] -> a_t s = a_t_start s + length seg ->
    stored (past_actions s) (a_t_start s) (map as_act seg) -> stored (past_values s) (a_t_start s) (map as_from seg) ->
    stored (past_action_values s) (a_t_start s) (map as_from seg) -> stored (past_action_distrib s) (a_t_start s) (map as_from seg) ->
    stored (past_avg_action_distrib s) (a_t_start s) (map as_avg seg) -> stored (a_past_rewards s) (a_t_start s) (map as_reward seg) ->
    match statevar with None => 0%Q | Some o => value N (a_model s) (if a_recurrent c then a_train_rs s else None) o end = R ->
    exists s' u, update_on_policy N opt soft c statevar s = Ok (s', u) /\
      a_training s' = a_training s /\ a_t s' = a_t s /\ a_t_start s' = a_t s /\ a_train_rs s' = a_train_rs s /\ a_shared_rs s' = a_shared_rs s /\ a_test_rs s' = a_test_rs s /\
      replay s' = replay s /\
      if disable_online_update c then u = None /\ ps_of s' = ps_of s
      else u = Some (online seg R) /\ ps_of s' = (opt (a_shared s) (online seg R), opt (a_shared s) (online seg R), soft (a_average s) (opt (a_shared s) (online seg R))).
  Proof.
    intros Hne Ht H1 H2 H3 H4 H5 H6 HR. unfold update_on_policy.
    assert (0 < length seg) by (destruct seg; [congruence|cbn; lia]).
    destruct (Nat.ltb_spec (a_t_start s) (a_t s)); [|lia]. cbn [passert rbind].
    destruct (disable_online_update c).
    - cbn [rbind]. eexists _, _. split; [reflexivity|]. cbn. repeat split.
    - cbv zeta. unfold range. replace (a_t s - a_t_start s) with (length seg) by lia.
      assert (K : forall X (f : astep Ob Act P RS -> X) d, stored d (a_t_start s) (map f seg) -> dgets d (seq (a_t_start s) (length seg)) = Ok (map f seg)).
      { intros X f d Hst. rewrite <- (map_length f seg). apply dgets_stored. exact Hst. }
      rewrite (K _ as_act _ H1), (K _ as_reward _ H6), (K _ as_from _ H2), (K _ as_from _ H3), (K _ as_from _ H4), (K _ as_avg _ H5). cbn [rbind].
      rewrite HR. eexists _, _. split; [reflexivity|]. cbn. repeat split.
  Qed.

  Lemma arel_observe s v o r done reset draws x a avg : 1 <= a_t_max c -> (buf <> None -> 1 <= replay_start_size c) -> draws_ok c draws ->
    arel s v -> w_training v = true -> w_chosen v = Some (x, a, avg) -> length (w_seg v) < a_t_max c ->
    let '(model, shared, average) := w_ps v in
    let seg := w_seg v ++ [{| as_from := x; as_act := a; as_avg := avg; as_reward := r |}] in
    let ended := done || reset in
    let rs := if ended then None else w_rs v in
    let avg_rs := if ended then None else w_avg_rs v in
    let tr := mkTrans {| b_state := x_obs x; b_action := a; b_reward := r; b_next := o; b_mu := x |} done in
    let ops := w_ops v ++ RAppend 0 tr :: (if ended then [RStop 0] else []) in
    exists s' ou, a_observe_train N opt soft c o r done reset draws s = Ok (s', ou) /\
      if (length seg =? a_t_max c) || ended then
        exists u us ps1 ps2, ou = AObserved u us /\
          (let R := if done then 0%Q else value N model (w_rs v) o in
           if disable_online_update c then u = None /\ ps1 = w_ps v
           else u = Some (online seg R) /\ ps1 = (opt shared (online seg R), opt shared (online seg R), soft average (opt shared (online seg R)))) /\
          match buf with
          | None => us = [] /\ ps2 = ps1
          | Some cap => exists kept, kept_within cap (finished ops) kept /\
              length us = (if replay_start_size c <=? total kept then n_times_replay c else 0) /\
              replayed N opt soft c kept ps1 us ps2
          end /\
          arel s' {| w_training := true; w_chosen := None; w_seg := []; w_ps := ps2; w_rs := rs; w_avg_rs := avg_rs; w_test_rs := w_test_rs v; w_ops := ops |}
      else ou = AObserved None [] /\ length seg < a_t_max c /\
          arel s' {| w_training := true; w_chosen := None; w_seg := seg; w_ps := w_ps v; w_rs := rs; w_avg_rs := avg_rs; w_test_rs := w_test_rs v; w_ops := ops |}.
  Proof.
    intros Htm Hrs [Hdl Hdf] R Hm Hc Hlt. destruct R. unfold chosen_act, chosen_ctx, chosen_avg in *. rewrite Hc in *.
    destruct (w_ps v) as [[model shared] average] eqn:Eps. injection q_ps0 as E1 E2 E3. cbv zeta.
    set (seg := w_seg v ++ [{| as_from := x; as_act := a; as_avg := avg; as_reward := r |}]).
    set (tr := mkTrans {| b_state := x_obs x; b_action := a; b_reward := r; b_next := o; b_mu := x |} done).
    set (ops := w_ops v ++ RAppend 0 tr :: (if done || reset then [RStop 0] else [])).
    assert (Ea : map as_act (w_seg v) ++ [a] = map as_act seg) by (unfold seg; rewrite map_app; reflexivity).
    assert (Ef : map as_from (w_seg v) ++ [x] = map as_from seg) by (unfold seg; rewrite map_app; reflexivity).
    assert (Eg : map as_avg (w_seg v) ++ [avg] = map as_avg seg) by (unfold seg; rewrite map_app; reflexivity).
    rewrite Ea, Ef, Eg in *.
    assert (Lseg : length seg = S (length (w_seg v))) by (unfold seg; rewrite app_length; cbn; lia).
    assert (Hne : seg <> []) by (unfold seg; destruct (w_seg v); discriminate).
    destruct q_last0 as (L1 & L2 & L3). unfold a_observe_train. rewrite L1, L2, L3.
    (* the buffer *)
    assert (Hbuf : exists b', (match replay s with None => Ok None | Some b => rmap Some (store o r done reset b (x_obs x) a x) end) = Ok b' /\ buf_ok ops b').
    { unfold buf_ok in *. destruct (replay s) as [b|], buf as [cap|]; try contradiction.
      - destruct (store_ok (w_ops v) b x a r o done reset cap q_buf0) as (b' & Eb & Ib). exists (Some b'). rewrite Eb. split; [reflexivity|exact Ib].
      - exists None. split; [reflexivity|exact I]. }
    destruct Hbuf as (b' & Eb & Hb'). rewrite Eb. cbn [rbind].
    set (s1 := {| a_training := a_training s; a_t := S (a_t s); a_t_start := a_t_start s; past_actions := past_actions s;
                  a_past_rewards := dset (a_past_rewards s) (a_t s) r;
                  past_values := past_values s; past_action_distrib := past_action_distrib s; past_action_values := past_action_values s;
                  past_avg_action_distrib := past_avg_action_distrib s; last_state := Some (x_obs x); last_action := Some a;
                  last_action_distrib := Some x; a_train_rs := a_train_rs s; a_shared_rs := a_shared_rs s; a_test_rs := a_test_rs s;
                  a_model := a_model s; a_shared := a_shared s; a_average := a_average s; replay := b' |}).
    assert (Hrew : stored (a_past_rewards s1) (a_t_start s1) (map as_reward seg)).
    { unfold seg. rewrite map_app. cbn [map as_reward]. unfold s1. cbn [a_past_rewards a_t_start]. rewrite q_t0, <- (map_length as_reward). apply stored_snoc. exact q_rew0. }
    replace (a_t s1 - a_t_start s1) with (length seg) by (unfold s1; cbn [a_t a_t_start]; lia).
    rewrite <- orb_assoc. destruct ((length seg =? a_t_max c) || (done || reset)) eqn:Eu.
    - set (R := if done then 0%Q else value N model (w_rs v) o).
      destruct (online_ok s1 seg (if done then None else Some o) R) as (s2 & u & Eo & O1 & O2 & O3 & O4 & O5 & O6 & O7 & O8); try assumption.
      { unfold s1. cbn [a_t a_t_start]. lia. }
      { unfold R, s1. cbn [a_model a_train_rs]. destruct done; [reflexivity|]. rewrite E1. destruct (a_recurrent c) eqn:E; [congruence|]. destruct (q_plain0 eq_refl) as (-> & _). reflexivity. }
      rewrite Eo. cbn [rbind]. rewrite firstn_all2 by lia.
      assert (Hb2 : buf_ok ops (replay s2)) by (rewrite O7; exact Hb').
      assert (REP : exists s3 us, replays N opt soft c draws s2 = Ok (s3, us) /\ same_but_params s2 s3 /\
          match buf with
          | None => us = [] /\ ps_of s3 = ps_of s2
          | Some cap => length us = (if replay_start_size c <=? total (kept_of (replay s2)) then n_times_replay c else 0) /\ replayed N opt soft c (kept_of (replay s2)) (ps_of s2) us (ps_of s3)
          end).
      { destruct buf as [cap|] eqn:Ebuf.
        - rewrite <- Hdl. pose proof (replays_ok ops (Hrs ltac:(discriminate)) Htm draws s2) as RO. unfold buf_ok in RO. rewrite Ebuf in RO. unfold buf_ok in Hb2. rewrite Ebuf in Hb2. exact (RO Hb2 Hdf).
        - unfold buf_ok in Hb2. rewrite Ebuf in Hb2. assert (En : replay s2 = None) by (destruct (replay s2); [contradiction|reflexivity]).
          clear - En. assert (G : replays N opt soft c draws s2 = Ok (s2, [])).
          { induction draws as [|[o' f'] draws IH]; [reflexivity|]. cbn [replays]. unfold update_from_replay. rewrite En. cbn [rbind]. rewrite IH. reflexivity. }
          rewrite G. exists s2, []. split; [reflexivity|]. split; [apply same_refl|auto]. }
      destruct REP as (s3 & us & E3' & S3 & C3). rewrite E3'. cbn [rbind]. eexists _, _. split; [reflexivity|].
      exists u, us, (ps_of s2), (ps_of s3). split; [reflexivity|].
      split; [destruct (disable_online_update c); destruct O8 as [-> O8]; (split; [reflexivity|]); rewrite O8; unfold s1, ps_of; cbn [a_model a_shared a_average]; congruence|].
      split.
      { destruct buf as [cap|] eqn:Ebuf; [|exact C3]. exists (kept_of (replay s2)). split; [|exact C3].
        unfold buf_ok in Hb2. rewrite Ebuf in Hb2. destruct (replay s2) as [b2|]; [|contradiction]. apply Hb2. }
      assert (Hs3 : a_training s3 = a_training s /\ a_t s3 = S (a_t s) /\ a_t_start s3 = S (a_t s) /\ a_train_rs s3 = a_train_rs s /\ a_shared_rs s3 = a_shared_rs s /\
          a_test_rs s3 = a_test_rs s /\ replay s3 = replay s2).
      { rewrite S3. cbn [set_params a_training a_t a_t_start a_train_rs a_shared_rs a_test_rs replay]. unfold s1 in *. cbn in O1, O2, O3, O4, O5, O6. repeat split; assumption. }
      destruct Hs3 as (T1 & T2 & T3 & T4 & T5 & T6 & T7).
      constructor; cbn [a_training a_t a_t_start past_actions a_past_rewards past_values past_action_distrib past_action_values past_avg_action_distrib last_state last_action
        last_action_distrib a_train_rs a_shared_rs a_test_rs a_model a_shared a_average replay w_training w_chosen w_seg w_ps w_rs w_avg_rs w_test_rs w_ops];
        unfold chosen_act, chosen_ctx, chosen_avg; cbn [w_chosen w_seg map app length]; try (apply stored_nil); try congruence.
      + reflexivity.
      + destruct (done || reset); congruence.
      + destruct (done || reset); congruence.
      + intros E. destruct (q_plain0 E) as (A & B & C). destruct (done || reset); auto.
      + lia.
      + exact I.
    - apply orb_false_iff in Eu. destruct Eu as [Eu Ez]. rewrite Ez. apply Nat.eqb_neq in Eu. cbn [rbind]. eexists _, _. split; [reflexivity|]. split; [reflexivity|]. split; [lia|].
      constructor; cbn [a_training a_t a_t_start past_actions a_past_rewards past_values past_action_distrib past_action_values past_avg_action_distrib last_state last_action
        last_action_distrib a_train_rs a_shared_rs a_test_rs a_model a_shared a_average replay w_training w_chosen w_seg w_ps w_rs w_avg_rs w_test_rs w_ops];
        unfold chosen_act, chosen_ctx, chosen_avg; cbn [w_chosen w_seg]; rewrite ?app_nil_r; try assumption; try congruence.
      + unfold s1. cbn. congruence.
      + unfold s1, ps_of. cbn. congruence.
      + unfold s1. cbn [a_t a_t_start]. lia.
      + exact I.
  Qed.

  Lemma a_runs_explained (Htm : 1 <= a_t_max c) (Hrs : buf <> None -> 1 <= replay_start_size c) es : forall s v acted,
    arel s v -> a_alternating c (w_training v) acted es -> length (w_seg v) < a_t_max c -> (acted = true <-> w_chosen v <> None) ->
    exists s' os, a_runs N opt soft c s es = Ok (s', os) /\ a_explained N opt soft c buf v es os.
  Proof.
    induction es as [|e es IH]; intros s v acted R Ha Hlt Hc.
    - exists s, []. repeat split.
    - cbn [a_runs]. destruct e as [b|o a|o r d z draws|sh av|p].
      + cbn [a_step rbind]. cbn [a_alternating] in Ha.
        destruct (IH (set_params b (a_model s) (a_shared s) (a_average s) s)
          {| w_training := b; w_chosen := w_chosen v; w_seg := w_seg v; w_ps := w_ps v; w_rs := w_rs v; w_avg_rs := w_avg_rs v; w_test_rs := w_test_rs v; w_ops := w_ops v |} acted)
          as (s' & os & Hr & He); [destruct R; constructor; try assumption; reflexivity|exact Ha|exact Hlt|exact Hc|].
        rewrite Hr. cbn [rbind]. exists s', (ANothing :: os). split; [reflexivity|]. split; [reflexivity|exact He].
      + cbn [a_step]. cbn [a_alternating] in Ha. rewrite (q_mode _ _ R). cbn [a_explained]. pose proof (q_ps _ _ R) as Eps. destruct (w_training v) eqn:Em.
        * destruct Ha as [-> Ha]. cbn [rbind].
          assert (Hn : w_chosen v = None) by (destruct (w_chosen v); [|reflexivity]; destruct Hc as [_ Hc]; discriminate Hc; discriminate).
          pose proof (arel_act s v o a R Em Hn) as RA. destruct (w_ps v) as [[model shared] average] eqn:Ew. cbv zeta in RA. destruct RA as [R' Ho].
          destruct (a_act_train N c o a s) as [s1 o1]. cbn [fst snd] in R', Ho. subst o1.
          destruct (IH _ _ true R') as (s' & os & Hr & He); [exact Ha|exact Hlt|cbn; split; [discriminate|reflexivity]|].
          rewrite Hr. cbn [rbind]. eexists s', (_ :: os). split; [reflexivity|]. split; [reflexivity|exact He].
        * cbn [rbind]. pose proof R as R0. destruct R. destruct (w_ps v) as [[model shared] average] eqn:Ew. injection Eps as E1 E2 E3.
          destruct (IH (if a_recurrent c then set_a_test_rs (Some (advance N (a_model s) (a_test_rs s) o)) s else s)
            {| w_training := false; w_chosen := w_chosen v; w_seg := w_seg v; w_ps := w_ps v; w_rs := w_rs v; w_avg_rs := w_avg_rs v;
               w_test_rs := if a_recurrent c then Some (advance N model (w_test_rs v) o) else None; w_ops := w_ops v |} acted) as (s' & os & Hr & He);
            [|exact Ha|exact Hlt|exact Hc|].
          -- destruct (a_recurrent c) eqn:E; constructor; try assumption; cbn [w_test_rs w_ps w_rs w_avg_rs set_a_test_rs a_test_rs]; try congruence.
             ++ cbn. congruence.
             ++ unfold ps_of. cbn. congruence.
             ++ cbn. congruence.
             ++ rewrite q_test0. apply (q_plain0 eq_refl).
             ++ intros _. destruct (q_plain0 eq_refl) as (A & B & C). auto.
          -- rewrite Hr. cbn [rbind]. eexists s', (_ :: os). split; [reflexivity|]. rewrite Ew in He. split; [|exact He].
             f_equal. f_equal; [exact E1|]. destruct (a_recurrent c); [exact q_test0|]. symmetry. apply (q_plain0 eq_refl).
      + cbn [a_step]. cbn [a_alternating] in Ha. destruct Ha as [Hd Ha]. rewrite (q_mode _ _ R). cbn [a_explained]. destruct (w_training v) eqn:Em.
        * destruct Ha as [-> Ha]. destruct (w_chosen v) as [[[x a] avg]|] eqn:Ec; [|destruct Hc as [Hc _]; specialize (Hc eq_refl); congruence].
          pose proof (arel_observe s v o r d z draws x a avg Htm Hrs Hd R Em Ec Hlt) as RO. destruct (w_ps v) as [[model shared] average] eqn:Ew. cbv zeta in RO.
          destruct RO as (s1 & ou & Eo & Cs). rewrite Eo. cbn [rbind].
          destruct ((length (w_seg v ++ [{| as_from := x; as_act := a; as_avg := avg; as_reward := r |}]) =? a_t_max c) || (d || z)) eqn:Eu.
          -- destruct Cs as (u & us & ps1 & ps2 & -> & Co & Cr & R').
             destruct (IH _ _ false R') as (s' & os & Hr & He); [exact Ha|cbn; lia|cbn; split; [discriminate|congruence]|].
             rewrite Hr. cbn [rbind]. eexists s', (_ :: os). split; [reflexivity|]. exists x, a, avg. split; [reflexivity|]. cbv zeta. rewrite Eu.
             exists u, us, ps1, ps2. split; [reflexivity|]. split; [exact Co|]. split; [exact Cr|exact He].
          -- destruct Cs as (-> & Hl' & R').
             destruct (IH _ _ false R') as (s' & os & Hr & He); [exact Ha|exact Hl'|cbn; split; [discriminate|congruence]|].
             rewrite Hr. cbn [rbind]. eexists s', (_ :: os). split; [reflexivity|]. exists x, a, avg. split; [reflexivity|]. cbv zeta. rewrite Eu.
             split; [reflexivity|exact He].
        * cbn [rbind]. destruct (w_ps v) as [[model shared] average] eqn:Ew.
          destruct (IH (if d || z then set_a_test_rs None s else s) {| w_training := false; w_chosen := w_chosen v; w_seg := w_seg v; w_ps := w_ps v; w_rs := w_rs v; w_avg_rs := w_avg_rs v;
             w_test_rs := if d || z then None else w_test_rs v; w_ops := w_ops v |} acted) as (s' & os & Hr & He); [|exact Ha|exact Hlt|exact Hc|].
          -- destruct R. destruct (d || z); constructor; try assumption; cbn; try congruence.
             intros E. destruct (q_plain0 E) as (A & B & C). auto.
          -- rewrite Hr. cbn [rbind]. eexists s', (_ :: os). split; [reflexivity|]. rewrite Ew in He. split; [reflexivity|exact He].
      + cbn [a_step rbind]. cbn [a_alternating] in Ha.
        destruct (IH (set_params (a_training s) (a_model s) sh av s)
          {| w_training := w_training v; w_chosen := w_chosen v; w_seg := w_seg v; w_ps := (fst (fst (w_ps v)), sh, av); w_rs := w_rs v; w_avg_rs := w_avg_rs v; w_test_rs := w_test_rs v; w_ops := w_ops v |} acted)
          as (s' & os & Hr & He); [destruct R; constructor; try assumption; cbn; rewrite <- q_ps0; reflexivity|exact Ha|exact Hlt|exact Hc|].
        rewrite Hr. cbn [rbind]. exists s', (ANothing :: os). split; [reflexivity|]. split; [reflexivity|exact He].
      + cbn [a_step rbind]. cbn [a_alternating] in Ha.
        destruct (IH (set_params (a_training s) p p (a_average s) s)
          {| w_training := w_training v; w_chosen := w_chosen v; w_seg := w_seg v; w_ps := (p, p, snd (w_ps v)); w_rs := w_rs v; w_avg_rs := w_avg_rs v; w_test_rs := w_test_rs v; w_ops := w_ops v |} acted)
          as (s' & os & Hr & He); [destruct R; constructor; try assumption; cbn; rewrite <- q_ps0; reflexivity|exact Ha|exact Hlt|exact Hc|].
        rewrite Hr. cbn [rbind]. exists s', (ANothing :: os). split; [reflexivity|]. split; [reflexivity|exact He].
  Qed.
End Worker.
