(** Proofs about the A3C worker. *)
From Coq Require Import QArith Qpower Lqa.
From Verif Require Import Base P_Base S_PPO P_PPO M_A3C S_A3C.
Open Scope nat_scope.

Lemma dget_dset {X} (d : dict X) k x k' : dget (dset d k x) k' = if k =? k' then Ok x else dget d k'.
Proof. reflexivity. Qed.

Definition stored {X} (d : dict X) (a : nat) (xs : list X) : Prop := forall i x, nth_error xs i = Some x -> dget d (a + i) = Ok x.

Lemma stored_nil {X} (d : dict X) a : stored d a [].
Proof. intros [|i] x H; discriminate. Qed.
Lemma stored_beyond {X} (d : dict X) a xs x : stored d a xs -> stored (dset d (a + length xs) x) a xs.
Proof.
  intros H i y Hi. rewrite dget_dset. assert (i < length xs) by (apply nth_error_Some; congruence).
  destruct (Nat.eqb_spec (a + length xs) (a + i)); [lia|]. apply H. exact Hi.
Qed.
Lemma stored_add {X} (d : dict X) a xs x : stored d a xs -> dget d (a + length xs) = Ok x -> stored d a (xs ++ [x]).
Proof.
  intros H Hx i y Hi. destruct (Nat.lt_ge_cases i (length xs)).
  - rewrite nth_error_app1 in Hi by lia. apply H. exact Hi.
  - rewrite nth_error_app2 in Hi by lia. destruct (i - length xs) as [|k] eqn:E.
    + cbn in Hi. injection Hi as <-. replace i with (length xs) by lia. exact Hx.
    + destruct k; discriminate.
Qed.
Lemma stored_snoc {X} (d : dict X) a xs x : stored d a xs -> stored (dset d (a + length xs) x) a (xs ++ [x]).
Proof. intros H. apply stored_add; [apply stored_beyond; exact H|]. rewrite dget_dset, Nat.eqb_refl. reflexivity. Qed.

Lemma dgets_stored {X} (d : dict X) xs : forall a, stored d a xs -> dgets d (seq a (length xs)) = Ok xs.
Proof.
  induction xs as [|x xs IH]; intros a H; [reflexivity|]. cbn [length seq dgets].
  assert (E := H 0 x eq_refl). rewrite Nat.add_0_r in E. rewrite E. cbn [rbind]. rewrite IH; [reflexivity|].
  intros i y Hi. replace (S a + i) with (a + S i) by lia. apply H. exact Hi.
Qed.

(** * Returns *)
Lemma gpow_succ c n : (Qpower c (Z.of_nat (S n)) == c * Qpower c (Z.of_nat n))%Q.
Proof.
  destruct n as [|n]; [cbn; ring|]. rewrite Nat2Z.inj_succ, <- Z.add_1_l. rewrite Qpower_plus'; [|lia]. cbn [Qpower Qpower_positive pow_pos]. reflexivity.
Qed.
Lemma dsum_snoc c f n : (discounted_sum c f (S n) == discounted_sum c f n + Qpower c (Z.of_nat n) * f n)%Q.
Proof.
  revert f. induction n as [|n IH]; intros f.
  - unfold discounted_sum. cbn. ring.
  - rewrite dsum_shift, IH, (dsum_shift c f n), gpow_succ. ring.
Qed.

Lemma return_snoc g rs r R i : i < length rs -> (n_step_return g (rs ++ [r]) R i == n_step_return g rs (R * g + r) i)%Q.
Proof.
  intros Hi. unfold n_step_return. rewrite app_length. cbn [length]. replace (length rs + 1 - i) with (S (length rs - i)) by lia.
  rewrite dsum_snoc, gpow_succ.
  assert (E : (discounted_sum g (fun k => nth (i + k) (rs ++ [r]) 0%Q) (length rs - i) == discounted_sum g (fun k => nth (i + k) rs 0%Q) (length rs - i))%Q).
  { apply dsum_ext. intros l Hl. rewrite app_nth1 by lia. reflexivity. }
  rewrite E. replace (i + (length rs - i)) with (length rs) by lia. rewrite nth_middle. ring.
Qed.
Lemma return_last g rs r R : (n_step_return g (rs ++ [r]) R (length rs) == R * g + r)%Q.
Proof.
  unfold n_step_return. rewrite app_length. cbn [length]. replace (length rs + 1 - length rs) with 1 by lia.
  unfold discounted_sum. cbn [seq fold_right]. rewrite Nat.add_0_r, nth_middle. cbn. ring.
Qed.

Lemma rev_returns_ok g d a rs : stored d a rs -> forall R, exists l,
  rev_returns g d (rev (seq a (length rs))) R = Ok l /\ length l = length rs /\
  forall i, i < length rs -> (nth i (rev l) 0 == n_step_return g rs R i)%Q.
Proof.
  induction rs as [|r rs IH] using rev_ind; intros H R.
  - exists []. repeat split. intros i Hi. cbn in Hi. lia.
  - assert (Hr : dget d (a + length rs) = Ok r) by (apply (H (length rs)); rewrite nth_error_app2, Nat.sub_diag by lia; reflexivity).
    assert (Hs : stored d a rs).
    { intros i x Hi. apply H. rewrite nth_error_app1; [exact Hi|]. apply nth_error_Some. congruence. }
    destruct (IH Hs (R * g + r)%Q) as (l & El & Ll & Hl).
    exists ((R * g + r)%Q :: l). rewrite app_length, Nat.add_1_r, seq_S, rev_app_distr. cbn [rev app rev_returns length].
    rewrite Hr. cbn [rbind]. cbv zeta. rewrite El. cbn [rbind]. split; [reflexivity|]. split; [lia|].
    intros i Hi. destruct (Nat.eq_dec i (length rs)) as [->|Hne].
    + rewrite return_last, app_nth2 by (rewrite rev_length; lia). rewrite rev_length, Ll, Nat.sub_diag. reflexivity.
    + rewrite return_snoc by lia. rewrite app_nth1 by (rewrite rev_length; lia). apply Hl. lia.
Qed.

Lemma nQ_pos n : 0 < n -> ~ (nQ n == 0)%Q.
Proof. intros H. unfold nQ, Qeq. cbn. lia. Qed.

Section Worker.
  Context {Ob Act P RS : Type}.
  Notation st := (st Ob Act P RS).
  Notation upd := (upd Ob Act P RS).
  Notation view := (view Ob Act P RS).
  Notation choice := (choice Ob Act P RS).
  Variable N : net Ob P RS.
  Variable opt : P -> upd -> P.
  Variable c : cfg.

  (** The state after the observations [obs]. *)
  Definition after (p : P) (rs : option RS) (obs : list Ob) : option RS := fold_left (fun rs o => Some (advance N p rs o)) obs rs.
  Lemma unroll_snoc p obs o : forall rs, unroll N p rs (obs ++ [o]) = unroll N p rs obs ++ [(after p rs obs, o)].
  Proof. induction obs as [|x obs IH]; intros rs; [reflexivity|]. cbn [app unroll after fold_left]. rewrite IH. reflexivity. Qed.
  Lemma after_snoc p obs o rs : after p rs (obs ++ [o]) = Some (advance N p (after p rs obs) o).
  Proof. unfold after. rewrite fold_left_app. reflexivity. Qed.

  Definition chosen_list (v : view) : list choice := match v_chosen v with Some ch => [ch] | None => [] end.
  Definition choices (v : view) : list choice := map s_choice (v_seg v) ++ chosen_list v.

  Record rel (s : st) (v : view) : Prop := {
    r_mode : training s = v_training v;
    r_model : model s = v_params v;
    r_shared : shared_model s = v_shared v;
    r_rs : train_rs s = v_rs v;
    r_test : test_rs s = v_test_rs v;
    r_plain : recurrent c = false -> v_rs v = None /\ v_test_rs v = None /\ Forall (fun ch : choice => c_rs ch = None) (choices v);
    r_t : t s = t_start s + length (v_seg v);
    r_obs : stored (past_obs s) (t_start s) (map c_obs (choices v));
    r_act : stored (past_action s) (t_start s) (map c_act (choices v));
    r_rew : stored (past_rewards s) (t_start s) (map s_reward (v_seg v));
    r_params : Forall (fun ch : choice => c_params ch = v_params v) (choices v);
    r_rec : recurrent c = true -> exists rs0,
      (choices v <> [] -> dget (past_recurrent_state s) (t_start s) = Ok rs0) /\
      unroll N (v_params v) rs0 (map c_obs (choices v)) = map (fun ch => (c_rs ch, c_obs ch)) (choices v) /\
      v_rs v = after (v_params v) rs0 (map c_obs (choices v)) }.

  Lemma rel_init p : rel (init p) (view0 p).
  Proof.
    constructor; try reflexivity; try (apply stored_nil); try (constructor; fail).
    - intros _. repeat split. constructor.
    - intros _. exists None. repeat split. intros H. exfalso. apply H. reflexivity.
  Qed.

  Lemma rel_act s v o a : rel s v -> v_training v = true -> v_chosen v = None ->
    rel (fst (act_train N c o a s))
        {| v_training := true; v_chosen := Some {| c_params := v_params v; c_rs := v_rs v; c_obs := o; c_act := a |}; v_seg := v_seg v;
           v_params := v_params v; v_shared := v_shared v;
           v_rs := if recurrent c then Some (advance N (v_params v) (v_rs v) o) else None; v_test_rs := v_test_rs v |} /\
    snd (act_train N c o a s) = Chose (v_params v) (v_rs v) o.
  Proof.
    intros R Hm Hc. destruct R. unfold choices, chosen_list in *. rewrite Hc in *. rewrite app_nil_r in *.
    assert (Lc : length (map s_choice (v_seg v)) = length (v_seg v)) by apply map_length.
    split.
    - constructor; cbn [act_train fst training t t_start past_obs past_action past_rewards past_recurrent_state train_rs test_rs model shared_model
                        v_training v_chosen v_seg v_params v_shared v_rs v_test_rs]; unfold choices, chosen_list; cbn [v_chosen v_seg v_params]; try assumption.
      + congruence.
      + destruct (recurrent c); [congruence|]. rewrite r_rs0. apply r_plain0. reflexivity.
      + intros E. rewrite E. destruct (r_plain0 E) as (A & B & F). repeat split; [exact B|]. apply Forall_app. split; [exact F|]. repeat constructor. exact A.
      + rewrite map_app. cbn [map c_obs]. rewrite r_t0. rewrite <- Lc, <- (map_length c_obs). apply stored_snoc. exact r_obs0.
      + rewrite map_app. cbn [map c_act]. rewrite r_t0. rewrite <- Lc, <- (map_length c_act). apply stored_snoc. exact r_act0.
      + apply Forall_app. split; [exact r_params0|]. repeat constructor.
      + intros E. rewrite E. destruct (r_rec0 E) as (rs0 & A & B & C). exists rs0.
        assert (C' : v_rs v = after (v_params v) rs0 (map c_obs (map s_choice (v_seg v)))) by exact C.
        rewrite !map_app. cbn [map c_obs c_rs]. rewrite unroll_snoc, after_snoc, B, <- C'. repeat split; try reflexivity.
        intros _. rewrite dget_dset. destruct (v_seg v) as [|x seg] eqn:Es.
        * cbn [length] in r_t0. rewrite r_t0, Nat.add_0_r, Nat.eqb_refl. cbn [map after fold_left] in C'. congruence.
        * cbn [length] in r_t0. destruct (Nat.eqb_spec (t s) (t_start s)); [lia|]. apply A. discriminate.
    - cbn [act_train snd]. rewrite r_model0. destruct (recurrent c) eqn:E; [congruence|]. destruct (r_plain0 eq_refl) as (-> & _). reflexivity.
  Qed.

  Lemma factor_ok coef (n : nat) : 0 < n <= t_max c ->
    (let f := (inject_Z (Z.of_nat (t_max c)) / inject_Z (Z.of_nat n))%Q in
     let pf := if keep_loss_scale_same c && (n <? t_max c) then coef * f else coef in
     (if normalize_grad_by_t_max c then pf / inject_Z (Z.of_nat n) else pf) == loss_factor c coef n)%Q.
  Proof.
    intros [H0 H1]. cbv zeta. unfold loss_factor. fold (nQ n). fold (nQ (t_max c)). pose proof (nQ_pos n H0) as Hn.
    destruct (keep_loss_scale_same c); cbn [andb].
    - destruct (Nat.ltb_spec n (t_max c)).
      + destruct (normalize_grad_by_t_max c); field; exact Hn.
      + replace (t_max c) with n by lia. destruct (normalize_grad_by_t_max c); field; exact Hn.
    - destruct (normalize_grad_by_t_max c); field; exact Hn.
  Qed.

  (** The state in which update is called: the segment [seg] is complete. *)
  Lemma update_ok s seg p boot_rs statevar :
    seg <> [] -> length seg <= t_max c ->
    model s = p -> train_rs s = boot_rs -> (recurrent c = false -> boot_rs = None) ->
    t s = t_start s + length seg ->
    stored (past_obs s) (t_start s) (map (fun x => c_obs (s_choice x)) seg) ->
    stored (past_action s) (t_start s) (map (fun x => c_act (s_choice x)) seg) ->
    stored (past_rewards s) (t_start s) (map s_reward seg) ->
    Forall (fun x => c_params (s_choice x) = p) seg ->
    (recurrent c = false -> Forall (fun x => c_rs (s_choice x) = None) seg) ->
    (recurrent c = true -> exists rs0, dget (past_recurrent_state s) (t_start s) = Ok rs0 /\
       unroll N p rs0 (map (fun x => c_obs (s_choice x)) seg) = map (fun x => (c_rs (s_choice x), c_obs (s_choice x))) seg) ->
    exists u, update N opt c statevar s =
      Ok ({| training := training s; t := t s; t_start := t s; past_obs := []; past_action := []; past_rewards := []; past_recurrent_state := [];
             train_rs := train_rs s; test_rs := test_rs s; model := opt (shared_model s) u; shared_model := opt (shared_model s) u |}, u) /\
      update_from c seg (match statevar with None => 0%Q | Some o => value N p boot_rs o end) u.
  Proof.
    intros Hne Hle Hp Hrs Hrs0 Ht Ho Ha Hr Hps Hpl Hrec.
    assert (Hl : 0 < length seg) by (destruct seg; [congruence|cbn; lia]).
    unfold update. destruct (Nat.ltb_spec (t_start s) (t s)); [|lia]. cbn [passert rbind].
    replace (t s - t_start s) with (length seg) by lia. unfold range. replace (t s - t_start s) with (length seg) by lia.
    set (R := match statevar with Some o => value N (model s) (if recurrent c then train_rs s else None) o | None => 0%Q end).
    assert (ER : R = match statevar with None => 0%Q | Some o => value N p boot_rs o end).
    { unfold R. destruct statevar; [|reflexivity]. rewrite Hp. destruct (recurrent c) eqn:E; [congruence|]. rewrite Hrs0; reflexivity. }
    assert (G1 : dgets (past_obs s) (seq (t_start s) (length seg)) = Ok (map (fun x => c_obs (s_choice x)) seg)) by (rewrite <- (map_length (fun x => c_obs (s_choice x)) seg) at 1; apply dgets_stored; exact Ho).
    assert (G2 : dgets (past_action s) (seq (t_start s) (length seg)) = Ok (map (fun x => c_act (s_choice x)) seg)) by (rewrite <- (map_length (fun x => c_act (s_choice x)) seg) at 1; apply dgets_stored; exact Ha).
    assert (G3 : (if recurrent c
               then rs0 <- dget (past_recurrent_state s) (t_start s) ;; Ok (unroll N (model s) rs0 (map (fun x => c_obs (s_choice x)) seg))
               else Ok (map (fun o => (None, o)) (map (fun x => c_obs (s_choice x)) seg))) = Ok (map (fun x => (c_rs (s_choice x), c_obs (s_choice x))) seg)).
    { destruct (recurrent c) eqn:E.
      - destruct (Hrec eq_refl) as (rs0 & -> & U). cbn [rbind]. rewrite Hp, U. reflexivity.
      - f_equal. rewrite map_map. apply map_ext_in. intros x Hx. specialize (Hpl eq_refl). rewrite Forall_forall in Hpl. rewrite Hpl by exact Hx. reflexivity. }
    destruct (rev_returns_ok (gamma c) (past_rewards s) (t_start s) (map s_reward seg) Hr R) as (l & El & Ll & Hn). rewrite map_length in *.
    pose proof (factor_ok (pi_loss_coef c) (length seg) (conj Hl Hle)) as F1. pose proof (factor_ok (v_loss_coef c) (length seg) (conj Hl Hle)) as F2. cbv zeta in F1, F2.
    assert (UF : forall pf vf, (pf == loss_factor c (pi_loss_coef c) (length seg))%Q -> (vf == loss_factor c (v_loss_coef c) (length seg))%Q ->
      update_from c seg R {| u_params := model s; u_inputs := map (fun x => (c_rs (s_choice x), c_obs (s_choice x))) seg; u_actions := map (fun x => c_act (s_choice x)) seg;
                             u_returns := rev l; u_pi_factor := pf; u_v_factor := vf |}).
    { intros pf vf A B. unfold update_from. cbn [u_params u_inputs u_actions u_returns u_pi_factor u_v_factor]. rewrite Hp, rev_length. repeat split; auto. }
    destruct (keep_loss_scale_same c && (length seg <? t_max c)), (normalize_grad_by_t_max c); rewrite G1; cbn [rbind]; rewrite G3; cbn [rbind]; rewrite G2; cbn [rbind]; rewrite El; cbn [rbind];
      eexists; (split; [reflexivity|]); rewrite <- ER; apply UF; assumption.
  Qed.

  Lemma rel_observe s v o r done reset ch : 1 <= t_max c -> rel s v -> v_training v = true -> v_chosen v = Some ch -> length (v_seg v) < t_max c ->
    let seg := v_seg v ++ [{| s_choice := ch; s_reward := r |}] in
    let rs := if done || reset then None else v_rs v in
    exists s' ou, observe_train N opt c o r done reset s = Ok (s', ou) /\
    if (length seg =? t_max c) || done || reset then
      exists u, ou = Updated u /\ update_from c seg (if done then 0%Q else value N (v_params v) (v_rs v) o) u /\
        rel s' {| v_training := true; v_chosen := None; v_seg := []; v_params := opt (v_shared v) u; v_shared := opt (v_shared v) u; v_rs := rs; v_test_rs := v_test_rs v |}
    else ou = Nothing /\ length seg < t_max c /\
        rel s' {| v_training := true; v_chosen := None; v_seg := seg; v_params := v_params v; v_shared := v_shared v; v_rs := rs; v_test_rs := v_test_rs v |}.
  Proof.
    intros Htm R Hm Hc Hlt seg rs. destruct R. unfold choices, chosen_list in *. rewrite Hc in *.
    assert (Ec : map s_choice (v_seg v) ++ [ch] = map s_choice seg) by (unfold seg; rewrite map_app; reflexivity).
    rewrite Ec in *. rewrite !map_map in r_obs0, r_act0. rewrite Forall_map in r_params0.
    assert (Lseg : length seg = S (length (v_seg v))) by (unfold seg; rewrite app_length; cbn; lia).
    assert (Hne : seg <> []) by (unfold seg; destruct (v_seg v); discriminate).
    unfold observe_train. cbn [training t t_start past_obs past_action past_rewards past_recurrent_state train_rs test_rs model shared_model].
    set (s1 := {| training := training s; t := S (t s); t_start := t_start s; past_obs := past_obs s; past_action := past_action s;
                  past_rewards := dset (past_rewards s) (t s) r; past_recurrent_state := past_recurrent_state s; train_rs := train_rs s;
                  test_rs := test_rs s; model := model s; shared_model := shared_model s |}).
    assert (Hrew : stored (past_rewards s1) (t_start s1) (map s_reward seg)).
    { unfold seg. rewrite map_app. cbn [map s_reward]. unfold s1. cbn [past_rewards t_start]. rewrite r_t0. rewrite <- (map_length s_reward). apply stored_snoc. exact r_rew0. }
    assert (Hact : dget (past_action s) (S (t s) - 1) = Ok (c_act ch)).
    { replace (S (t s) - 1) with (t_start s + length (v_seg v)) by lia. apply r_act0. unfold seg. rewrite map_app, nth_error_app2 by (rewrite map_length; lia).
      rewrite map_length, Nat.sub_diag. reflexivity. }
    assert (E0 : (if process_idx c =? 0 then rmap (fun _ => tt) (dget (past_action s) (S (t s) - 1)) else Ok tt) = Ok tt) by (rewrite Hact; destruct (process_idx c =? 0); reflexivity).
    rewrite E0. cbn [rbind]. replace (S (t s) - t_start s) with (length seg) by lia.
    destruct ((length seg =? t_max c) || done || reset) eqn:Eu.
    - destruct (update_ok s1 seg (v_params v) (v_rs v) (if done then None else Some o)) as (u & Hu & Uf); try assumption.
      + lia.
      + intros E. apply r_plain0. exact E.
      + unfold s1. cbn [t t_start]. lia.
      + intros E. destruct (r_plain0 E) as (_ & _ & F). rewrite Forall_map in F. exact F.
      + intros E. destruct (r_rec0 E) as (rs0 & A & B & C). rewrite !map_map in B. exists rs0. split; [apply A|exact B].
        destruct seg; [congruence|discriminate].
      + rewrite Hu. cbn [rbind]. eexists _, _. split; [reflexivity|]. exists u. split; [reflexivity|]. split; [destruct done; exact Uf|].
        unfold s1, rs in *. cbn [training t t_start past_obs past_action past_rewards past_recurrent_state train_rs test_rs model shared_model].
        rewrite r_shared0.
        constructor; destruct (done || reset); cbn; try reflexivity; try (apply stored_nil); try (constructor; fail); try congruence; try lia.
        * intros E. destruct (r_plain0 E) as (A & B & _). repeat split; [exact B|constructor].
        * intros E. destruct (r_plain0 E) as (A & B & _). repeat split; [exact A|exact B|constructor].
        * intros _. exists None. repeat split. congruence.
        * intros _. exists (v_rs v). repeat split. congruence.
    - apply orb_false_iff in Eu. destruct Eu as [Eu Ez]. apply orb_false_iff in Eu. destruct Eu as [Eu Ed]. subst done reset.
      apply Nat.eqb_neq in Eu. cbn [rbind orb]. unfold rs. cbn [orb]. exists s1, Nothing. split; [reflexivity|]. split; [reflexivity|]. split; [lia|].
      unfold s1. constructor; unfold choices, chosen_list; cbn [training t t_start past_obs past_action past_rewards past_recurrent_state train_rs test_rs model shared_model
        v_training v_chosen v_seg v_params v_shared v_rs v_test_rs]; rewrite ?app_nil_r, ?map_map; try assumption; try congruence; try lia.
      + rewrite Forall_map. exact r_params0.
      + intros E. destruct (r_rec0 E) as (rs0 & A & B & C). repeat rewrite map_map in B. repeat rewrite map_map in C. exists rs0. split; [exact A|split; [exact B|exact C]].
  Qed.

  Lemma runs_explained (Htm : 1 <= t_max c) es : forall s v acted, rel s v -> alternating (v_training v) acted es -> length (v_seg v) < t_max c ->
    (acted = true <-> v_chosen v <> None) ->
    exists s' os, runs N opt c s es = Ok (s', os) /\ explained N opt c v es os.
  Proof.
    induction es as [|e es IH]; intros s v acted R Ha Hlt Hc.
    - exists s, []. repeat split.
    - cbn [runs]. destruct e as [b|o a|o r d z|p].
      + cbn [step rbind]. cbn [alternating] in Ha.
        destruct (IH {| training := b; t := t s; t_start := t_start s; past_obs := past_obs s; past_action := past_action s; past_rewards := past_rewards s;
             past_recurrent_state := past_recurrent_state s; train_rs := train_rs s; test_rs := test_rs s; model := model s; shared_model := shared_model s |}
             {| v_training := b; v_chosen := v_chosen v; v_seg := v_seg v; v_params := v_params v; v_shared := v_shared v; v_rs := v_rs v; v_test_rs := v_test_rs v |} acted)
          as (s' & os & Hr & He); [destruct R; constructor; try assumption; reflexivity|exact Ha|exact Hlt|exact Hc|].
        rewrite Hr. cbn [rbind]. exists s', (Nothing :: os). split; [reflexivity|]. split; [reflexivity|exact He].
      + cbn [step rbind]. cbn [alternating] in Ha. rewrite (r_mode _ _ R). destruct (v_training v) eqn:Em.
        * destruct Ha as [-> Ha].
          assert (Hn : v_chosen v = None) by (destruct (v_chosen v); [|reflexivity]; destruct Hc as [_ Hc]; discriminate Hc; discriminate).
          destruct (rel_act s v o a R Em Hn) as [R' Ho]. destruct (act_train N c o a s) as [s1 o1]. cbn [fst snd] in R', Ho. subst o1.
          destruct (IH _ _ true R') as (s' & os & Hr & He).
          -- exact Ha.
          -- exact Hlt.
          -- cbn. split; [discriminate|reflexivity].
          -- rewrite Hr. cbn [rbind]. exists s', (Chose (v_params v) (v_rs v) o :: os). split; [reflexivity|]. cbn [explained]. rewrite Em. split; [reflexivity|exact He].
        * pose proof R as R0. destruct R. unfold act_eval.
          destruct (IH (if recurrent c then set_test_rs (Some (advance N (model s) (test_rs s) o)) s else s)
             {| v_training := false; v_chosen := v_chosen v; v_seg := v_seg v; v_params := v_params v; v_shared := v_shared v; v_rs := v_rs v;
                v_test_rs := if recurrent c then Some (advance N (v_params v) (v_test_rs v) o) else None |} acted) as (s' & os & Hr & He); try assumption.
          -- destruct (recurrent c) eqn:E; constructor; try assumption; try (intros _; exact (r_rec0 eq_refl)); cbn; try congruence.
             ++ rewrite r_test0. apply (r_plain0 eq_refl).
             ++ intros _. destruct (r_plain0 eq_refl) as (A & B & F). repeat split; assumption.
          -- rewrite Hr. cbn [rbind]. eexists s', (_ :: os). split; [reflexivity|]. cbn [explained]. rewrite Em. split; [|exact He].
             rewrite r_model0. destruct (recurrent c) eqn:E; [congruence|]. destruct (r_plain0 eq_refl) as (_ & -> & _). reflexivity.
      + cbn [step]. cbn [alternating] in Ha. rewrite (r_mode _ _ R). destruct (v_training v) eqn:Em.
        * destruct Ha as [-> Ha]. destruct (v_chosen v) as [ch|] eqn:Ec; [|destruct Hc as [Hc _]; specialize (Hc eq_refl); congruence].
          destruct (rel_observe s v o r d z ch Htm R Em Ec Hlt) as (s1 & ou & Ho & Hcase). rewrite Ho. cbn [rbind].
          set (seg := v_seg v ++ [{| s_choice := ch; s_reward := r |}]) in *.
          destruct ((length seg =? t_max c) || d || z) eqn:Eu.
          -- destruct Hcase as (u & -> & Uf & R').
             destruct (IH _ _ false R') as (s' & os & Hr & He); [exact Ha|cbn; lia|cbn; split; [discriminate|congruence]|].
             rewrite Hr. cbn [rbind]. exists s', (Updated u :: os). split; [reflexivity|]. cbn [explained]. rewrite Em. exists ch. split; [exact Ec|]. cbv zeta. fold seg. rewrite Eu.
             exists u. split; [reflexivity|]. split; [exact Uf|exact He].
          -- destruct Hcase as (-> & Hl' & R').
             destruct (IH _ _ false R') as (s' & os & Hr & He); [exact Ha|exact Hl'|cbn; split; [discriminate|congruence]|].
             rewrite Hr. cbn [rbind]. exists s', (Nothing :: os). split; [reflexivity|]. cbn [explained]. rewrite Em. exists ch. split; [exact Ec|]. cbv zeta. fold seg. rewrite Eu.
             split; [reflexivity|exact He].
        * cbn [rbind].
          destruct (IH (observe_eval d z s) {| v_training := false; v_chosen := v_chosen v; v_seg := v_seg v; v_params := v_params v; v_shared := v_shared v; v_rs := v_rs v;
                             v_test_rs := if d || z then None else v_test_rs v |} acted) as (s' & os & Hr & He); try assumption.
          -- destruct R. unfold observe_eval. destruct (d || z); constructor; try assumption; cbn; try congruence.
             intros E. destruct (r_plain0 E) as (A & B & F). repeat split; assumption.
          -- rewrite Hr. cbn [rbind]. exists s', (Nothing :: os). split; [reflexivity|]. cbn [explained]. rewrite Em. split; [reflexivity|exact He].
      + cbn [step rbind]. cbn [alternating] in Ha.
        destruct (IH {| training := training s; t := t s; t_start := t_start s; past_obs := past_obs s; past_action := past_action s; past_rewards := past_rewards s;
             past_recurrent_state := past_recurrent_state s; train_rs := train_rs s; test_rs := test_rs s; model := model s; shared_model := p |}
             {| v_training := v_training v; v_chosen := v_chosen v; v_seg := v_seg v; v_params := v_params v; v_shared := p; v_rs := v_rs v; v_test_rs := v_test_rs v |} acted)
          as (s' & os & Hr & He); [destruct R; constructor; try assumption; reflexivity|exact Ha|exact Hlt|exact Hc|].
        rewrite Hr. cbn [rbind]. exists s', (Nothing :: os). split; [reflexivity|]. split; [reflexivity|exact He].
  Qed.
End Worker.
