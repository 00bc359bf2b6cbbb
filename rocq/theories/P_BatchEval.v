From Verif Require Import Base P_Base M_Train S_Train P_Train P_TrainBatch M_Evaluator S_Evaluator.
From Coq Require Import ZifyBool ZifyNat.
Open Scope nat_scope.

Lemma nth_error_map' {X Y} (f : X -> Y) l i : nth_error (map f l) i = option_map f (nth_error l i).
Proof. revert i. induction l; intros [|i]; cbn; auto. Qed.

Lemma close_episodes_ok : forall ends ks rs ls d next ks' d' next',
  length ks = length ends -> length rs = length ends -> length ls = length ends ->
  close_episodes ends ks rs ls d next = (ks', d', next') ->
  next' = next + count_true ends /\ length ks' = length ends /\
  (forall i e k, nth_error ends i = Some e -> nth_error ks i = Some k ->
     nth_error ks' i = Some (if e then next + count_true (firstn i ends) else k)) /\
  (forall k, (forall i, nth_error ends i = Some true -> nth_error ks i <> Some k) -> dict_get d' k = dict_get d k) /\
  (NoDup ks -> forall i k r l, nth_error ends i = Some true -> nth_error ks i = Some k -> nth_error rs i = Some r -> nth_error ls i = Some l ->
     dict_get d' k = Some (r, l)).
Proof.
  induction ends as [|e ends IH]; intros [|k ks] [|r rs] [|l ls] d next ks' d' next' L1 L2 L3 H; cbn [length] in *; try lia; cbn [close_episodes] in H.
  - injection H as <- <- <-. change (count_true []) with 0. split; [lia|]. split; [reflexivity|]. split; [intros [|i]; discriminate|]. split; [reflexivity|]. intros _ [|i]; discriminate.
  - destruct e.
    + destruct (close_episodes ends ks rs ls ((k, (r, l)) :: d) (S next)) as [[ks1 d1] next1] eqn:E. injection H as <- <- <-.
      destruct (IH _ _ _ _ _ _ _ _ (eq_add_S _ _ L1) (eq_add_S _ _ L2) (eq_add_S _ _ L3) E) as (A1 & A2 & A3 & A4 & A5).
      change (count_true (true :: ends)) with (S (count_true ends)). split; [lia|]. split; [cbn; lia|]. split; [|split].
      * intros [|i] e k0 H1 H2; cbn [nth_error firstn] in *.
        -- injection H1 as <-. cbn. f_equal. lia.
        -- rewrite (A3 _ _ _ H1 H2). destruct e; [|reflexivity]. change (count_true (true :: firstn i ends)) with (S (count_true (firstn i ends))). f_equal. lia.
      * intros k0 Hk. rewrite A4.
        -- cbn [dict_get]. destruct (k0 =? k) eqn:Ek; [|reflexivity]. apply Nat.eqb_eq in Ek. subst k0. elim (Hk 0 eq_refl eq_refl).
        -- intros i Hi. apply (Hk (S i) Hi).
      * intros HN [|i] k0 r0 l0 H1 H2 H3 H4; cbn [nth_error] in *.
        -- injection H2 as <-. injection H3 as <-. injection H4 as <-. rewrite A4.
           ++ cbn [dict_get]. now rewrite Nat.eqb_refl.
           ++ intros i Hi Hc. apply NoDup_cons_iff in HN. destruct HN as [HN _]. apply HN. eapply nth_error_In; eauto.
        -- apply NoDup_cons_iff in HN. destruct HN as [_ HN]. eapply A5; eauto.
    + destruct (close_episodes ends ks rs ls d next) as [[ks1 d1] next1] eqn:E. injection H as <- <- <-.
      destruct (IH _ _ _ _ _ _ _ _ (eq_add_S _ _ L1) (eq_add_S _ _ L2) (eq_add_S _ _ L3) E) as (A1 & A2 & A3 & A4 & A5).
      change (count_true (false :: ends)) with (count_true ends). split; [lia|]. split; [cbn; lia|]. split; [|split].
      * intros [|i] e k0 H1 H2; cbn [nth_error firstn] in *; [injection H1 as <-; injection H2 as <-; reflexivity|]. now apply A3.
      * intros k0 Hk. apply A4. intros i Hi. apply (Hk (S i) Hi).
      * intros HN [|i] k0 r0 l0 H1 H2 H3 H4; cbn [nth_error] in *; [discriminate|]. apply NoDup_cons_iff in HN. destruct HN as [_ HN]. eapply A5; eauto.
Qed.

(** The j-th true position. *)
Lemma filter_nth : forall (ends : list bool) a i, nth_error ends i = Some true ->
  nth_error (filter (fun j => nth (j - a) ends false) (seq a (length ends))) (count_true (firstn i ends)) = Some (a + i).
Proof.
  induction ends as [|e ends IH]; intros a [|i] H; cbn [nth_error] in H; try discriminate.
  - injection H as ->. cbn [length seq filter firstn]. rewrite Nat.sub_diag. cbn. f_equal. lia.
  - cbn [length seq filter]. rewrite Nat.sub_diag. change (nth 0 (e :: ends) false) with e.
    assert (Heq : filter (fun j => nth (j - a) (e :: ends) false) (seq (S a) (length ends)) = filter (fun j => nth (j - S a) ends false) (seq (S a) (length ends))).
    { apply filter_ext_in. intros j Hj. apply in_seq in Hj. replace (j - a) with (S (j - S a)) by lia. reflexivity. }
    rewrite Heq. destruct e.
    + change (count_true (firstn (S i) (true :: ends))) with (S (count_true (firstn i ends))). cbn [nth_error]. rewrite (IH (S a) i H). f_equal. lia.
    + change (count_true (firstn (S i) (false :: ends))) with (count_true (firstn i ends)). rewrite (IH (S a) i H). f_equal. lia.
Qed.
Lemma count_true_filter : forall (ends : list bool) a, length (filter (fun j => nth (j - a) ends false) (seq a (length ends))) = count_true ends.
Proof.
  induction ends as [|e ends IH]; intros a; [reflexivity|]. cbn [length seq filter]. rewrite Nat.sub_diag. change (nth 0 (e :: ends) false) with e.
  assert (Heq : filter (fun j => nth (j - a) (e :: ends) false) (seq (S a) (length ends)) = filter (fun j => nth (j - S a) ends false) (seq (S a) (length ends))).
  { apply filter_ext_in. intros j Hj. apply in_seq in Hj. replace (j - a) with (S (j - S a)) by lia. reflexivity. }
  rewrite Heq. destruct e; cbn [length]; rewrite IH; reflexivity.
Qed.

Section BatchEval.
Context {W Ob A : Type} (U : buserland W Ob A) (M : mode) (maxlen : option nat).
Hypothesis Hcomplete : env_complete U.
Hypothesis HN : 0 < num_envs U.
Notation N := (num_envs U).

Definition env_total (i : nat) (L : list episode) : nat := list_sum (map (fun e => if ep_env e =? i then ep_len e else 0) L).

Record inv (T : nat) (L : list episode) (l : eloc) : Prop := mkInv {
  i_next : el_next l = length L;
  i_lidx : length (el_indices l) = N; i_lr : length (el_r l) = N; i_llen : length (el_len l) = N;
  i_idx : forall i, i < N -> exists k q n, nth_error (el_indices l) i = Some k /\ nth_error (el_r l) i = Some q /\ nth_error (el_len l) i = Some n /\
            nth_error L k = Some (mkEp i false q n);
  i_dict : forall k, dict_get (el_dict l) k = match nth_error L k with Some e => if ep_done e then Some (score_of e) else None | None => None end;
  i_env : forall k e, nth_error L k = Some e -> ep_env e < N /\
            exists k', nth_error (el_indices l) (ep_env e) = Some k' /\ k <= k' /\ (ep_done e = false -> k = k');
  i_time : forall i, i < N -> env_total i L = T;
  i_first : forall e, nth_error L 0 = Some e -> ep_len e <= T /\ (ep_done e = false -> ep_len e = T)
}.

Definition out3 (o : Ob * Q * bool * bool) : Q * bool * bool := let '(_, r, d, n) := o in (r, d, n).

Lemma inv_nodup T L l : inv T L l -> NoDup (el_indices l).
Proof.
  intros I. rewrite NoDup_nth_error. intros i j Hi E. rewrite (i_lidx _ _ _ I) in Hi.
  destruct (i_idx _ _ _ I i Hi) as (k & q & n & A1 & _ & _ & A4). rewrite A1 in E. symmetry in E.
  assert (Hj : j < N). { rewrite <- (i_lidx _ _ _ I). apply nth_error_Some. congruence. }
  destruct (i_idx _ _ _ I j Hj) as (k' & q' & n' & B1 & _ & _ & B4). rewrite B1 in E. injection E as ->. rewrite A4 in B4. congruence.
Qed.

Definition limit (n : nat) : bool := match maxlen with Some m => n =? m | None => false end.

(** What [account] computes for environment i. *)
Lemma account_nth T L l outs l' resets ends : inv T L l -> length outs = N -> account U maxlen l outs = (l', resets, ends) ->
  length ends = N /\ length resets = N /\
  forall i k q n r d b, nth_error (el_indices l) i = Some k -> nth_error (el_r l) i = Some q -> nth_error (el_len l) i = Some n ->
    nth_error (map out3 outs) i = Some (r, d, b) ->
    nth_error resets i = Some (limit (S n) || b) /\ nth_error ends i = Some (limit (S n) || b || d) /\
    nth_error (el_indices l') i = Some (if limit (S n) || b || d then el_next l + count_true (firstn i ends) else k) /\
    nth_error (el_r l') i = Some (if limit (S n) || b || d then 0%Q else Qplus q r) /\
    nth_error (el_len l') i = Some (if limit (S n) || b || d then 0 else S n) /\
    (limit (S n) || b || d = true -> dict_get (el_dict l') k = Some (Qplus q r, S n)) /\
    el_next l' = el_next l + count_true ends /\ length (el_indices l') = N /\ length (el_r l') = N /\ length (el_len l') = N /\
    (forall k0, (forall j, nth_error ends j = Some true -> nth_error (el_indices l) j <> Some k0) -> dict_get (el_dict l') k0 = dict_get (el_dict l) k0).
Proof.
  intros I Hout H. unfold account in H.
  set (rs := map (fun '(a, (_, r, _, _)) => Qplus a r) (combine (el_r l) outs)) in *.
  set (lens := map S (el_len l)) in *.
  set (r0 := match maxlen with None => repeat false N | Some m => map (fun k => k =? m) lens end) in *.
  set (rs1 := map (fun '(a, (_, _, _, n)) => a || n) (combine r0 outs)) in *.
  set (ends1 := map (fun '(a, (_, _, d, _)) => a || d) (combine rs1 outs)) in *.
  destruct (close_episodes ends1 (el_indices l) rs lens (el_dict l) (el_next l)) as [[ks d] nx] eqn:Ec. injection H as <- <- <-.
  pose proof (i_lidx _ _ _ I) as L1. pose proof (i_lr _ _ _ I) as L2. pose proof (i_llen _ _ _ I) as L3.
  assert (Lr0 : length r0 = N). { unfold r0, lens. destruct maxlen; rewrite ?map_length, ?repeat_length; auto. }
  assert (Lrs : length rs = N). { unfold rs. rewrite map_length, combine_length. lia. }
  assert (Llens : length lens = N). { unfold lens. rewrite map_length. lia. }
  assert (Lrs1 : length rs1 = N). { unfold rs1. rewrite map_length, combine_length. lia. }
  assert (Lends : length ends1 = N). { unfold ends1. rewrite map_length, combine_length. lia. }
  destruct (close_episodes_ok ends1 (el_indices l) rs lens _ _ _ _ _ ltac:(lia) ltac:(lia) ltac:(lia) Ec) as (C1 & C2 & C3 & C4 & C5).
  split; [exact Lends|]. split; [exact Lrs1|].
  intros i k q n r d0 b Hk Hq Hn Ho. rewrite nth_error_map' in Ho. destruct (nth_error outs i) as [[[[o r'] d'] b']|] eqn:Eo; [|discriminate]. cbn in Ho. injection Ho as -> -> ->.
  assert (Hi : i < N) by (rewrite <- Hout; apply nth_error_Some; congruence).
  assert (Hr0 : nth_error r0 i = Some (limit (S n))).
  { unfold r0, limit. destruct maxlen; [|now apply nth_error_repeat']. unfold lens. now rewrite !nth_error_map', Hn. }
  assert (Hrs1 : nth_error rs1 i = Some (limit (S n) || b)). { unfold rs1. now rewrite (map_nth_error _ _ _ (nth_error_combine _ _ _ _ _ Hr0 Eo)). }
  assert (Hends : nth_error ends1 i = Some (limit (S n) || b || d0)). { unfold ends1. now rewrite (map_nth_error _ _ _ (nth_error_combine _ _ _ _ _ Hrs1 Eo)). }
  assert (Hrs : nth_error rs i = Some (Qplus q r)). { unfold rs. now rewrite (map_nth_error _ _ _ (nth_error_combine _ _ _ _ _ Hq Eo)). }
  assert (Hlens : nth_error lens i = Some (S n)). { unfold lens. now rewrite nth_error_map', Hn. }
  split; [exact Hrs1|]. split; [exact Hends|]. cbn [el_indices el_r el_len el_dict el_next].
  split; [exact (C3 _ _ _ Hends Hk)|]. split.
  { unfold zero_where. now rewrite (map_nth_error _ _ _ (nth_error_combine _ _ _ _ _ Hends Hrs)). }
  split. { unfold zero_where. now rewrite (map_nth_error _ _ _ (nth_error_combine _ _ _ _ _ Hends Hlens)). }
  split. { intros He. rewrite He in Hends. apply (C5 (inv_nodup _ _ _ I) i k (Qplus q r) (S n)); auto. }
  split; [exact C1|]. split; [lia|]. unfold zero_where. rewrite !map_length, !combine_length. repeat split; try lia. exact C4.
Qed.

Lemma list_sum_map_app {X} (f : X -> nat) a b : list_sum (map f (a ++ b)) = list_sum (map f a) + list_sum (map f b).
Proof. now rewrite map_app, list_sum_app. Qed.

Lemma env_total_step i m L : (forall k e, nth_error L k = Some e -> ep_done e = false -> ep_env e = i -> k = m) -> 
  forall outs o, nth_error outs i = Some o -> (exists e, nth_error L m = Some e /\ ep_env e = i /\ ep_done e = false) ->
  env_total i (map (credit maxlen outs) L) = S (env_total i L).
Proof.
  revert m. induction L as [|e L IH]; intros m Hu outs o Ho (e0 & E0 & Ei & Ed); [destruct m; discriminate|].
  unfold env_total in *. cbn [map list_sum fold_right] in *.
  assert (Henv : ep_env (credit maxlen outs e) = ep_env e). { unfold credit. destruct (ep_done e); [reflexivity|]. destruct (nth_error outs (ep_env e)) as [[[? ?] ?]|]; reflexivity. }
  rewrite Henv.
  assert (Hrest : forall L', (forall k e, nth_error L' k = Some e -> ep_done e = false -> ep_env e = i -> False) ->
    list_sum (map (fun e => if ep_env e =? i then ep_len e else 0) (map (credit maxlen outs) L')) = list_sum (map (fun e => if ep_env e =? i then ep_len e else 0) L')).
  { clear. induction L' as [|x L' IHL]; intros Hx; [reflexivity|]. cbn [map list_sum fold_right].
    assert (Hx0 : (if ep_env (credit maxlen outs x) =? i then ep_len (credit maxlen outs x) else 0) = (if ep_env x =? i then ep_len x else 0)).
    { unfold credit. destruct (ep_done x) eqn:Ed; [reflexivity|]. destruct (nth_error outs (ep_env x)) as [[[? ?] ?]|]; [|reflexivity]. cbn [ep_env ep_len].
      destruct (ep_env x =? i) eqn:Ee; [|reflexivity]. exfalso. apply (Hx 0 x eq_refl Ed). lia. }
    rewrite Hx0. f_equal. apply IHL. intros k y Hy. apply (Hx (S k) y Hy). }
  destruct m as [|m].
  - injection E0 as ->. rewrite Hrest.
    + replace (ep_env e0 =? i) with true by lia. unfold credit. rewrite Ed, Ei, Ho. destruct o as [[? ?] ?]. reflexivity.
    + intros k x Hx Hd Hi. specialize (Hu (S k) x Hx Hd Hi). lia.
  - assert (Hc : (if ep_env e =? i then ep_len (credit maxlen outs e) else 0) = (if ep_env e =? i then ep_len e else 0)).
    { destruct (ep_env e =? i) eqn:Ee; [|reflexivity]. unfold credit. destruct (ep_done e) eqn:Edd; [reflexivity|]. specialize (Hu 0 e eq_refl Edd ltac:(lia)). lia. }
    rewrite Hc. change (fold_right plus 0 ?l) with (list_sum l). rewrite (IH m) with (o := o).
    + lia.
    + intros k x Hx Hd Hi. specialize (Hu (S k) x Hx Hd Hi). lia.
    + exact Ho.
    + eauto.
Qed.

Lemma env_total_fresh i l : env_total i (map fresh l) = 0.
Proof. unfold env_total. induction l as [|a l IH]; cbn; [reflexivity|]. destruct (a =? i); exact IH. Qed.

Lemma inv_step T L l outs l' resets ends : inv T L l -> length outs = N -> account U maxlen l outs = (l', resets, ends) ->
  inv (S T) (ledger_step maxlen N L (map out3 outs)) l'.
Proof.
  intros I Hout Ha. set (os := map out3 outs) in *.
  destruct (account_nth _ _ _ _ _ _ _ I Hout Ha) as (Le & Lr & Hacc).
  assert (Hos : length os = N) by (unfold os; now rewrite map_length).
  (* per environment facts *)
  assert (Henv : forall i, i < N -> exists k q n r d b, nth_error (el_indices l) i = Some k /\ nth_error (el_r l) i = Some q /\ nth_error (el_len l) i = Some n /\
     nth_error L k = Some (mkEp i false q n) /\ nth_error os i = Some (r, d, b) /\ nth_error ends i = Some (limit (S n) || b || d) /\
     credit maxlen os (mkEp i false q n) = mkEp i (limit (S n) || b || d) (Qplus q r) (S n)).
  { intros i Hi. destruct (i_idx _ _ _ I i Hi) as (k & q & n & A1 & A2 & A3 & A4). destruct (nth_error_some os i ltac:(lia)) as ([[r d] b] & Eo).
    exists k, q, n, r, d, b. destruct (Hacc i k q n r d b A1 A2 A3 Eo) as (_ & E2 & _). repeat split; auto.
    unfold credit. cbn [ep_done ep_env ep_ret ep_len]. rewrite Eo. fold (limit (S n)). f_equal. destruct d, b, (limit (S n)); reflexivity. }
  assert (Hje : forall i, i < N -> just_ended maxlen os L i = nth i ends false).
  { intros i Hi. destruct (Henv i Hi) as (k & q & n & r & d & b & A1 & A2 & A3 & A4 & A5 & A6 & A7). rewrite (nth_error_nth _ _ _ A6).
    unfold just_ended. destruct (limit (S n) || b || d) eqn:Ee.
    - apply existsb_exists. exists (mkEp i false q n). split; [eapply nth_error_In; eauto|]. rewrite A7. cbn. rewrite Nat.eqb_refl. reflexivity.
    - destruct (existsb _ L) eqn:Ex; [|reflexivity]. apply existsb_exists in Ex. destruct Ex as (e & He & Hx). apply In_nth_error in He. destruct He as (k' & He).
      destruct (ep_env e =? i) eqn:E1; [|discriminate]. destruct (ep_done e) eqn:E2; [discriminate|]. cbn in Hx.
      destruct (i_env _ _ _ I k' e He) as (_ & k'' & B1 & _ & B3). specialize (B3 E2). apply Nat.eqb_eq in E1. rewrite E1, A1 in B1. injection B1 as <-. subst k'.
      rewrite A4 in He. injection He as <-. rewrite A7 in Hx. cbn in Hx. congruence. }
  assert (Hfil : filter (just_ended maxlen os L) (seq 0 N) = filter (fun j => nth (j - 0) ends false) (seq 0 (length ends))).
  { rewrite Le. apply filter_ext_in. intros i Hi. apply in_seq in Hi. rewrite Nat.sub_0_r. apply Hje. lia. }
  destruct (Henv 0 HN) as (k0 & q0 & n0 & r0 & d0 & b0 & Z1 & Z2 & Z3 & Z4 & Z5 & _).
  destruct (Hacc 0 k0 q0 n0 r0 d0 b0 Z1 Z2 Z3 Z5) as (_ & _ & _ & _ & _ & _ & G1 & G2 & G3 & G4 & G5).
  unfold ledger_step. rewrite Hfil. set (news := filter (fun j => nth (j - 0) ends false) (seq 0 (length ends))).
  assert (Lnews : length news = count_true ends) by apply count_true_filter.
  assert (Hold : forall k, k < length L -> nth_error (map (credit maxlen os) L ++ map fresh news) k = option_map (credit maxlen os) (nth_error L k)).
  { intros k Hk. rewrite nth_error_app1 by (rewrite map_length; lia). apply nth_error_map'. }
  assert (Hnew : forall i, nth_error ends i = Some true -> nth_error (map (credit maxlen os) L ++ map fresh news) (length L + count_true (firstn i ends)) = Some (fresh i)).
  { intros i Hi. rewrite nth_error_app2 by (rewrite map_length; lia). rewrite map_length, nth_error_map'.
    replace (length L + count_true (firstn i ends) - length L) with (count_true (firstn i ends)) by lia. unfold news. rewrite (filter_nth ends 0 i Hi). reflexivity. }
  constructor; try assumption.
  - rewrite G1, app_length, !map_length, Lnews, (i_next _ _ _ I). reflexivity.
  - intros i Hi. destruct (Henv i Hi) as (k & q & n & r & d & b & A1 & A2 & A3 & A4 & A5 & A6 & A7).
    destruct (Hacc i k q n r d b A1 A2 A3 A5) as (_ & _ & B1 & B2 & B3 & _). rewrite (i_next _ _ _ I) in B1.
    destruct (limit (S n) || b || d) eqn:Ee.
    + exists (length L + count_true (firstn i ends)), 0%Q, 0. repeat split; auto. exact (Hnew i A6).
    + exists k, (Qplus q r), (S n). repeat split; auto. rewrite Hold by (apply nth_error_Some; congruence). rewrite A4. cbn [option_map]. now rewrite A7.
  - intros k. destruct (le_lt_dec (length L) k) as [Hk|Hk].
    + rewrite G5.
      2:{ intros j Hj Hc. assert (Hj' : j < N) by (rewrite <- Le; apply nth_error_Some; congruence). destruct (Henv j Hj') as (k' & q & n & r & d & b & A1 & A2 & A3 & A4 & _).
          rewrite A1 in Hc. injection Hc as ->. apply (Nat.lt_irrefl k). apply Nat.lt_le_trans with (length L); [|exact Hk]. apply nth_error_Some. congruence. }
      rewrite (i_dict _ _ _ I). replace (nth_error L k) with (@None episode) by (symmetry; apply nth_error_None; lia).
      rewrite nth_error_app2 by (rewrite map_length; lia). rewrite nth_error_map'. destruct (nth_error news _); reflexivity.
    + rewrite Hold by exact Hk. destruct (nth_error_some L k Hk) as (e & Ee). rewrite Ee. cbn [option_map].
      destruct (i_env _ _ _ I k e Ee) as (B1 & k' & B2 & B3 & B4). destruct (Henv (ep_env e) B1) as (k'' & q & n & r & d & b & A1 & A2 & A3 & A4 & A5 & A6 & A7).
      rewrite A1 in B2. injection B2 as ->. destruct (ep_done e) eqn:Ed.
      * assert (Hd : ep_done (credit maxlen os e) = true /\ score_of (credit maxlen os e) = score_of e) by (unfold credit; rewrite Ed; auto). destruct Hd as [-> ->].
        rewrite G5; [rewrite (i_dict _ _ _ I), Ee, Ed; reflexivity|].
        intros j Hj Hc. assert (Hj' : j < N) by (rewrite <- Le; apply nth_error_Some; congruence). destruct (Henv j Hj') as (kj & qj & nj & rj & dj & bj & J1 & J2 & J3 & J4 & _).
        rewrite J1 in Hc. injection Hc as ->. rewrite J4 in Ee. injection Ee as <-. discriminate Ed.
      * assert (k = k') as -> by auto. rewrite A4 in Ee. injection Ee as E'. rewrite E' in A7. rewrite A7. cbn [ep_done score_of ep_ret ep_len].
        destruct (Hacc _ k' q n r d b A1 A2 A3 A5) as (_ & _ & _ & _ & _ & B6 & _).
        destruct (limit (S n) || b || d) eqn:El; [now apply B6|].
        rewrite G5; [rewrite (i_dict _ _ _ I), A4; reflexivity|].
        intros j Hj Hc. assert (Hj' : j < N) by (rewrite <- Le; apply nth_error_Some; congruence). destruct (Henv j Hj') as (kj & qj & nj & rj & dj & bj & J1 & J2 & J3 & J4 & _).
        rewrite J1 in Hc. injection Hc as ->. rewrite J4 in A4. injection A4 as -> _ _. rewrite A6 in Hj. discriminate Hj.
  - intros k e He. destruct (le_lt_dec (length L) k) as [Hk|Hk].
    + rewrite nth_error_app2 in He by (rewrite map_length; lia). rewrite map_length, nth_error_map' in He.
      destruct (nth_error news (k - length L)) as [i|] eqn:En; [|discriminate]. cbn in He. injection He as <-. cbn [fresh ep_env ep_done].
      assert (Hin : In i news) by (eapply nth_error_In; eauto). unfold news in Hin. apply filter_In in Hin. destruct Hin as [Hin Hi]. apply in_seq in Hin. rewrite Nat.sub_0_r in Hi. rewrite Le in Hin.
      split; [lia|]. destruct (Henv i ltac:(lia)) as (ki & q & n & r & d & b & A1 & A2 & A3 & A4 & A5 & A6 & A7). rewrite (nth_error_nth _ _ _ A6) in Hi.
      destruct (Hacc i ki q n r d b A1 A2 A3 A5) as (_ & _ & B1 & _). rewrite Hi, (i_next _ _ _ I) in B1. rewrite Hi in A6.
      exists (length L + count_true (firstn i ends)). split; [exact B1|].
      assert (k - length L = count_true (firstn i ends)).
      { pose proof (filter_nth ends 0 i A6) as F. fold news in F. cbn [plus] in F.
        assert (Hnd : NoDup news) by (apply NoDup_filter, seq_NoDup). rewrite NoDup_nth_error in Hnd. apply Hnd; [apply nth_error_Some; congruence|congruence]. }
      split; lia.
    + rewrite Hold in He by exact Hk. destruct (nth_error_some L k Hk) as (e0 & Ee). rewrite Ee in He. cbn [option_map] in He. injection He as <-.
      destruct (i_env _ _ _ I k e0 Ee) as (B1 & k' & B2 & B3 & B4). destruct (Henv (ep_env e0) B1) as (k'' & q & n & r & d & b & A1 & A2 & A3 & A4 & A5 & A6 & A7).
      rewrite A1 in B2. injection B2 as ->. assert (Hce : ep_env (credit maxlen os e0) = ep_env e0) by (unfold credit; destruct (ep_done e0); [reflexivity|]; destruct (nth_error os (ep_env e0)) as [[[? ?] ?]|]; reflexivity).
      rewrite Hce. split; [exact B1|]. destruct (Hacc _ k' q n r d b A1 A2 A3 A5) as (_ & _ & C1 & _). rewrite (i_next _ _ _ I) in C1.
      eexists. split; [exact C1|]. destruct (limit (S n) || b || d) eqn:El.
      * split; [lia|]. intros Hd. exfalso. destruct (ep_done e0) eqn:Ed; [unfold credit in Hd; rewrite Ed in Hd; congruence|].
        assert (k = k') as -> by auto. rewrite A4 in Ee. injection Ee as E'. rewrite E' in A7. rewrite A7 in Hd. cbn in Hd. discriminate Hd.
      * split; [exact B3|]. intros Hd. apply B4. destruct (ep_done e0) eqn:Ed; [unfold credit in Hd; rewrite Ed in Hd; congruence|reflexivity].
  - intros i Hi. unfold env_total at 1. rewrite list_sum_map_app. fold (env_total i (map (credit maxlen os) L)). fold (env_total i (map fresh news)). rewrite env_total_fresh.
    destruct (Henv i Hi) as (k & q & n & r & d & b & A1 & A2 & A3 & A4 & A5 & A6 & A7).
    rewrite (env_total_step i k L) with (o := (r, d, b)).
    + rewrite (i_time _ _ _ I i Hi). lia.
    + intros k' e He Hd Hie. destruct (i_env _ _ _ I k' e He) as (_ & k'' & B1 & _ & B3). specialize (B3 Hd). rewrite Hie, A1 in B1. congruence.
    + exact A5.
    + eexists. split; [exact A4|]. auto.
  - intros e He. assert (HL : 0 < length L). { destruct L as [|x L']; [|cbn; lia]. destruct k0; discriminate Z4. }
    rewrite Hold in He by exact HL. destruct (nth_error_some L 0 HL) as (e0 & Ee). rewrite Ee in He. cbn [option_map] in He. injection He as <-.
    destruct (i_first _ _ _ I e0 Ee) as [F1 F2]. unfold credit. destruct (ep_done e0) eqn:Ed; [split; [lia|congruence]|].
    destruct (i_env _ _ _ I 0 e0 Ee) as (B1 & _). destruct (nth_error_some os (ep_env e0) ltac:(lia)) as ([[r d] b] & Eo). rewrite Eo. cbn [ep_len ep_done]. split; [rewrite F2 by reflexivity; lia|]. intros _. now rewrite F2.
Qed.

Lemma inv_init : inv 0 (map fresh (seq 0 N)) (mkELoc [] (seq 0 N) N (repeat 0%Q N) (repeat 0 N)).
Proof.
  assert (Hs : forall i, i < N -> nth_error (seq 0 N) i = Some i). { intros i Hi. rewrite (nth_error_nth' (seq 0 N) 0) by (rewrite seq_length; lia). rewrite seq_nth by lia. reflexivity. }
  constructor; cbn [el_next el_indices el_r el_len el_dict].
  - now rewrite map_length, seq_length.
  - apply seq_length.
  - apply repeat_length.
  - apply repeat_length.
  - intros i Hi. exists i, 0%Q, 0. rewrite (Hs i Hi), !nth_error_repeat' by exact Hi. repeat split; auto. rewrite nth_error_map', (Hs i Hi). reflexivity.
  - intros k. rewrite nth_error_map'. destruct (nth_error (seq 0 N) k); reflexivity.
  - intros k e He. rewrite nth_error_map' in He. destruct (nth_error (seq 0 N) k) as [i|] eqn:E; [|discriminate]. cbn in He. injection He as <-. cbn [fresh ep_env ep_done].
    assert (Hk : k < N). { rewrite <- (seq_length N 0). apply nth_error_Some. congruence. } rewrite (Hs k Hk) in E. injection E as <-. split; [exact Hk|]. exists k. rewrite (Hs k Hk). auto.
  - intros i Hi. apply env_total_fresh.
  - intros e He. rewrite nth_error_map' in He. destruct (nth_error (seq 0 N) 0); [|discriminate]. cbn in He. injection He as <-. auto.
Qed.

(** *** The conclusion drawn from the dicts *)
Fixpoint lead (L : list episode) : list episode := match L with e :: L => if ep_done e then e :: lead L else [] | [] => [] end.

Lemma lead_split L : (exists e, In e L /\ ep_done e = false) -> exists e post, L = lead L ++ e :: post /\ ep_done e = false.
Proof.
  induction L as [|x L IH]; intros (e & Hin & He); [destruct Hin|]. cbn [lead]. destruct (ep_done x) eqn:Ed.
  - destruct IH as (e1 & post & E1 & E2). { destruct Hin as [->|Hin]; [congruence|eauto]. } exists e1, post. split; [|exact E2]. cbn [app]. now f_equal.
  - exists x, L. auto.
Qed.
Lemma lead_done L : all_done (lead L).
Proof. unfold all_done. induction L as [|x L IH]; cbn [lead]; [constructor|]. destruct (ep_done x) eqn:E; constructor; auto. Qed.
Lemma lead_unique pre e post : all_done pre -> ep_done e = false -> lead (pre ++ e :: post) = pre.
Proof. intros H He. induction H as [|x pre Hx H IH]; cbn [app lead]; [now rewrite He|]. rewrite Hx. now f_equal. Qed.

Lemma first_unfinished_ok (d : dict) : forall fuel k, let r := first_unfinished fuel k d in
  k <= r <= k + fuel /\ (forall j, k <= j < r -> dict_get d j <> None) /\ (r < k + fuel -> dict_get d r = None).
Proof.
  induction fuel as [|fuel IH]; intros k; cbn [first_unfinished].
  - repeat split; try lia.
  - destruct (dict_get d k) as [v|] eqn:E.
    + destruct (IH (S k)) as (A1 & A2 & A3). split; [lia|]. split.
      * intros j Hj. destruct (Nat.eq_dec j k) as [->|]; [congruence|]. apply A2. lia.
      * intros Hr. apply A3. lia.
    + repeat split; try lia. auto.
Qed.
Lemma dict_get_in (d : dict) k : dict_get d k <> None -> In k (map fst d).
Proof. induction d as [|[k' v] d IH]; cbn [dict_get map fst]; [congruence|]. destruct (k =? k') eqn:E; [left; cbn; lia|]. intros H. right. auto. Qed.
Lemma first_unfinished_lead (d : dict) L : (exists e, In e L /\ ep_done e = false) ->
  (forall k, dict_get d k = match nth_error L k with Some e => if ep_done e then Some (score_of e) else None | None => None end) ->
  first_unfinished (S (length d)) 0 d = length (lead L).
Proof.
  intros Hex Hd. destruct (first_unfinished_ok d (S (length d)) 0) as (A1 & A2 & A3). set (r := first_unfinished (S (length d)) 0 d) in *.
  destruct (lead_split L Hex) as (e & post & E & Ee).
  assert (Hr : r < S (length d)).
  { destruct (Nat.eq_dec r (S (length d))) as [Er|]; [|lia]. exfalso.
    assert (Hl : length (seq 0 (S (length d))) <= length (map fst d)).
    { apply NoDup_incl_length; [apply seq_NoDup|]. intros j Hj. apply in_seq in Hj. apply dict_get_in, A2. lia. }
    rewrite seq_length, map_length in Hl. lia. }
  specialize (A3 ltac:(lia)). destruct (lt_eq_lt_dec r (length (lead L))) as [[H|H]|H]; [|exact H|].
  - exfalso. rewrite Hd in A3. destruct (nth_error_some (lead L) r H) as (x & Ex). assert (Ex' : nth_error L r = Some x) by (rewrite E, nth_error_app1 by lia; exact Ex).
    rewrite Ex' in A3. assert (Hx : ep_done x = true) by (apply (proj1 (Forall_forall _ _) (lead_done L)); eapply nth_error_In; eauto). rewrite Hx in A3. discriminate.
  - exfalso. apply (A2 (length (lead L))); [lia|]. rewrite Hd. assert (Ex : nth_error L (length (lead L)) = Some e). { rewrite E at 1. rewrite nth_error_app2, Nat.sub_diag by lia. reflexivity. }
    now rewrite Ex, Ee.
Qed.

Lemma nth_split_skipn {X} : forall (l : list X) k x, nth_error l k = Some x -> skipn k l = x :: skipn (S k) l.
Proof. induction l as [|y l IH]; intros [|k] x H; cbn in *; try discriminate; [congruence|]. now apply IH. Qed.

Lemma getitems_ok (d : dict) L : (forall k, k < length L -> exists e, nth_error L k = Some e /\ dict_get d k = Some (score_of e)) ->
  forall m k, k + m <= length L -> getitems d (seq k m) = Ok (map score_of (firstn m (skipn k L))).
Proof.
  intros H. induction m as [|m IH]; intros k Hk; cbn [seq getitems]; [reflexivity|].
  destruct (H k ltac:(lia)) as (e & E1 & E2). unfold dict_getitem. rewrite E2. cbn [rbind]. rewrite IH by lia. cbn [rbind]. rewrite (nth_split_skipn _ _ _ E1). reflexivity.
Qed.

Lemma within_steps_ok n (d : dict) L : (forall k, k < length L -> exists e, nth_error L k = Some e /\ dict_get d k = Some (score_of e)) ->
  forall m k total, k + m = length L -> total <= n -> exists total' kept rest,
    within_steps n total d (seq k m) = Ok (total', map score_of kept) /\ skipn k L = kept ++ rest /\ total + total_len kept <= n /\
    match rest with [] => total' = total + total_len kept | e :: _ => total' = total + total_len kept + ep_len e /\ n < total' end.
Proof.
  intros H. induction m as [|m IH]; intros k total Hk Ht; cbn [seq within_steps].
  - exists total, [], []. rewrite skipn_all2 by lia. repeat split; cbn; try lia.
  - destruct (H k ltac:(lia)) as (e & E1 & E2). unfold dict_getitem. rewrite E2. cbn [rbind]. cbn [score_of snd].
    rewrite (nth_split_skipn _ _ _ E1). destruct (n <? total + ep_len e) eqn:El.
    + exists (total + ep_len e), [], (e :: skipn (S k) L). repeat split; cbn; lia.
    + destruct (IH (S k) (total + ep_len e) ltac:(lia) ltac:(lia)) as (t' & kept & rest & W1 & W2 & W3 & W4).
      rewrite W1. cbn [rbind]. exists t', (e :: kept), rest. rewrite W2. unfold total_len in *. cbn [map list_sum fold_right]. change (fold_right plus 0 ?x) with (list_sum x).
      repeat split; try lia. destruct rest; lia.
Qed.

Lemma positions_ok T L l e post : inv T L l -> L = lead L ++ e :: post -> ep_done e = false ->
  positions (length (lead L)) (el_indices l) = [ep_env e] /\ nth_error (el_r l) (ep_env e) = Some (ep_ret e) /\ nth_error (el_len l) (ep_env e) = Some (ep_len e).
Proof.
  intros I E Ee. assert (En : nth_error L (length (lead L)) = Some e). { rewrite E at 1. rewrite nth_error_app2, Nat.sub_diag by lia. reflexivity. }
  destruct (i_env _ _ _ I _ _ En) as (H1 & k & H2 & H3 & H4). specialize (H4 Ee). subst k.
  destruct (i_idx _ _ _ I _ H1) as (k & q & n & A1 & A2 & A3 & A4). rewrite A1 in H2. injection H2 as ->. rewrite A4 in En. injection En as <-. cbn [ep_env ep_ret ep_len] in *.
  split; [|split; assumption].
  unfold positions. pose proof (inv_nodup _ _ _ I) as Hnd. set (idx := el_indices l) in *. set (f := length (lead L)) in *. clearbody f. set (i := ep_env _) in *.
  clear - A1 Hnd.
  assert (G : forall idx a i, nth_error idx i = Some f -> NoDup idx -> filter (fun j => nth (j - a) idx 0 =? f) (seq a (length idx)) = [a + i]).
  { clear. induction idx as [|x idx IH]; intros a i H Hn; [destruct i; discriminate|]. cbn [length seq filter]. rewrite Nat.sub_diag. change (nth 0 (x :: idx) 0) with x.
    assert (Heq : filter (fun j => nth (j - a) (x :: idx) 0 =? f) (seq (S a) (length idx)) = filter (fun j => nth (j - S a) idx 0 =? f) (seq (S a) (length idx))).
    { apply filter_ext_in. intros j Hj. apply in_seq in Hj. replace (j - a) with (S (j - S a)) by lia. reflexivity. }
    rewrite Heq. apply NoDup_cons_iff in Hn. destruct Hn as [Hx Hn]. destruct i as [|i].
    - injection H as ->. rewrite Nat.eqb_refl. replace (filter (fun j => nth (j - S a) idx 0 =? f) (seq (S a) (length idx))) with (@nil nat); [f_equal; lia|].
      symmetry. rewrite <- (filter_ext_in (fun _ => false)); [clear; induction (seq (S a) (length idx)); auto|]. intros j Hj. apply in_seq in Hj.
      destruct (nth (j - S a) idx 0 =? f) eqn:Ef; [|reflexivity]. exfalso. apply Hx. apply Nat.eqb_eq in Ef. rewrite <- Ef. apply nth_In. lia.
    - cbn [nth_error] in H. destruct (x =? f) eqn:Ef. { exfalso. apply Hx. apply Nat.eqb_eq in Ef. subst. eapply nth_error_In; eauto. }
      rewrite (IH (S a) i H Hn). f_equal. lia. }
  specialize (G idx 0 i A1 Hnd). rewrite (filter_ext_in _ (fun j => nth (j - 0) idx 0 =? f)); [exact G|]. intros j _. now rewrite Nat.sub_0_r.
Qed.

(** The running time is covered by the leading episodes and the first open one. *)
Lemma env_total_app i a b : env_total i (a ++ b) = env_total i a + env_total i b.
Proof. apply list_sum_map_app. Qed.
Lemma env_total_le i a : env_total i a <= total_len a.
Proof. unfold env_total, total_len. induction a as [|x a IH]; cbn [map list_sum fold_right]; [lia|]. change (fold_right plus 0 ?x) with (list_sum x). destruct (ep_env x =? i); lia. Qed.
Lemma env_total_zero i a : (forall x, In x a -> ep_env x <> i) -> env_total i a = 0.
Proof.
  intros H. unfold env_total. induction a as [|x a IH]; cbn [map list_sum fold_right]; [reflexivity|]. change (fold_right plus 0 ?x) with (list_sum x).
  rewrite IH by (intros y Hy; apply H; now right). destruct (ep_env x =? i) eqn:E; [|reflexivity]. exfalso. apply (H x); [now left|lia].
Qed.
Lemma time_covered T L l e post : inv T L l -> L = lead L ++ e :: post -> ep_done e = false -> T <= total_len (lead L) + ep_len e.
Proof.
  intros I E Ee. assert (En : nth_error L (length (lead L)) = Some e). { rewrite E at 1. rewrite nth_error_app2, Nat.sub_diag by lia. reflexivity. }
  destruct (i_env _ _ _ I _ _ En) as (H1 & k & H2 & H3 & H4). specialize (H4 Ee). subst k.
  rewrite <- (i_time _ _ _ I _ H1). rewrite E at 1. rewrite env_total_app. pose proof (env_total_le (ep_env e) (lead L)).
  change (e :: post) with ([e] ++ post). rewrite env_total_app, (env_total_zero _ post).
  - unfold env_total at 2. cbn. rewrite Nat.eqb_refl. lia.
  - intros x Hx Hxe. apply In_nth_error in Hx. destruct Hx as (j & Hj).
    assert (Hj' : nth_error L (length (lead L) + S j) = Some x). { rewrite E at 1. rewrite nth_error_app2 by lia. replace (length (lead L) + S j - length (lead L)) with (S j) by lia. exact Hj. }
    destruct (i_env _ _ _ I _ _ Hj') as (_ & k & B2 & B3 & _). rewrite Hxe, H2 in B2. injection B2 as <-. lia.
Qed.

Lemma suffices_lead L e post : L = lead L ++ e :: post -> ep_done e = false ->
  (suffices M L <-> match M with NEpisodes n => n <= length (lead L) | NSteps n => n <= total_len (lead L) + ep_len e end).
Proof.
  intros E Ee. split.
  - intros (pre & e' & post' & E' & D & Ee' & H). assert (pre = lead L) by (rewrite E'; now rewrite lead_unique). subst pre.
    assert (e' = e). { rewrite E' in E at 1. apply app_inv_head in E. congruence. } now subst e'.
  - intros H. exists (lead L), e, post. auto using lead_done.
Qed.

Definition outcome_ok (L : list episode) (vs : list (Q * nat)) : Prop :=
  match M with
  | NEpisodes n => n <= length L /\ all_done (firstn n L) /\ vs = map score_of (firstn n L)
  | NSteps n => within_budget n L vs
  end.

Lemma conclude_ok T L l : inv T L l -> (match M with NSteps n => 1 <= n /\ T <= n | _ => True end) ->
  exists b vs, conclude M l = Ok (b, vs) /\ (b = true <-> suffices M L) /\ (b = true -> outcome_ok L vs).
Proof.
  intros I HT. assert (Hex : exists e, In e L /\ ep_done e = false).
  { destruct (i_idx _ _ _ I 0 HN) as (k & q & n & A1 & A2 & A3 & A4). exists (mkEp 0 false q n). split; [eapply nth_error_In; eauto|reflexivity]. }
  destruct (lead_split L Hex) as (e & post & E & Ee). pose proof (suffices_lead L e post E Ee) as HS. pose proof (lead_done L) as HD.
  assert (Hf : first_unfinished (S (length (el_dict l))) 0 (el_dict l) = length (lead L)) by (apply first_unfinished_lead; [exact Hex|apply (i_dict _ _ _ I)]).
  assert (Hlead : forall k, k < length (lead L) -> exists x, nth_error (lead L) k = Some x /\ dict_get (el_dict l) k = Some (score_of x)).
  { intros k Hk. destruct (nth_error_some (lead L) k Hk) as (x & Ex). exists x. split; [exact Ex|]. rewrite (i_dict _ _ _ I).
    assert (Ex' : nth_error L k = Some x) by (rewrite E, nth_error_app1 by lia; exact Ex). rewrite Ex'.
    assert (Hx : ep_done x = true) by (apply (proj1 (Forall_forall _ _) HD); eapply nth_error_In; eauto). now rewrite Hx. }
  destruct (positions_ok _ _ _ _ _ I E Ee) as (P1 & P2 & P3). pose proof (time_covered _ _ _ _ _ I E Ee) as HC.
  unfold conclude. rewrite Hf. unfold outcome_ok. destruct M as [n|n].
  - destruct (within_steps_ok n (el_dict l) (lead L) Hlead (length (lead L)) 0 0 eq_refl ltac:(lia)) as (total & kept & rest & W1 & W2 & W3 & W4).
    rewrite W1. cbn [rbind]. cbn [skipn] in W2. cbn [plus] in W3, W4.
    assert (HDk : all_done kept). { unfold all_done in *. rewrite W2 in HD. now apply Forall_app in HD. }
    assert (Hkept : kept <> [] -> within_budget n L (map score_of kept)).
    { intros Hk. right. destruct rest as [|x rest].
      - exists kept, e, post. rewrite app_nil_r in W2. rewrite <- W2 at 1. repeat split; auto. congruence.
      - exists kept, x, (rest ++ e :: post). split; [rewrite E at 1; rewrite W2, <- app_assoc; reflexivity|]. repeat split; auto. intros _. lia. }
    assert (Hne : lead L <> [] -> kept <> []).
    { intros Hl Hk. subst kept. destruct (lead L) as [|x t] eqn:El; [congruence|]. cbn [app] in W2. subst rest. cbn in W4.
      assert (Hx : nth_error L 0 = Some x) by (rewrite E; reflexivity). destruct (i_first _ _ _ I _ Hx) as [F1 _]. lia. }
    destruct (n <=? total) eqn:Et.
    + exists true, (map score_of kept). split; [reflexivity|]. split.
      * split; [intros _; apply HS|reflexivity]. destruct rest as [|x rest].
        -- rewrite app_nil_r in W2. rewrite W2. lia.
        -- rewrite W2. unfold total_len in *. rewrite map_app, list_sum_app. cbn [map list_sum fold_right]. lia.
      * intros _. destruct kept as [|x kept]; [|apply Hkept; discriminate]. destruct (lead L) as [|y t] eqn:El; [|exfalso; apply Hne; congruence].
        exfalso. cbn [app] in W2. subst rest. cbn in W4. lia.
    + assert (rest = []). { destruct rest; [reflexivity|]. lia. } subst rest. rewrite app_nil_r in W2. subst kept.
      rewrite P1, (nth_error_nth _ _ _ P2), (nth_error_nth _ _ _ P3).
      destruct (n <=? total + ep_len e) eqn:El.
      * eexists. eexists. split; [reflexivity|]. split; [split; [intros _; apply HS; lia|reflexivity]|]. intros _. destruct (length (lead L) =? 0) eqn:Ez.
        -- destruct (lead L) as [|y t] eqn:Ell; [|discriminate]. cbn [map app]. left. exists e, post. split; [exact E|]. split; [exact Ee|].
           assert (Hx : nth_error L 0 = Some e) by (rewrite E; reflexivity). destruct (i_first _ _ _ I _ Hx) as [F1 _]. cbn in W4. split; [lia|reflexivity].
        -- apply Hkept. intros Hc. rewrite Hc in Ez. discriminate.
      * exists false, (map score_of (lead L)). split; [reflexivity|]. split; [split; [discriminate|intros Hs; apply HS in Hs; lia]|discriminate].
  - destruct (n <=? length (lead L)) eqn:El.
    + rewrite (getitems_ok (el_dict l) (lead L) Hlead n 0) by lia. cbn [rbind skipn]. eexists. eexists. split; [reflexivity|]. split; [split; [intros _; apply HS; lia|reflexivity]|].
      intros _. assert (Hfn : firstn n L = firstn n (lead L)). { rewrite E at 1. rewrite firstn_app. replace (n - length (lead L)) with 0 by lia. cbn [firstn]. apply app_nil_r. }
      rewrite Hfn. split; [|split; [|reflexivity]].
      * rewrite E, app_length. lia.
      * unfold all_done in *. rewrite <- (firstn_skipn n (lead L)) in HD. now apply Forall_app in HD.
    + exists false, []. split; [reflexivity|]. split; [split; [discriminate|intros Hs; apply HS in Hs; lia]|discriminate].
Qed.

(** *** The loop *)
Definition PA : train_args := mkArgs 0 0 None maxlen None false.
Definition valid : Prop := match M with NSteps n => 1 <= n | NEpisodes _ => True end.
Lemma bsteps_app a b : bsteps_of (a ++ b) = bsteps_of a ++ bsteps_of b.
Proof. apply flat_map_app. Qed.
Lemma suffices_dec_steps T L l n : M = NSteps n -> inv T L l -> ~ suffices M L -> T < n.
Proof.
  intros EM I Hs. assert (Hex : exists e, In e L /\ ep_done e = false).
  { destruct (i_idx _ _ _ I 0 HN) as (k & q & m & A1 & A2 & A3 & A4). exists (mkEp 0 false q m). split; [eapply nth_error_In; eauto|reflexivity]. }
  destruct (lead_split L Hex) as (e & post & E & Ee). pose proof (suffices_lead L e post E Ee) as HS. pose proof (time_covered _ _ _ _ _ I E Ee). rewrite EM in HS, Hs.
  destruct (le_lt_dec n T); [|assumption]. exfalso. apply Hs, HS. lia.
Qed.

Lemma nth_error_map_out {X} (f : Ob * Q * bool * bool -> X) (outs : list (Ob * Q * bool * bool)) i o : nth_error outs i = Some o -> nth_error (map f outs) i = Some (f o).
Proof. apply map_nth_error. Qed.

Definition loop_post (L : list episode) (l : eloc) (tr : list bev) (res : result (list (Q * nat))) : Prop :=
  match res with
  | Ok vs =>
      outcome_ok (fold_left (ledger_step maxlen N) (bsteps_of tr) L) vs /\ suffices M (fold_left (ledger_step maxlen N) (bsteps_of tr) L) /\ bsteps_of tr <> [] /\
      (forall a b, bsteps_of tr = a ++ b -> a <> [] -> b <> [] -> ~ suffices M (fold_left (ledger_step maxlen N) a L)) /\
      exists tr0 rs ds, tr = tr0 ++ [BObserve rs ds (repeat true N)] /\ length rs = N /\ length ds = N /\
        forall i n, nth_error (el_len l) i = Some n -> exists k r d b, advances PA (Running n) (view_of i tr0) (Stepped k r d b) /\ nth_error rs i = Some r /\ nth_error ds i = Some d
  | Err _ => True
  end.

Lemma batch_eval_loop_ok : forall fuel obss l (s s' : W * nat) tr res T L,
  valid -> inv T L l -> (match M with NSteps n => T < n | _ => True end) ->
  batch_eval_loop U M maxlen fuel obss l s = (s', tr, res) -> loop_post L l tr res.
Proof.
  induction fuel as [|fuel IH]; intros obss l s s' tr res T L HV I HT H; cbn [batch_eval_loop] in H.
  { injection H as <- <- <-. exact Logic.I. }
  unfold pbind at 1 in H. unfold pcall at 1 in H. destruct (batch_act U obss (fst s)) as [w1 [actions|e1]] eqn:E1.
  2:{ injection H as <- <- <-. exact Logic.I. }
  unfold pbind at 1 in H. unfold pcall at 1 in H. cbn [fst snd] in H. destruct (benv_step U actions w1) as [w2 [outs|e2]] eqn:E2.
  2:{ injection H as <- <- <-. exact Logic.I. }
  pose proof (Hcomplete _ _ _ _ E2) as Hout. destruct (account U maxlen l outs) as [[l' resets] ends] eqn:Ea.
  pose proof (inv_step _ _ _ _ _ _ _ I Hout Ea) as I'. destruct (account_nth _ _ _ _ _ _ _ I Hout Ea) as (Le & Lr & Hacc).
  set (os := map out3 outs) in *. set (L' := ledger_step maxlen N L os) in *.
  destruct (conclude_ok (S T) L' l' I') as (term & vs & Ec & Hb & Hok). { unfold valid in HV. destruct M; auto; lia. }
  unfold pbind at 1 in H. unfold plift at 1 in H. rewrite Ec in H. unfold pbind at 1 in H. unfold pcall at 1 in H. cbn [fst snd] in H.
  change (map (fun '(_, r, d, n) => (r, d, n)) outs) with os in H.
  set (rs := map (fun '(_, r, _, _) => r) outs) in *. set (ds := map (fun '(_, _, d, _) => d) outs) in *. set (obs' := map (fun '(o, _, _, _) => o) outs) in *.
  assert (Hview : forall i n, nth_error (el_len l) i = Some n -> exists r d b, nth_error os i = Some (r, d, b) /\ nth_error rs i = Some r /\ nth_error ds i = Some d /\
     nth_error resets i = Some (limit (S n) || b) /\ nth_error ends i = Some (limit (S n) || b || d) /\ nth_error (el_len l') i = Some (if limit (S n) || b || d then 0 else S n)).
  { intros i n Hn. assert (Hi : i < N) by (rewrite <- (i_llen _ _ _ I); apply nth_error_Some; congruence).
    destruct (i_idx _ _ _ I i Hi) as (k & q & n' & A1 & A2 & A3 & A4). rewrite A3 in Hn. injection Hn as ->.
    destruct (nth_error_some outs i ltac:(lia)) as ([[[o r] d] b] & Eo). exists r, d, b.
    assert (Eos : nth_error os i = Some (r, d, b)) by (unfold os; now rewrite (map_nth_error _ _ _ Eo)).
    destruct (Hacc i k q n r d b A1 A2 A3 Eos) as (B1 & B2 & _ & _ & B5 & _). split; [exact Eos|]. unfold rs, ds. rewrite !(map_nth_error _ _ _ Eo). auto. }
  destruct term.
  - assert (Hres : map (fun _ : bool => true) resets = repeat true N). { rewrite <- Lr. clear. induction resets; cbn; [reflexivity|]. now f_equal. }
    rewrite Hres in H. assert (Htr : forall i n, nth_error (el_len l) i = Some n -> exists k r d b, advances PA (Running n) (view_of i [BAct; BStep (Some os)]) (Stepped k r d b) /\ nth_error rs i = Some r /\ nth_error ds i = Some d).
    { intros i n Hn. destruct (Hview i n Hn) as (r & d & b & V1 & V2 & V3 & _). exists (S n), r, d, b. split; [|auto]. cbn. rewrite V1. cbn. econstructor; [constructor|]. apply advances_one. constructor. }
    destruct (batch_observe U obs' rs ds (repeat true N) w2) as [w3 [u|e3]] eqn:E3.
    + unfold pret in H. injection H as <- <- <-. cbn [loop_post]. change (bsteps_of _) with [os]. cbn [fold_left]. fold L'.
      split; [now apply Hok|]. split; [now apply Hb|]. split; [discriminate|]. split.
      { intros a b Hab Ha Hbb. destruct a as [|x [|y a]]; [congruence| |discriminate]. injection Hab as _ Hab. congruence. }
      exists [BAct; BStep (Some os)], rs, ds. split; [reflexivity|]. unfold rs, ds. rewrite !map_length. auto.
    + injection H as <- <- <-. exact Logic.I.
  - assert (Hns : ~ suffices M L') by (intros Hs; apply Hb in Hs; discriminate).
    destruct (batch_observe U obs' rs ds resets w2) as [w3 [u|e3]] eqn:E3; [|injection H as <- <- <-; exact Logic.I].
    unfold pbind at 1 in H. unfold pcall at 1 in H. cbn [fst snd] in H.
    destruct (benv_reset U (Some (map negb ends)) w3) as [w4 [obss2|e4]] eqn:E4; [|injection H as <- <- <-; exact Logic.I].
    destruct (batch_eval_loop U M maxlen fuel obss2 l' (w4, snd s)) as [[s5 tr5] res5] eqn:E5. injection H as <- <- <-.
    assert (HT' : match M with NSteps n => S T < n | NEpisodes _ => True end). { destruct M as [n|n] eqn:EM; [|exact Logic.I]. rewrite <- EM in Hns. eapply (suffices_dec_steps _ _ _ n EM I' Hns). }
    pose proof (IH obss2 l' (w4, snd s) s5 tr5 res5 (S T) L' HV I' HT' E5) as HP. unfold loop_post in *. destruct res5 as [vs5|]; [|exact Logic.I].
    destruct HP as (Q1 & Q2 & Q3 & Q4 & tr0 & rs0 & ds0 & Q5 & Q6 & Q7 & Q8).
    change (bsteps_of ([BAct] ++ [BStep (Some os)] ++ [] ++ [BObserve rs ds resets] ++ [BReset (Some (map negb ends))] ++ tr5)) with (os :: bsteps_of tr5).
    cbn [fold_left]. fold L'. split; [exact Q1|]. split; [exact Q2|]. split; [discriminate|]. split.
    { intros a b Hab Ha Hbb. destruct a as [|x a]; [congruence|]. injection Hab as <- Hab. cbn [fold_left]. fold L'. destruct a as [|y a]; [exact Hns|]. apply (Q4 (y :: a) b Hab); [discriminate|exact Hbb]. }
    exists ([BAct; BStep (Some os); BObserve rs ds resets; BReset (Some (map negb ends))] ++ tr0), rs0, ds0. split; [rewrite Q5; reflexivity|]. split; [exact Q6|]. split; [exact Q7|].
    intros i n Hn. destruct (Hview i n Hn) as (r & d & b & V1 & V2 & V3 & V4 & V5 & V6). destruct (Q8 i _ V6) as (k & r' & d' & b' & Z1 & Z2 & Z3).
    exists k, r', d', b'. split; [|auto]. rewrite view_of_app. eapply advances_app; [|exact Z1].
    cbn [view_of flat_map view app]. rewrite V1, V2, V3, V4. rewrite (map_nth_error negb _ _ V5). cbn [app].
    econstructor; [constructor|]. econstructor; [constructor|]. econstructor.
    { replace (limit (S n) || b) with ((match a_max_episode_len PA with Some m => S n =? m | None => false end) || b) by reflexivity. apply ad_observe. }
    cbn zeta. change (match a_max_episode_len PA with Some m => S n =? m | None => false end) with (limit (S n)).
    destruct (limit (S n)), b, d; cbn [orb negb]; try (apply advances_one; constructor); constructor.
Qed.

Theorem batch_run_ok fuel w t0 s' tr vs : valid -> batch_run_episodes U M maxlen fuel (w, t0) = (s', tr, Ok vs) ->
  outcome_ok (ledger maxlen N (bsteps_of tr)) vs /\ stops_at_first M maxlen N (bsteps_of tr) /\
  exists tr0 rs ds, tr = tr0 ++ [BObserve rs ds (repeat true N)] /\
    forall i, i < N -> exists k r d b, advances PA Idle (view_of i tr0) (Stepped k r d b) /\ nth_error rs i = Some r /\ nth_error ds i = Some d.
Proof.
  intros HV H. unfold batch_run_episodes in H. unfold pbind at 1 in H. unfold pcall at 1 in H. cbn [fst snd] in H.
  destruct (benv_reset U None w) as [w1 [obss|e1]] eqn:E1; [|discriminate].
  destruct (batch_eval_loop U M maxlen fuel obss _ (w1, t0)) as [[s5 tr5] res5] eqn:E5. injection H as <- <- ->.
  assert (HT : match M with NSteps n => 0 < n | NEpisodes _ => True end) by (unfold valid in HV; destruct M; [lia|exact Logic.I]).
  pose proof (batch_eval_loop_ok _ _ _ _ _ _ _ 0 _ HV inv_init HT E5) as (Q1 & Q2 & Q3 & Q4 & tr0 & rs0 & ds0 & Q5 & Q6 & Q7 & Q8).
  change (bsteps_of ([BReset None] ++ tr5)) with (bsteps_of tr5). split; [exact Q1|]. split; [split; [exact Q2|exact Q4]|].
  exists (BReset None :: tr0), rs0, ds0. split; [rewrite Q5; reflexivity|]. intros i Hi. destruct (Q8 i 0) as (k & r & d & b & Z1 & Z2 & Z3).
  { cbn [el_len]. now apply nth_error_repeat'. }
  exists k, r, d, b. split; [|auto]. cbn. econstructor; [constructor|exact Z1].
Qed.

Lemma batch_loop_total : bnever_raises U -> forall n, M = NSteps n -> forall fuel obss l (s : W * nat) T L, valid -> inv T L l -> T < n -> n - T <= fuel ->
  exists s' tr vs, batch_eval_loop U M maxlen fuel obss l s = (s', tr, Ok vs).
Proof.
  intros (N1 & N2 & N3 & N4 & _) n EM. induction fuel as [|fuel IH]; intros obss l s T L HV I HT Hf; [lia|]. cbn [batch_eval_loop].
  unfold pbind at 1. unfold pcall at 1. destruct (N2 obss (fst s)) as (w1 & actions & E1). rewrite E1. unfold pbind at 1. unfold pcall at 1. cbn [fst snd].
  destruct (N3 actions w1) as (w2 & outs & E2). rewrite E2. pose proof (Hcomplete _ _ _ _ E2) as Hout. destruct (account U maxlen l outs) as [[l' resets] ends] eqn:Ea.
  pose proof (inv_step _ _ _ _ _ _ _ I Hout Ea) as I'. destruct (conclude_ok (S T) _ l' I') as (term & vs & Ec & Hb & Hok). { unfold valid in HV. rewrite EM in *. lia. }
  unfold pbind at 1. unfold plift at 1. rewrite Ec. unfold pbind at 1. unfold pcall at 1. cbn [fst snd].
  edestruct N4 as (w3 & u & E3). rewrite E3. destruct term; [unfold pret; eauto|].
  assert (Hns : ~ suffices M (ledger_step maxlen N L (map out3 outs))) by (intros Hs; apply Hb in Hs; discriminate).
  pose proof (suffices_dec_steps _ _ _ n EM I' Hns) as HT'.
  unfold pbind at 1. unfold pcall at 1. cbn [fst snd]. edestruct N1 as (w4 & obss2 & E4). rewrite E4.
  destruct (IH obss2 l' (w4, snd s) (S T) _ HV I' HT' ltac:(lia)) as (s' & tr & vs' & E5). rewrite E5. eauto.
Qed.
Theorem batch_run_total n w t0 : bnever_raises U -> M = NSteps n -> 1 <= n -> exists s' tr vs, batch_run_episodes U M maxlen n (w, t0) = (s', tr, Ok vs).
Proof.
  intros HR EM Hn. unfold batch_run_episodes. unfold pbind at 1. unfold pcall at 1. cbn [fst snd]. destruct HR as (N1 & HR). destruct (N1 None w) as (w1 & obss & E1). rewrite E1.
  assert (HV : valid) by (unfold valid; rewrite EM; exact Hn).
  destruct (batch_loop_total (conj N1 HR) n EM n obss _ (w1, t0) 0 _ HV inv_init ltac:(lia) ltac:(lia)) as (s' & tr & vs & E5). rewrite E5. eauto.
Qed.

(** With a length limit, n episodes need at most n * limit steps. *)
Definition bounded (m : nat) (L : list episode) : Prop := Forall (fun e => if ep_done e then ep_len e <= m else ep_len e < m) L.
Lemma bounded_step m L os : maxlen = Some m -> 1 <= m -> bounded m L -> bounded m (ledger_step maxlen N L os).
Proof.
  intros Em Hm H. unfold ledger_step, bounded. apply Forall_app. split.
  - rewrite Forall_map. eapply Forall_impl; [|exact H]. intros e He. unfold credit. cbn beta in He. destruct (ep_done e) eqn:Ed; [rewrite Ed; exact He|].
    destruct (nth_error os (ep_env e)) as [[[r d] b]|]; [|rewrite Ed; exact He]. cbn [ep_done ep_len]. rewrite Em. destruct (S (ep_len e) =? m) eqn:El.
    + rewrite orb_true_r. lia.
    + destruct (d || b || false); lia.
  - rewrite Forall_map. apply Forall_forall. intros x _. cbn. lia.
Qed.
Lemma bounded_init m : 1 <= m -> bounded m (map fresh (seq 0 N)).
Proof. intros H. unfold bounded. rewrite Forall_map. apply Forall_forall. intros x _. cbn. lia. Qed.
Lemma bounded_time m n T L l : M = NEpisodes n -> bounded m L -> inv T L l -> ~ suffices M L -> T < n * m.
Proof.
  intros EM HB I Hs. assert (Hex : exists e, In e L /\ ep_done e = false).
  { destruct (i_idx _ _ _ I 0 HN) as (k & q & j & A1 & A2 & A3 & A4). exists (mkEp 0 false q j). split; [eapply nth_error_In; eauto|reflexivity]. }
  destruct (lead_split L Hex) as (e & post & E & Ee). pose proof (suffices_lead L e post E Ee) as HS. pose proof (time_covered _ _ _ _ _ I E Ee) as HC. rewrite EM in HS, Hs.
  assert (Hl : length (lead L) < n). { destruct (le_lt_dec n (length (lead L))); [|assumption]. exfalso. apply Hs, HS. lia. }
  assert (HBL : bounded m (lead L ++ e :: post)) by (now rewrite <- E). apply Forall_app in HBL. destruct HBL as [HB1 HB2]. apply Forall_inv in HB2. rewrite Ee in HB2.
  assert (Ht : total_len (lead L) <= length (lead L) * m).
  { clear - HB1. pose proof (lead_done L) as HD. unfold total_len. induction HB1 as [|x t Hx H IH]; cbn [map list_sum fold_right length]; [lia|]. change (fold_right plus 0 ?y) with (list_sum y).
    inversion HD; subst. rewrite H2 in Hx. specialize (IH H3). lia. }
  nia.
Qed.
Lemma batch_loop_total_ep m n : bnever_raises U -> maxlen = Some m -> 1 <= m -> M = NEpisodes n -> forall fuel obss l (s : W * nat) T L, bounded m L -> inv T L l -> (S T <= n * m \/ T = 0) -> n * m - T <= fuel -> 1 <= fuel ->
  exists s' tr vs, batch_eval_loop U M maxlen fuel obss l s = (s', tr, Ok vs).
Proof.
  intros (N1 & N2 & N3 & N4 & _) Em Hm EM. induction fuel as [|fuel IH]; intros obss l s T L HB I HT Hf Hf1; [lia|]. cbn [batch_eval_loop].
  unfold pbind at 1. unfold pcall at 1. destruct (N2 obss (fst s)) as (w1 & actions & E1). rewrite E1. unfold pbind at 1. unfold pcall at 1. cbn [fst snd].
  destruct (N3 actions w1) as (w2 & outs & E2). rewrite E2. pose proof (Hcomplete _ _ _ _ E2) as Hout. destruct (account U maxlen l outs) as [[l' resets] ends] eqn:Ea.
  pose proof (inv_step _ _ _ _ _ _ _ I Hout Ea) as I'. destruct (conclude_ok (S T) _ l' I') as (term & vs & Ec & Hb & Hok). { rewrite EM. exact Logic.I. }
  unfold pbind at 1. unfold plift at 1. rewrite Ec. unfold pbind at 1. unfold pcall at 1. cbn [fst snd].
  edestruct N4 as (w3 & u & E3). rewrite E3. destruct term; [unfold pret; eauto|].
  assert (Hns : ~ suffices M (ledger_step maxlen N L (map out3 outs))) by (intros Hs; apply Hb in Hs; discriminate).
  pose proof (bounded_step m L (map out3 outs) Em Hm HB) as HB'. pose proof (bounded_time m n _ _ _ EM HB' I' Hns) as HT'.
  unfold pbind at 1. unfold pcall at 1. cbn [fst snd]. edestruct N1 as (w4 & obss2 & E4). rewrite E4.
  destruct (IH obss2 l' (w4, snd s) (S T) _ HB' I' ltac:(lia) ltac:(lia) ltac:(lia)) as (s' & tr & vs' & E5). rewrite E5. eauto.
Qed.
Theorem batch_run_total_ep m n w t0 : bnever_raises U -> maxlen = Some m -> 1 <= m -> M = NEpisodes n -> exists s' tr vs, batch_run_episodes U M maxlen (S (n * m)) (w, t0) = (s', tr, Ok vs).
Proof.
  intros HR Em Hm EM. unfold batch_run_episodes. unfold pbind at 1. unfold pcall at 1. cbn [fst snd]. destruct HR as (N1 & HR). destruct (N1 None w) as (w1 & obss & E1). rewrite E1.
  destruct (batch_loop_total_ep m n (conj N1 HR) Em Hm EM (S (n * m)) obss _ (w1, t0) 0 _ (bounded_init m Hm) inv_init ltac:(lia) ltac:(lia) ltac:(lia)) as (s' & tr & vs & E5). rewrite E5. eauto.
Qed.

(** *** C23: from the protocol to fresh recurrent states *)
Definition between (p : phase) : Prop := p = Idle \/ p = Ended.
Lemma fresh_after_app c a b : fresh_after c (a ++ b) = match fresh_after c a with Some c' => fresh_after c' b | None => None end.
Proof. revert c. induction a as [|e a IH]; intros c; [reflexivity|]. destruct e; cbn [app fresh_after]; auto. destruct c; auto. Qed.
Lemma advances_fresh : forall p tr p', advances PA p tr p' -> forall c, (between p -> c = true) ->
  exists c', fresh_after c tr = Some c' /\ (between p' -> c' = true).
Proof.
  induction 1 as [p|p e p1 tr p2 H1 H2 IH]; intros c Hc; [exists c; auto|].
  destruct H1; cbn [fresh_after]; try (apply IH; intros [?|?]; discriminate); try (now apply IH).
  - rewrite Hc by (now left). now apply IH.
  - rewrite Hc by (now right). now apply IH.
  - apply IH. destruct (d || reset) eqn:E; [|intros [?|?]; discriminate]. intros _. destruct c, d, reset; cbn in *; congruence.
Qed.
Theorem batch_fresh fuel w t0 s' tr vs : valid -> batch_run_episodes U M maxlen fuel (w, t0) = (s', tr, Ok vs) ->
  forall i, i < N -> fresh_after true (view_of i tr) = Some true.
Proof.
  intros HV H i Hi. destruct (batch_run_ok _ _ _ _ _ _ HV H) as (_ & _ & tr0 & rs & ds & -> & Hv). destruct (Hv i Hi) as (k & r & d & b & Ha & Hr & Hd).
  destruct (advances_fresh _ _ _ Ha true ltac:(auto)) as (c & Hc & _). rewrite view_of_app, fresh_after_app, Hc. cbn [view_of flat_map view app].
  rewrite Hr, Hd, nth_error_repeat' by exact Hi. cbn. rewrite orb_true_r. reflexivity.
Qed.
End BatchEval.

(** *** The serial evaluation loop *)
Section SerialEval.
Context {W Ob A : Type} (U : userland W Ob A) (M : mode) (maxlen : option nat).
Notation led := (ledger_step maxlen 1).

(** The ledger of one environment: complete episodes, then the running one. *)
Definition shape (scores : list (Q * nat)) (q : Q) (n : nat) (L : list episode) : Prop :=
  exists pre, L = pre ++ [mkEp 0 false q n] /\ all_done pre /\ map score_of pre = scores.
Lemma shape_step scores q n L r d b : shape scores q n L ->
  let reset := d || b || at_limit maxlen (S n) in
  shape (if reset then scores ++ [(Qplus q r, S n)] else scores) (if reset then 0%Q else Qplus q r) (if reset then 0 else S n) (led L [(r, d, b)]).
Proof.
  intros (pre & -> & HD & HM) reset. unfold ledger_step.
  assert (Hpre : map (credit maxlen [(r, d, b)]) pre = pre). { clear - HD. induction HD as [|x pre Hx H IH]; cbn [map]; [reflexivity|]. rewrite IH. f_equal. unfold credit. now rewrite Hx. }
  assert (Hc : credit maxlen [(r, d, b)] (mkEp 0 false q n) = mkEp 0 reset (Qplus q r) (S n)). { unfold credit, reset, at_limit. reflexivity. }
  assert (Hj : just_ended maxlen [(r, d, b)] (pre ++ [mkEp 0 false q n]) 0 = reset).
  { unfold just_ended. rewrite existsb_app. replace (existsb _ pre) with false.
    - cbn [existsb orb]. rewrite Hc. cbn. now rewrite orb_false_r.
    - symmetry. clear - HD. induction HD as [|x pre Hx H IH]; cbn [existsb]; [reflexivity|]. rewrite Hx, IH. cbn. now rewrite andb_false_r. }
  rewrite map_app, Hpre. cbn [map seq]. rewrite Hc. cbn [filter]. rewrite Hj. destruct reset.
  - exists (pre ++ [mkEp 0 true (Qplus q r) (S n)]). cbn [map fresh]. split; [reflexivity|]. split.
    + unfold all_done in *. apply Forall_app. split; [exact HD|]. constructor; [reflexivity|constructor].
    + rewrite map_app, HM. reflexivity.
  - exists pre. cbn [map]. rewrite app_nil_r. auto.
Qed.

Definition serial_outcome (L : list episode) (vs : list (Q * nat)) : Prop :=
  match M with
  | NEpisodes k => exists pre, L = pre ++ [fresh 0] /\ all_done pre /\ length pre = k /\ vs = map score_of pre
  | NSteps _ => exists pre e, L = pre ++ [e] /\ all_done pre /\ ep_done e = false /\ vs = match pre with [] => [score_of e] | _ => map score_of pre end
  end.
Definition going (timestep : nat) (scores : list (Q * nat)) : Prop := match M with NSteps k => timestep < k | NEpisodes k => length scores < k end.

Lemma eval_loop_ok : forall fuel cur timestep scores (s s' : W * nat) tr vs L c,
  going timestep scores -> (match cur with None => c = true /\ shape scores 0%Q 0 L | Some (_, q, n) => shape scores q n L end) ->
  eval_loop U M maxlen fuel cur timestep scores s = (s', tr, Ok vs) ->
  serial_outcome (fold_left led (steps_of tr) L) vs /\
  (match M with NSteps k => timestep + length (steps_of tr) = k | _ => True end) /\
  exists c', fresh_after c tr = Some c' /\ (match M with NEpisodes _ => c' = true | _ => True end).
Proof.
  induction fuel as [|fuel IH]; intros cur timestep scores s s' tr vs L c HG Hcur H; cbn [eval_loop] in H; [discriminate|].
  unfold pbind at 1 in H.
  assert (Hstart : exists s1 tr1 obs q n, (match cur with None => obs <-- pcall (fun _ => EReset) (env_reset U) ;;; pret (obs, 0%Q, 0) | Some c => pret c end) s = (s1, tr1, Ok (obs, q, n)) /\
     shape scores q n L /\ steps_of tr1 = [] /\ exists c1, fresh_after c tr1 = Some c1).
  { destruct cur as [[[obs q] n]|].
    - exists s, [], obs, q, n. cbn. eauto.
    - destruct Hcur as [-> Hsh]. unfold pbind, pcall in *. destruct (env_reset U (fst s)) as [w1 [obs|e1]]; [|discriminate].
      exists (w1, snd s), [EReset], obs, 0%Q, 0. cbn. eauto. }
  destruct Hstart as (s1 & tr1 & obs & q & n & Es & Hsh & Hst1 & c1 & Hc1). rewrite Es in H. clear Es Hcur cur.
  unfold pbind at 1 in H. unfold pcall at 1 in H. destruct (agent_act U obs (fst s1)) as [w2 [a|e2]]; [|discriminate].
  unfold pbind at 1 in H. unfold pcall at 1 in H. cbn [fst snd] in H. destruct (env_step U a w2) as [w3 [[[[obs2 r] d] b]|e3]]; [|discriminate].
  unfold pbind at 1 in H. unfold pcall at 1 in H. cbn [fst snd] in H.
  pose proof (shape_step scores q n L r d b Hsh) as Hsh'. cbn zeta in Hsh'.
  assert (Ereset : d || at_limit maxlen (S n) || b = d || b || at_limit maxlen (S n)) by (destruct d, b, (at_limit maxlen (S n)); reflexivity). rewrite Ereset in H.
  set (reset := d || b || at_limit maxlen (S n)) in *. set (L' := led L [(r, d, b)]) in *.
  set (scores' := if reset then scores ++ [(Qplus q r, S n)] else scores) in *.
  destruct (agent_observe U obs2 r d reset w3) as [w4 [u|e4]]; [|discriminate].
  set (term := match M with NSteps k => k <=? S timestep | NEpisodes k => k <=? length scores' end) in *.
  assert (Hfr : forall rest, fresh_after c (tr1 ++ EAct :: EStep (Some (r, d, b)) :: EObserve r d reset :: rest) = fresh_after reset rest).
  { intros rest. rewrite fresh_after_app, Hc1. cbn [app fresh_after orb]. f_equal. unfold reset. destruct d, b, (at_limit maxlen (S n)); reflexivity. }
  assert (Hso : forall rest, steps_of (tr1 ++ EAct :: EStep (Some (r, d, b)) :: EObserve r d reset :: rest) = [(r, d, b)] :: steps_of rest).
  { intros rest. unfold steps_of in *. rewrite flat_map_app, Hst1. reflexivity. }
  destruct term eqn:Et; unfold term in Et; clear term.
  - unfold pret in H. injection H as <- <- <-. cbn [app]. rewrite Hso, Hfr. cbn [fold_left fresh_after steps_of flat_map]. fold L'.
    destruct Hsh' as (pre & EL & HD & HM). split; [|split].
    + unfold serial_outcome. unfold going in HG. destruct M as [k|k].
      * exists pre. eexists. split; [exact EL|]. split; [exact HD|]. split; [reflexivity|]. rewrite <- HM. destruct pre as [|x pre]; [|reflexivity].
        cbn [map] in HM. unfold scores' in HM. destruct reset; [destruct scores; discriminate|]. reflexivity.
      * unfold scores' in *. destruct reset; [|lia]. exists pre. split; [exact EL|]. split; [exact HD|]. rewrite app_length in Et. cbn [length] in Et.
        split; [|]. { rewrite <- (map_length score_of), HM, app_length. cbn [length]. lia. } rewrite <- HM. destruct pre; [|reflexivity]. destruct scores; discriminate.
    + unfold going in HG. destruct M; [|exact I]. cbn [length]. lia.
    + exists reset. split; [reflexivity|]. unfold going, scores' in *. destruct M; [exact I|]. destruct reset; [reflexivity|lia].
  - destruct (eval_loop U M maxlen fuel _ (S timestep) scores' (w4, snd s1)) as [[s5 tr5] res5] eqn:E5. injection H as <- <- ->.
    apply IH with (L := L') (c := reset) in E5.
    + cbn [app]. rewrite Hso, Hfr. cbn [fold_left]. fold L'. destruct E5 as (Q1 & Q2 & Q3). split; [exact Q1|]. split; [|exact Q3]. destruct M; [|exact I]. cbn [length]. lia.
    + unfold going. destruct M; lia.
    + destruct reset; [split; [reflexivity|exact Hsh']|exact Hsh'].
Qed.

Definition svalid : Prop := match M with NSteps k | NEpisodes k => 1 <= k end.
Theorem run_episodes_ok fuel w t0 s' tr vs : svalid -> run_episodes U M maxlen fuel (w, t0) = (s', tr, Ok vs) ->
  serial_outcome (ledger maxlen 1 (steps_of tr)) vs /\ (match M with NSteps k => length (steps_of tr) = k | _ => True end) /\
  exists c, fresh_after true tr = Some c /\ (match M with NEpisodes _ => c = true | _ => True end).
Proof.
  intros HV H. unfold run_episodes in H. apply eval_loop_ok with (L := map fresh (seq 0 1)) (c := true) in H.
  - exact H.
  - unfold going, svalid in *. destruct M; cbn [length]; lia.
  - split; [reflexivity|]. exists []. cbn. split; [reflexivity|]. split; [constructor|reflexivity].
Qed.
End SerialEval.

Lemma runs_fresh {S E} (run : S -> list E -> S -> Prop) (f : list E -> list ev) tr :
  f [] = [] -> (forall a b, f (a ++ b) = f a ++ f b) -> (forall s tr s', run s tr s' -> fresh_after true (f tr) = Some true) -> runs run tr -> fresh_after true (f tr) = Some true.
Proof. intros H0 Ha Hr H. induction H as [|s t s' t' H1 H2 IH]; [now rewrite H0|]. rewrite Ha, fresh_after_app, (Hr _ _ _ H1). exact IH. Qed.
