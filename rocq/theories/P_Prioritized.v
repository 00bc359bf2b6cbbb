(** Lemmas about sums, minima, drawing, and the buffer of M_Prioritized. *)
From Verif Require Import Base P_Base M_Prioritized S_Prioritized P_PriorityTree.
From Coq Require Import ZifyBool ZifyNat Lqa Qminmax.
Open Scope nat_scope.

Lemma Qltb_lt x y : Qltb x y = true <-> (x < y)%Q.
Proof.
  unfold Qltb. rewrite negb_true_iff. split; intros H.
  - apply Qnot_le_lt. intros C. apply Qle_bool_iff in C. congruence.
  - apply not_true_iff_false. intros C. apply Qle_bool_iff in C. lra.
Qed.
Lemma Qltb_ge x y : Qltb x y = false <-> (y <= x)%Q.
Proof.
  rewrite <- not_true_iff_false, Qltb_lt. split; lra.
Qed.
Lemma Qltb_eq x y x' y' : (x == x')%Q -> (y == y')%Q -> Qltb x y = Qltb x' y'.
Proof.
  intros Hx Hy. destruct (Qltb x y) eqn:E; symmetry.
  - apply Qltb_lt in E. apply Qltb_lt. lra.
  - apply Qltb_ge in E. apply Qltb_ge. lra.
Qed.
Ltac qb :=
  repeat match goal with
  | H : Qltb _ _ = true |- _ => apply Qltb_lt in H
  | H : Qltb _ _ = false |- _ => apply Qltb_ge in H
  | |- Qltb _ _ = true => apply Qltb_lt
  | |- Qltb _ _ = false => apply Qltb_ge
  end.

(** ** Sums and minima *)
Definition d0 (o : option Q) : Q := match o with Some v => v | None => 0%Q end.

Lemma Qsum_app l1 l2 : (Qsum (l1 ++ l2) == Qsum l1 + Qsum l2)%Q.
Proof. induction l1; cbn; [ring|]. rewrite IHl1. ring. Qed.
Lemma Qsum_zeros n : (Qsum (repeat 0 n) == 0)%Q.
Proof. induction n; cbn; [reflexivity|]. rewrite IHn. ring. Qed.
Lemma map_d0_repeat n : map d0 (repeat None n) = repeat 0%Q n.
Proof. induction n; cbn; congruence. Qed.
Lemma map_d0_some xs : map d0 (map Some xs) = xs.
Proof. induction xs; cbn; congruence. Qed.
Lemma Qsum_nonneg l : Forall (Qle 0) l -> (0 <= Qsum l)%Q.
Proof. induction 1; cbn; lra. Qed.

Lemma sum_nval d n : wfn op_sum d n -> (d0 (nval n) == Qsum (map d0 (slots d n)))%Q.
Proof.
  revert n. induction d as [|d IH]; intros n Hw.
  - cbn. ring.
  - destruct n as [|v|l r v].
    + rewrite slots_emp, map_d0_repeat, Qsum_zeros. reflexivity.
    + contradiction.
    + cbn [slots wfn] in *. destruct Hw as (Hl & Hr & vs & E & Hne & ->).
      rewrite map_app, Qsum_app, <- (IH l Hl), <- (IH r Hr). rewrite <- E.
      cbn [nval d0]. destruct (nval l), (nval r); cbn; ring.
Qed.

Lemma op_min2 a b : op_min [a; b] = if Qltb b a then b else a.
Proof. reflexivity. Qed.

Lemma min_nval d n : wfn op_min d n ->
  match nval n with
  | None => somes (slots d n) = []
  | Some v => is_min v (somes (slots d n))
  end.
Proof.
  revert n. induction d as [|d IH]; intros n Hw.
  - cbn. destruct (nval n) as [v|]; cbn; [|reflexivity].
    split; [exists v; split; [now left|reflexivity]|]. intros x [->|[]]. lra.
  - destruct n as [|v|l r v].
    + cbn [nval]. rewrite slots_emp. apply somes_repeat_none.
    + contradiction.
    + cbn [slots wfn nval] in *. destruct Hw as (Hl & Hr & vs & E & Hne & ->).
      rewrite somes_app. specialize (IH l Hl) as IL. specialize (IH r Hr) as IR.
      destruct (nval l) as [a|], (nval r) as [b|]; cbn [opt_list app] in E; subst vs.
      * destruct IL as [(x1 & Hx1 & Ex1) Ha], IR as [(x2 & Hx2 & Ex2) Hb].
        rewrite op_min2. destruct (Qltb b a) eqn:Eb; qb; split.
        -- exists x2. split; [apply in_or_app; auto|assumption].
        -- intros x Hx. apply in_app_or in Hx. destruct Hx as [Hx|Hx]; [specialize (Ha x Hx); lra|auto].
        -- exists x1. split; [apply in_or_app; auto|assumption].
        -- intros x Hx. apply in_app_or in Hx. destruct Hx as [Hx|Hx]; [auto|specialize (Hb x Hx); lra].
      * rewrite IR, app_nil_r. exact IL.
      * rewrite IL. exact IR.
      * congruence.
Qed.

Lemma tq_sum_spec q xs : tq_rep op_sum q xs -> exists s, tq_sum q = Ok s /\ (s == Qsum xs)%Q.
Proof.
  intros (Hlen & Ht). unfold tq_sum. rewrite Hlen.
  destruct (Z.of_nat (length xs) =? 0)%Z eqn:E0.
  - destruct xs; cbn in E0; [|lia]. exists 0%Q. split; reflexivity.
  - destruct (tree q) as [[[root il] ir]|]; [|subst xs; cbn in E0; lia].
    destruct Ht as (d & Hir & Hil & Hn & Hwf & Hs).
    destruct (nval root) as [v|] eqn:Ev.
    + exists v. split; [reflexivity|]. pose proof (sum_nval d root Hwf) as H. rewrite Ev, Hs in H. cbn [d0] in H.
      rewrite H. unfold layout. rewrite !map_app, !map_d0_repeat, map_d0_some, !Qsum_app, !Qsum_zeros. ring.
    + apply (wfn_nval_somes op_sum d root Hwf) in Ev. rewrite Hs, layout_somes in Ev. subst xs. cbn in E0. lia.
Qed.

Lemma tq_min_spec q xs : tq_rep op_min q xs ->
  match xs with
  | [] => tq_min q = Ok None
  | _ => exists m, tq_min q = Ok (Some m) /\ is_min m xs
  end.
Proof.
  intros (Hlen & Ht). unfold tq_min. rewrite Hlen.
  destruct (Z.of_nat (length xs) =? 0)%Z eqn:E0.
  - destruct xs; cbn in E0; [reflexivity|lia].
  - destruct (tree q) as [[[root il] ir]|]; [|subst xs; cbn in E0; lia].
    destruct Ht as (d & Hir & Hil & Hn & Hwf & Hs).
    pose proof (min_nval d root Hwf) as H. rewrite Hs, layout_somes in H.
    destruct (nval root) as [v|].
    + destruct xs; [cbn in E0; lia|]. exists v. auto.
    + subst xs. cbn in E0. lia.
Qed.

Lemma is_min_unique m m' l : is_min m l -> is_min m' l -> (m == m')%Q.
Proof.
  intros [(x & Hx & Ex) H] [(x' & Hx' & Ex') H'].
  specialize (H x' Hx'). specialize (H' x Hx). lra.
Qed.
Lemma Qminl_is_min d x l : is_min (Qminl d (x :: l)) (x :: l).
Proof.
  revert x. induction l as [|y l IH]; intros x.
  - cbn. split; [exists x; split; [now left|reflexivity]|]. intros z [->|[]]. lra.
  - specialize (IH y). change (Qminl d (x :: y :: l)) with (Qmin x (Qminl d (y :: l))).
    destruct IH as [(z & Hz & Ez) H].
    destruct (Q.min_spec x (Qminl d (y :: l))) as [[Hlt E]|[Hle E]]; split.
    + exists x. split; [left; auto|]. symmetry; auto.
    + intros w [->|Hw]; rewrite E; [lra|]. specialize (H w Hw). lra.
    + exists z. split; [right; auto|]. rewrite E; auto.
    + intros w [->|Hw]; rewrite E; [auto|]. apply H; auto.
Qed.

(** ** cdf_find *)
Lemma cdf_find_eq ps pos pos' : (pos == pos')%Q -> cdf_find ps pos = cdf_find ps pos'.
Proof.
  revert pos pos'. induction ps as [|p ps IH]; intros pos pos' E; cbn; [reflexivity|].
  rewrite (Qltb_eq pos p pos' p E (Qeq_refl _)). destruct (Qltb pos' p); [reflexivity|].
  f_equal. apply IH. lra.
Qed.

Lemma cdf_find_some ps pos : (0 <= pos)%Q -> (pos < Qsum ps)%Q ->
  exists i, cdf_find ps pos = Some i /\ i < length ps.
Proof.
  revert pos. induction ps as [|p ps IH]; intros pos H0 Hlt; cbn in *.
  - lra.
  - destruct (Qltb pos p) eqn:E; [exists 0; split; [auto|lia]|]. qb.
    destruct (IH (pos - p)%Q ltac:(lra) ltac:(lra)) as (i & Ei & Hi). rewrite Ei. cbn. exists (S i). split; auto. lia.
Qed.

Lemma cdf_find_app l1 l2 pos : Forall (Qle 0) l1 -> (0 <= pos)%Q ->
  cdf_find (l1 ++ l2) pos =
  if Qltb pos (Qsum l1) then cdf_find l1 pos
  else option_map (Nat.add (length l1)) (cdf_find l2 (pos - Qsum l1)%Q).
Proof.
  revert pos. induction l1 as [|p l1 IH]; intros pos Hp H0; cbn [app cdf_find Qsum length].
  - destruct (Qltb pos 0) eqn:E; [qb; lra|].
    rewrite (cdf_find_eq l2 pos (pos - 0)%Q) by ring. destruct (cdf_find l2 (pos - 0)); reflexivity.
  - inversion Hp as [|? ? H1 H2]; subst. pose proof (Qsum_nonneg l1 H2).
    destruct (Qltb pos p) eqn:E.
    + assert (E2 : Qltb pos (p + Qsum l1) = true) by (qb; lra). rewrite E2. reflexivity.
    + qb. rewrite IH by (auto; lra).
      destruct (Qltb pos (p + Qsum l1)) eqn:E2; destruct (Qltb (pos - p) (Qsum l1)) eqn:E3; qb; try lra.
      * reflexivity.
      * rewrite (cdf_find_eq l2 (pos - p - Qsum l1)%Q (pos - (p + Qsum l1))%Q) by ring.
        destruct (cdf_find l2 (pos - (p + Qsum l1))); reflexivity.
Qed.

Lemma cdf_find_bounds ps pos i : cdf_find ps pos = Some i ->
  i < length ps /\ (pos < Qsum (firstn (S i) ps))%Q /\
  ((0 <= pos)%Q -> Forall (Qle 0) ps -> (Qsum (firstn i ps) <= pos)%Q).
Proof.
  revert pos i. induction ps as [|p ps IH]; intros pos i E; cbn in E; [discriminate|].
  destruct (Qltb pos p) eqn:Ep.
  - injection E as <-. qb. cbn. repeat split; [lia|lra|lra].
  - destruct (cdf_find ps (pos - p)) as [j|] eqn:Ej; [|discriminate]. injection E as <-.
    destruct (IH _ _ Ej) as (H1 & H2 & H3). qb. cbn [length firstn Qsum] in *. repeat split; [lia|lra|].
    intros H0 HF. inversion HF; subst. specialize (H3 ltac:(lra) ltac:(auto)). lra.
Qed.

Lemma cdf_find_complete ps pos i : Forall (Qle 0) ps -> i < length ps ->
  (Qsum (firstn i ps) <= pos)%Q -> (pos < Qsum (firstn (S i) ps))%Q -> cdf_find ps pos = Some i.
Proof.
  revert pos i. induction ps as [|p ps IH]; intros pos i HF Hi H1 H2; cbn in Hi; [lia|].
  inversion HF as [|? ? Hp HF']; subst. cbn [cdf_find].
  destruct i as [|i].
  - cbn in H2. replace (Qltb pos p) with true; [reflexivity|]. symmetry. qb. lra.
  - cbn [firstn Qsum] in *.
    assert (0 <= Qsum (firstn i ps))%Q.
    { apply Qsum_nonneg. apply Forall_forall. intros x Hx. rewrite Forall_forall in HF'. apply HF'.
      rewrite <- (firstn_skipn i ps). apply in_or_app. auto. }
    replace (Qltb pos p) with false by (symmetry; qb; lra).
    rewrite (IH (pos - p)%Q i); auto; try lia; try lra.
Qed.

Lemma cdf_find_zeros n pos : (0 <= pos)%Q -> cdf_find (repeat 0%Q n) pos = None.
Proof.
  revert pos; induction n as [|n IH]; intros pos H; cbn; [reflexivity|].
  replace (Qltb pos 0) with false by (symmetry; qb; lra). rewrite IH by lra. reflexivity.
Qed.

Lemma Forall_nonneg_zeros n : Forall (Qle 0) (repeat 0%Q n).
Proof. induction n; constructor; auto. lra. Qed.

Lemma find_spec d : forall fuel il ir n pos i,
  (ir = il + 2 ^ Z.of_nat d)%Z -> d <= fuel -> wfn op_sum d n -> Forall (Qle 0) (map d0 (slots d n)) -> (0 <= pos)%Q ->
  cdf_find (map d0 (slots d n)) pos = Some i -> find fuel il ir n pos = Ok (il + Z.of_nat i)%Z.
Proof.
  induction d as [|d IH]; intros fuel il ir n pos i Hir Hf Hwf Hnn H0 Hc.
  - assert (E : (ir - il =? 1)%Z = true) by (rewrite (size_one 0) by assumption; reflexivity).
    apply cdf_find_bounds in Hc. cbn in Hc. destruct Hc as (Hi & _). assert (i = 0) by lia. subst i.
    destruct fuel; cbn [find]; rewrite E; f_equal; lia.
  - destruct fuel as [|fuel]; [lia|]. cbn [find].
    rewrite (size_one (S d)) by assumption. cbn [Nat.eqb].
    rewrite (center_S d) by assumption.
    destruct n as [|v|l r v].
    + rewrite slots_emp, map_d0_repeat, cdf_find_zeros in Hc by auto. discriminate.
    + contradiction.
    + cbn [wfn slots] in *. destruct Hwf as (Hl & Hr & _).
      rewrite map_app in Hnn, Hc. apply Forall_app in Hnn. destruct Hnn as [Hnl Hnr].
      rewrite cdf_find_app in Hc by auto.
      pose proof (sum_nval d l Hl) as Hsum. change (match nval l with Some v => v | None => 0%Q end) with (d0 (nval l)).
      rewrite (Qltb_eq pos (d0 (nval l)) pos (Qsum (map d0 (slots d l)))) by (auto; reflexivity).
      destruct (Qltb pos (Qsum (map d0 (slots d l)))) eqn:E.
      * apply IH; auto. lia.
      * destruct (cdf_find (map d0 (slots d r)) (pos - Qsum (map d0 (slots d l)))) as [j|] eqn:Ej; [|discriminate].
        cbn in Hc. injection Hc as <-. qb.
        rewrite (IH fuel (il + 2 ^ Z.of_nat d)%Z ir r (pos - d0 (nval l))%Q j).
        -- f_equal. rewrite map_length, slots_length. pose proof (pow2_nat d). lia.
        -- rewrite Hir, Nat2Z.inj_succ, Z.pow_succ_r by lia. ring.
        -- lia.
        -- auto.
        -- auto.
        -- lra.
        -- rewrite <- Ej. apply cdf_find_eq. rewrite Hsum. reflexivity.
Qed.

Lemma layout_nonneg ws il ir : Forall (Qle 0) ws -> Forall (Qle 0) (map d0 (layout ws il ir)).
Proof.
  intros H. unfold layout. rewrite !map_app, !map_d0_repeat, map_d0_some.
  repeat (apply Forall_app; split); auto using Forall_nonneg_zeros.
Qed.

Lemma layout_cdf ws il ir pos i : (il <= 0)%Z -> Forall (Qle 0) ws -> (0 <= pos)%Q -> cdf_find ws pos = Some i ->
  cdf_find (map d0 (layout ws il ir)) pos = Some (Z.to_nat (- il) + i).
Proof.
  intros Hil Hw H0 E. unfold layout. rewrite !map_app, !map_d0_repeat, map_d0_some.
  rewrite cdf_find_app by auto using Forall_nonneg_zeros.
  rewrite (Qltb_eq pos _ pos 0%Q) by (reflexivity || apply Qsum_zeros).
  replace (Qltb pos 0) with false by (symmetry; qb; lra).
  pose proof (Qsum_zeros (Z.to_nat (- il))) as HZ.
  rewrite (cdf_find_eq _ (pos - Qsum (repeat 0%Q (Z.to_nat (- il))))%Q pos) by lra.
  rewrite cdf_find_app by auto. pose proof (cdf_find_bounds _ _ _ E) as (Hi & Hlt & _).
  assert (HS : (Qsum (firstn (S i) ws) <= Qsum ws)%Q).
  { rewrite <- (firstn_skipn (S i) ws) at 2. rewrite Qsum_app.
    assert (0 <= Qsum (skipn (S i) ws))%Q; [|lra]. apply Qsum_nonneg. apply Forall_forall. intros x Hx.
    rewrite Forall_forall in Hw. apply Hw. rewrite <- (firstn_skipn (S i) ws). apply in_or_app; auto. }
  replace (Qltb pos (Qsum ws)) with true by (symmetry; qb; lra).
  rewrite E. cbn. now rewrite repeat_length.
Qed.

(** ** zeroing, restoring, drawing *)
Lemma zero_at_length ws ixs : length (zero_at ws ixs) = length ws.
Proof.
  unfold zero_at. revert ws. induction ixs as [|i ixs IH]; intros ws; cbn; auto.
  rewrite IH. apply list_set_length.
Qed.

Lemma list_set_nonneg ws i (v : Q) : (0 <= v)%Q -> Forall (Qle 0) ws -> Forall (Qle 0) (list_set ws i v).
Proof.
  intros Hv H. revert i. induction H; intros [|i]; cbn; constructor; auto.
Qed.

Lemma zero_at_nonneg ws ixs : Forall (Qle 0) ws -> Forall (Qle 0) (zero_at ws ixs).
Proof.
  unfold zero_at. revert ws. induction ixs as [|i ixs IH]; intros ws H; cbn; auto.
  apply IH. apply list_set_nonneg; auto. lra.
Qed.

Lemma zero_out_spec ixs : forall q ws, tq_rep op_sum q ws -> NoDup ixs -> Forall (fun i => i < length ws) ixs ->
  exists q', zero_out q (map Z.of_nat ixs) = Ok (q', at_ixs ws ixs) /\ tq_rep op_sum q' (zero_at ws ixs).
Proof.
  induction ixs as [|i ixs IH]; intros q ws Hr Hnd Hb; cbn [map zero_out].
  - exists q. split; [reflexivity|exact Hr].
  - inversion Hnd as [|? ? Hni Hnd']; subst. inversion Hb as [|? ? Hi Hb']; subst.
    destruct (tq_write_some op_sum q ws i 0%Q Hr Hi) as (q1 & E1 & H1). rewrite E1. cbn [rbind].
    destruct (nth_error ws i) as [v|] eqn:Ev; [|apply nth_error_None in Ev; lia].
    destruct (IH q1 (list_set ws i 0%Q) H1 Hnd') as (q2 & E2 & H2).
    { eapply Forall_impl; [|exact Hb']. intros a Ha. cbn. rewrite list_set_length. exact Ha. }
    rewrite E2. cbn [rbind]. exists q2. split; [|exact H2].
    do 2 f_equal. unfold at_ixs. cbn [flat_map]. rewrite Ev. cbn [app]. f_equal.
    clear -Hni. induction ixs as [|j ixs IH]; cbn; auto.
    cbn in Hni. rewrite nth_error_list_set.
    replace (j =? i) with false by (symmetry; apply Nat.eqb_neq; intros ->; tauto). cbn.
    f_equal. apply IH. tauto.
Qed.

Lemma assign_cons l i ixs p ps : assign l (i :: ixs) (p :: ps) = assign (list_set l i p) ixs ps.
Proof. reflexivity. Qed.

Lemma restore_spec ixs : forall q l vals, tq_rep op_sum q l -> length vals = length ixs -> Forall (fun i => i < length l) ixs ->
  exists q', restore q (map Z.of_nat ixs) vals = Ok q' /\ tq_rep op_sum q' (assign l ixs vals).
Proof.
  induction ixs as [|i ixs IH]; intros q l vals Hr Hlen Hb; cbn [map restore].
  - exists q. split; [reflexivity|]. destruct vals; exact Hr.
  - destruct vals as [|v vals]; [discriminate|]. inversion Hb as [|? ? Hi Hb']; subst.
    destruct (tq_write_some op_sum q l i v Hr Hi) as (q1 & E1 & H1). rewrite E1. cbn [rbind].
    destruct (IH q1 (list_set l i v) vals H1) as (q2 & E2 & H2).
    + now injection Hlen.
    + eapply Forall_impl; [|exact Hb']. intros a Ha. cbn. rewrite list_set_length. exact Ha.
    + exists q2. split; auto.
Qed.

Lemma at_ixs_cons {B} (l : list B) i v ixs : nth_error l i = Some v -> at_ixs l (i :: ixs) = v :: at_ixs l ixs.
Proof. intros E. unfold at_ixs. cbn. now rewrite E. Qed.

Lemma at_ixs_length {B} (l : list B) ixs : Forall (fun i => i < length l) ixs -> length (at_ixs l ixs) = length ixs.
Proof.
  induction 1 as [|i ixs Hi H IH]; [reflexivity|].
  destruct (nth_error l i) as [v|] eqn:E; [|apply nth_error_None in E; lia].
  rewrite (at_ixs_cons l i v ixs E). cbn. congruence.
Qed.

Lemma assign_restores ixs : forall l ws, length l = length ws -> Forall (fun i => i < length ws) ixs ->
  (forall i, ~ In i ixs -> nth_error l i = nth_error ws i) -> assign l ixs (at_ixs ws ixs) = ws.
Proof.
  induction ixs as [|i ixs IH]; intros l ws Hlen Hb Hag.
  - apply list_ext. intros n. apply Hag. auto.
  - inversion Hb as [|? ? Hi Hb']; subst.
    destruct (nth_error ws i) as [v|] eqn:E; [|apply nth_error_None in E; lia].
    rewrite (at_ixs_cons ws i v ixs E), assign_cons. apply IH; auto.
    + now rewrite list_set_length.
    + intros j Hj. rewrite nth_error_list_set. destruct (j =? i) eqn:Eji.
      * apply Nat.eqb_eq in Eji. subst j. replace (i <? length l) with true by lia. cbn. congruence.
      * cbn. apply Hag. intros [->|H]; [rewrite Nat.eqb_refl in Eji; discriminate|auto].
Qed.

Lemma zero_at_nth ws ixs j : nth_error (zero_at ws ixs) j =
  if existsb (Nat.eqb j) ixs && (j <? length ws) then Some 0%Q else nth_error ws j.
Proof.
  unfold zero_at. revert ws. induction ixs as [|i ixs IH]; intros ws; cbn [fold_left existsb]; auto.
  rewrite IH, list_set_length, nth_error_list_set.
  destruct (Nat.eqb_spec j i) as [->|Hne]; cbn [orb andb].
  - destruct (Nat.ltb i (length ws)); destruct (existsb (Nat.eqb i) ixs); reflexivity.
  - reflexivity.
Qed.

Lemma zero_at_other ws ixs j : ~ In j ixs -> nth_error (zero_at ws ixs) j = nth_error ws j.
Proof.
  intros H. rewrite zero_at_nth. replace (existsb (Nat.eqb j) ixs) with false; [reflexivity|].
  symmetry. apply not_true_iff_false. intros C. apply existsb_exists in C. destruct C as (x & Hx & E).
  apply Nat.eqb_eq in E. subst. auto.
Qed.

Lemma draws_bounds fs : forall ws ds, draws ws fs = Some ds -> Forall (fun i => i < length ws) ds.
Proof.
  induction fs as [|f fs IH]; intros ws ds E; cbn in E.
  - injection E as <-. constructor.
  - destruct (cdf_find ws (Qsum ws * f)) as [i|] eqn:Ei; [|discriminate].
    destruct (draws (list_set ws i 0%Q) fs) as [ds'|] eqn:Ed; [|discriminate]. injection E as <-.
    constructor; [apply (cdf_find_bounds _ _ _ Ei)|].
    specialize (IH _ _ Ed). rewrite list_set_length in IH. exact IH.
Qed.

Lemma frac_ok_iff f : frac_ok f = true <-> (0 <= f < 1)%Q.
Proof.
  unfold frac_ok. rewrite andb_true_iff, Qle_bool_iff, Qltb_lt. tauto.
Qed.

Lemma Qsum_firstn_S ws i v : nth_error ws i = Some v -> (Qsum (firstn (S i) ws) == Qsum (firstn i ws) + v)%Q.
Proof.
  revert i. induction ws as [|w ws IH]; intros [|i] E; cbn in E; try discriminate.
  - injection E as ->. cbn. ring.
  - cbn [firstn Qsum]. cbn [firstn] in IH. rewrite (IH _ E). ring.
Qed.

Lemma cdf_find_pos ws pos i : Forall (Qle 0) ws -> (0 <= pos)%Q -> cdf_find ws pos = Some i ->
  exists v, nth_error ws i = Some v /\ (0 < v)%Q.
Proof.
  intros Hw H0 E. destruct (cdf_find_bounds _ _ _ E) as (Hi & H1 & H2). specialize (H2 H0 Hw).
  destruct (nth_error ws i) as [v|] eqn:Ev; [|apply nth_error_None in Ev; lia].
  exists v. split; auto. rewrite (Qsum_firstn_S ws i v Ev) in H1. lra.
Qed.

Lemma draw_pos_nonneg ws f : Forall (Qle 0) ws -> (0 <= f < 1)%Q -> (0 <= Qsum ws * f)%Q.
Proof. intros Hw Hf. apply Qmult_le_0_compat; [now apply Qsum_nonneg|lra]. Qed.

Lemma draws_positive fs : forall ws ds, Forall (Qle 0) ws -> Forall (fun f => 0 <= f < 1)%Q fs -> draws ws fs = Some ds ->
  NoDup ds /\ Forall (fun i => exists v, nth_error ws i = Some v /\ 0 < v)%Q ds.
Proof.
  induction fs as [|f fs IH]; intros ws ds Hw Hfs E; cbn in E.
  - injection E as <-. split; constructor.
  - destruct (cdf_find ws (Qsum ws * f)) as [i|] eqn:Ei; [|discriminate].
    destruct (draws (list_set ws i 0%Q) fs) as [ds'|] eqn:Ed; [|discriminate]. injection E as <-.
    inversion Hfs as [|? ? Hf Hfs']; subst.
    destruct (IH (list_set ws i 0%Q) ds') as [Hnd Hpos]; auto.
    { apply list_set_nonneg; auto. lra. }
    destruct (cdf_find_pos ws _ i Hw (draw_pos_nonneg ws f Hw Hf) Ei) as (v & Ev & Hv).
    assert (Hni : ~ In i ds').
    { intros Hin. rewrite Forall_forall in Hpos. destruct (Hpos i Hin) as (w & Ew & Hw0).
      rewrite nth_error_list_set, Nat.eqb_refl in Ew.
      assert (i < length ws) by (apply nth_error_Some; congruence).
      replace (i <? length ws) with true in Ew by lia. cbn in Ew. injection Ew as <-. lra. }
    split; constructor; eauto.
    rewrite Forall_forall in Hpos |- *. intros j Hj. destruct (Hpos j Hj) as (w & Ew & Hw0).
    rewrite nth_error_list_set in Ew. destruct (Nat.eqb_spec j i) as [->|]; [contradiction|]. cbn in Ew. eauto.
Qed.

Lemma at_ixs_ext {B} (l l' : list B) ixs : (forall i, In i ixs -> nth_error l i = nth_error l' i) -> at_ixs l ixs = at_ixs l' ixs.
Proof.
  intros H. induction ixs as [|i ixs IH]; [reflexivity|]. unfold at_ixs in *. cbn. rewrite (H i) by (left; auto).
  f_equal. apply IH. intros; apply H; right; auto.
Qed.

Lemma tq_root_sum q ws root il ir d v : tree q = Some (root, il, ir) -> nval root = Some v ->
  wfn op_sum d root -> slots d root = layout ws il ir -> (v == Qsum ws)%Q.
Proof.
  intros _ Ev Hwf Hs. pose proof (sum_nval d root Hwf) as H. rewrite Ev, Hs in H. cbn [d0] in H.
  rewrite H. unfold layout. rewrite !map_app, !map_d0_repeat, map_d0_some, !Qsum_app, !Qsum_zeros. ring.
Qed.

Lemma draw_loop_spec fs : forall q ws ds, tq_rep op_sum q ws -> Forall (Qle 0) ws -> Forall (fun f => 0 <= f < 1)%Q fs ->
  draws ws fs = Some ds ->
  exists q', draw_loop q fs = Ok (q', map Z.of_nat ds, at_ixs ws ds) /\ tq_rep op_sum q' (zero_at ws ds).
Proof.
  induction fs as [|f fs IH]; intros q ws ds Hr Hw Hfs E.
  - cbn in E. injection E as <-. exists q. split; [reflexivity|exact Hr].
  - destruct (draws_positive (f :: fs) ws ds Hw Hfs E) as [Hnd _].
    cbn in E. destruct (cdf_find ws (Qsum ws * f)) as [i|] eqn:Ei; [|discriminate].
    destruct (draws (list_set ws i 0%Q) fs) as [ds'|] eqn:Ed; [|discriminate]. injection E as <-.
    inversion Hfs as [|? ? Hf Hfs']; subst.
    destruct (cdf_find_bounds _ _ _ Ei) as (Hi & _).
    cbn [draw_loop]. pose proof Hr as (Hlen & Ht).
    destruct (tree q) as [[[root il] ir]|] eqn:Etr; [|subst ws; cbn in Hi; lia].
    destruct Ht as (d & Hir & Hil & Hn & Hwf & Hs).
    destruct (nval root) as [tot|] eqn:Ev;
      [|apply (wfn_nval_somes op_sum d root Hwf) in Ev; rewrite Hs, layout_somes in Ev; subst ws; cbn in Hi; lia].
    pose proof (tq_root_sum q ws root il ir d tot Etr Ev Hwf Hs) as Htot.
    assert (H0 : (0 <= tot * f)%Q). { rewrite Htot. now apply draw_pos_nonneg. }
    rewrite (find_spec d (fuel_of il ir) il ir root (tot * f)%Q (Z.to_nat (- il) + i)); auto using fuel_of_ge.
    + cbn [rbind]. replace (il + Z.of_nat (Z.to_nat (- il) + i))%Z with (Z.of_nat i) by lia.
      destruct (tq_write_some op_sum q ws i 0%Q Hr Hi) as (q1 & E1 & H1). rewrite E1. cbn [rbind].
      destruct (nth_error ws i) as [v|] eqn:Evi; [|apply nth_error_None in Evi; lia].
      destruct (IH q1 (list_set ws i 0%Q) ds' H1) as (q2 & E2 & H2); auto.
      { apply list_set_nonneg; auto. lra. }
      rewrite E2. cbn [rbind]. exists q2. split; [|exact H2].
      cbn [map]. do 2 f_equal. rewrite (at_ixs_cons ws i v ds' Evi). f_equal.
      inversion Hnd as [|? ? Hni _]; subst. apply at_ixs_ext. intros j Hj. rewrite nth_error_list_set.
      replace (j =? i) with false by (symmetry; apply Nat.eqb_neq; intros ->; auto). reflexivity.
    + rewrite Hs. now apply layout_nonneg.
    + rewrite Hs. apply layout_cdf; auto. rewrite <- Ei. apply cdf_find_eq. rewrite Htot. reflexivity.
Qed.

Lemma uniform_sample_spec q ws us wait : tq_rep op_sum q ws -> NoDup us -> Forall (fun i => i < length ws) us ->
  exists q', uniform_sample q (map Z.of_nat us) wait = Ok (q', map Z.of_nat us, at_ixs ws us) /\
    tq_rep op_sum q' (if wait then zero_at ws us else ws).
Proof.
  intros Hr Hnd Hb. unfold uniform_sample.
  destruct (zero_out_spec us q ws Hr Hnd Hb) as (q1 & E1 & H1). rewrite E1. cbn [rbind]. destruct wait.
  - exists q1. auto.
  - destruct (restore_spec us q1 (zero_at ws us) (at_ixs ws us) H1) as (q2 & E2 & H2).
    + now apply at_ixs_length.
    + eapply Forall_impl; [|exact Hb]. intros a Ha. cbn. now rewrite zero_at_length.
    + rewrite E2. cbn [rbind]. exists q2. split; [reflexivity|].
      rewrite assign_restores in H2; auto using zero_at_length, zero_at_other.
Qed.

Lemma prioritized_sample_spec q ws fs ds wait : tq_rep op_sum q ws -> Forall (Qle 0) ws ->
  Forall (fun f => 0 <= f < 1)%Q fs -> draws ws fs = Some ds ->
  exists q', prioritized_sample q fs wait = Ok (q', map Z.of_nat ds, at_ixs ws ds) /\
    tq_rep op_sum q' (if wait then zero_at ws ds else ws).
Proof.
  intros Hr Hw Hfs Hd. unfold prioritized_sample.
  destruct (draw_loop_spec fs q ws ds Hr Hw Hfs Hd) as (q1 & E1 & H1). rewrite E1. cbn [rbind].
  pose proof (draws_bounds fs ws ds Hd) as Hb. destruct wait.
  - exists q1. auto.
  - destruct (restore_spec ds q1 (zero_at ws ds) (at_ixs ws ds) H1) as (q2 & E2 & H2).
    + now apply at_ixs_length.
    + eapply Forall_impl; [|exact Hb]. intros a Ha. cbn. now rewrite zero_at_length.
    + rewrite E2. cbn [rbind]. exists q2. split; [reflexivity|].
      rewrite assign_restores in H2; auto using zero_at_length, zero_at_other.
Qed.

Lemma set_priorities_spec ixs : forall s m mp ws pp ps, tq_rep op_sum s ws -> tq_rep op_min m pp -> length ws = length pp ->
  Forall (fun i => i < length ws) ixs -> length ixs = length ps ->
  exists s' m', set_priorities s m mp (map Z.of_nat ixs) ps = Ok (s', m', Qmaxl mp ps) /\
    tq_rep op_sum s' (assign ws ixs ps) /\ tq_rep op_min m' (assign pp ixs ps).
Proof.
  induction ixs as [|i ixs IH]; intros s m mp ws pp ps Hs Hm Hl Hb Hlen; cbn [map set_priorities].
  - destruct ps; [|discriminate]. exists s, m. auto.
  - destruct ps as [|p ps]; [discriminate|]. inversion Hb as [|? ? Hi Hb']; subst.
    destruct (proj1 (tq_set_spec op_sum s ws (Z.of_nat i) p Hs) i ltac:(lia) ltac:(lia)) as (s1 & E1 & H1).
    destruct (proj1 (tq_set_spec op_min m pp (Z.of_nat i) p Hm) i ltac:(lia) ltac:(lia)) as (m1 & E2 & H2).
    rewrite E1. cbn [rbind]. rewrite E2. cbn [rbind].
    destruct (IH s1 m1 (if Qltb mp p then p else mp) _ _ ps H1 H2) as (s2 & m2 & E & Ha & Hb2).
    + now rewrite !list_set_length.
    + eapply Forall_impl; [|exact Hb']. intros a Ha. cbn. rewrite list_set_length. exact Ha.
    + now injection Hlen.
    + exists s2, m2. rewrite E. auto.
Qed.

Lemma data_at_spec {A} (l : list A) ixs : Forall (fun i => i < length l) ixs -> data_at l (map Z.of_nat ixs) = Ok (at_ixs l ixs).
Proof.
  induction 1 as [|i ixs Hi H IH]; [reflexivity|]. cbn [map data_at].
  destruct (nth_error l i) as [v|] eqn:E; [|apply nth_error_None in E; lia].
  rewrite (at_ixs_cons l i v ixs E). unfold py_get.
  replace (Z.of_nat i <? 0)%Z with false by lia. replace (Z.of_nat i <? 0)%Z with false by lia.
  rewrite Nat2Z.id, E. cbn [rbind]. rewrite IH. reflexivity.
Qed.

(** ** Refinement of the buffer *)
Ltac splits := lazymatch goal with |- _ /\ _ => split; [|splits] | _ => idtac end.
Definition pb_rel {A} (b : pbuf A) (s : sbuf A) : Prop :=
  capacity b = s_cap s /\ data b = s_vals s /\ tq_rep op_sum (sums b) (s_ws s) /\ tq_rep op_min (mins b) (s_ps s) /\
  max_priority b = s_max s /\ wait_after b = s_wait s /\ flag_wait b = s_flag s /\
  sampled_indices b = option_map (map Z.of_nat) (s_sampled s) /\
  length (s_ws s) = length (s_vals s) /\ length (s_ps s) = length (s_vals s) /\
  Forall (Qle 0) (s_ws s) /\
  match s_cap s with Some c => length (s_vals s) <= c | None => True end.

Lemma pb_init_rel {A} cap wait m : pb_rel (@pb_init A cap wait m) (sb_init cap wait m).
Proof. unfold pb_rel; cbn. splits; auto using tq_init_rep. destruct cap; auto. lia. Qed.

Lemma nodupb_NoDup l : nodupb l = true <-> NoDup l.
Proof.
  induction l as [|x l IH]; cbn; [split; auto using NoDup_nil|].
  rewrite andb_true_iff, IH, negb_true_iff. split.
  - intros [H1 H2]. constructor; auto. intros Hin. apply not_true_iff_false in H1. apply H1.
    apply existsb_exists. exists x. split; auto. apply Nat.eqb_refl.
  - intros H. inversion H; subst. split; auto. apply not_true_iff_false. intros C. apply existsb_exists in C.
    destruct C as (y & Hy & E). apply Nat.eqb_eq in E. subst. auto.
Qed.

Lemma assign_length l ixs ps : length (assign l ixs ps) = length l.
Proof.
  revert l ps. induction ixs as [|i ixs IH]; intros l [|p ps]; try reflexivity.
  rewrite assign_cons, IH. apply list_set_length.
Qed.

Lemma assign_nonneg l ixs ps : Forall (Qle 0) l -> Forall (Qlt 0) ps -> Forall (Qle 0) (assign l ixs ps).
Proof.
  revert l ps. induction ixs as [|i ixs IH]; intros l [|p ps] Hl Hp; try exact Hl.
  inversion Hp; subst. rewrite assign_cons. apply IH; auto. apply list_set_nonneg; auto. lra.
Qed.

Lemma pb_popleft_rel {A} (b : pbuf A) s x t : pb_rel b s -> s_vals s = x :: t ->
  exists b', pb_popleft b = Ok (b', x) /\
    pb_rel b' (mkSb (s_cap s) t (tl (s_ws s)) (tl (s_ps s)) (s_max s) (s_wait s) (s_flag s) (s_sampled s)).
Proof.
  intros (Hc & Hd & Hs & Hm & Hx & Hw & Hf & Hsi & L1 & L2 & Hnn & Hcap) Ev.
  unfold pb_popleft. rewrite Hd, Ev. rewrite Ev in L1, L2.
  destruct (s_ws s) as [|w ws]; [discriminate|]. destruct (s_ps s) as [|p ps]; [discriminate|].
  destruct (tq_popleft_spec op_sum (sums b) w ws Hs) as (q1 & E1 & H1).
  destruct (tq_popleft_spec op_min (mins b) p ps Hm) as (q2 & E2 & H2).
  rewrite E1. cbn [rbind]. rewrite E2. cbn [rbind]. eexists. split; [reflexivity|].
  unfold pb_rel; cbn. inversion Hnn; subst. cbn in L1, L2. splits; auto; try lia.
  destruct (s_cap s); auto. rewrite Ev in Hcap. cbn in Hcap. lia.
Qed.

Lemma pb_step_refines {A} (b : pbuf A) s o s' r : pb_rel b s -> sb_step s o = Some (s', r) ->
  out_eq (snd (pb_step b o)) r /\ pb_rel (fst (pb_step b o)) s'.
Proof.
  intros HR E. pose proof HR as (Hc & Hd & Hs & Hm & Hx & Hw & Hf & Hsi & L1 & L2 & Hnn & Hcap).
  destruct o as [x p| |o u|ps|]; cbn [sb_step pb_step] in *.
  - (* append *)
    set (p' := match p with None => s_max s | Some p => p end) in *.
    destruct (negb (Qltb 0 p')) eqn:Ep; [discriminate|].
    apply negb_false_iff in Ep. qb.
    assert (Happ : forall b1 s1, pb_rel b1 s1 -> s_max s1 = s_max s -> capacity b1 = s_cap s1 ->
      match s_cap s1 with Some c => length (s_vals s1) < c | None => True end ->
      exists b2, (s0 <- tq_append op_sum (sums b1) (match p with None => max_priority b1 | Some p => p end) ;;
        m0 <- tq_append op_min (mins b1) (match p with None => max_priority b1 | Some p => p end) ;;
        Ok (mkPb (capacity b1) (data b1 ++ [x]) s0 m0 (max_priority b1) (wait_after b1) (flag_wait b1) (sampled_indices b1))) = Ok b2 /\
        pb_rel b2 (mkSb (s_cap s1) (s_vals s1 ++ [x]) (s_ws s1 ++ [p']) (s_ps s1 ++ [p']) (s_max s1) (s_wait s1) (s_flag s1) (s_sampled s1))).
    { intros b1 s1 (Hc1 & Hd1 & Hs1 & Hm1 & Hx1 & Hw1 & Hf1 & Hsi1 & L11 & L21 & Hnn1 & Hcap1) Hmax _ Hlt.
      replace (match p with None => max_priority b1 | Some p => p end) with p' by (unfold p'; destruct p; congruence).
      destruct (tq_append_spec op_sum (sums b1) (s_ws s1) p' Hs1) as (q1 & E1 & H1).
      destruct (tq_append_spec op_min (mins b1) (s_ps s1) p' Hm1) as (q2 & E2 & H2).
      rewrite E1. cbn [rbind]. rewrite E2. cbn [rbind]. eexists. split; [reflexivity|].
      unfold pb_rel; cbn. rewrite !app_length. cbn. splits; auto; try lia.
      - now rewrite Hd1.
      - apply Forall_app. split; auto. constructor; auto. lra.
      - destruct (s_cap s1); auto. lia. }
    unfold pb_append. rewrite Hc.
    destruct (s_cap s) as [c|] eqn:Ecap.
    + destruct c as [|c].
      * (* capacity 0 *)
        injection E as <- <-. assert (s_vals s = []) by (destruct (s_vals s); cbn in *; auto; lia).
        rewrite Hd, H. cbn. unfold pb_popleft. rewrite Hd, H. cbn. auto.
      * injection E as <- <-. destruct (length (data b) =? S c) eqn:El.
        -- rewrite Hd in El. apply Nat.eqb_eq in El.
           destruct (s_vals s) as [|y t] eqn:Evs; [discriminate|].
           destruct (pb_popleft_rel b s y t HR Evs) as (b1 & E1 & H1).
           rewrite E1. cbn [rbind].
           destruct (Happ b1 _ H1) as (b2 & E2 & H2); cbn; auto.
           { rewrite (proj1 H1). cbn. auto. }
           { rewrite Ecap. cbn in El. lia. }
           rewrite E2. cbn. split; [reflexivity|].
           cbn in H2. rewrite Ecap in H2.
           replace (lastn (S c) (y :: t ++ [x])) with (t ++ [x]).
           replace (lastn (S c) (s_ws s ++ [p'])) with (tl (s_ws s) ++ [p']).
           replace (lastn (S c) (s_ps s ++ [p'])) with (tl (s_ps s) ++ [p']). exact H2.
           { destruct (s_ps s) as [|z zs]; [discriminate|]. cbn [tl app]. cbn in El, L2.
             rewrite lastn_cons by (rewrite app_length; cbn; lia). now rewrite lastn_all by (rewrite app_length; cbn; lia). }
           { destruct (s_ws s) as [|z zs]; [discriminate|]. cbn [tl app]. cbn in El, L1.
             rewrite lastn_cons by (rewrite app_length; cbn; lia). now rewrite lastn_all by (rewrite app_length; cbn; lia). }
           { cbn in El. rewrite lastn_cons by (rewrite app_length; cbn; lia). now rewrite lastn_all by (rewrite app_length; cbn; lia). }
        -- cbn [rbind]. rewrite Hd in El. apply Nat.eqb_neq in El.
           destruct (Happ b s HR eq_refl) as (b2 & E2 & H2); auto.
           { congruence. } { rewrite Ecap. lia. }
           rewrite E2. cbn. split; [reflexivity|].
           rewrite Ecap in H2. rewrite !lastn_all by (rewrite app_length; cbn; lia). exact H2.
    + injection E as <- <-. cbn [rbind].
      destruct (Happ b s HR eq_refl) as (b2 & E2 & H2); auto.
      { congruence. } { now rewrite Ecap. }
      rewrite E2. cbn. split; [reflexivity|].
      rewrite Ecap in H2. exact H2.
  - (* popleft *)
    destruct (s_vals s) as [|x t] eqn:Ev.
    + injection E as <- <-. unfold pb_popleft. rewrite Hd, ?Ev. cbn. auto.
    + injection E as <- <-. destruct (pb_popleft_rel b s x t HR Ev) as (b' & E1 & H1). rewrite E1. cbn. auto.
  - (* sample *)
    unfold pb_sample. rewrite Hw, Hf.
    replace (negb (s_wait s) || negb (s_flag s)) with (negb (s_wait s && s_flag s)) by (destruct (s_wait s), (s_flag s); auto).
    destruct (s_wait s && s_flag s) eqn:Ewf; cbn [negb passert rbind].
    { injection E as <- <-. cbn. auto. }
    destruct (tq_sum_spec _ _ Hs) as (tot & Et & Htot). rewrite Et. cbn [rbind].
    pose proof (tq_min_spec _ _ Hm) as HM.
    destruct (s_ps s) as [|p0 pt] eqn:Eps.
    { rewrite HM. cbn [rbind]. destruct (length (s_vals s) =? 0) eqn:El; [|cbn in L2; lia].
      cbn in E. injection E as <- <-. cbn. auto. }
    destruct HM as (mn & Em & Hmn). rewrite Em. cbn [rbind].
    replace (length (s_vals s) =? 0) with false in E by (cbn in L2; lia). cbn [orb] in E.
    assert (Hz : Qeq_bool tot 0 = Qeq_bool (Qsum (s_ws s)) 0).
    { destruct (Qeq_bool (Qsum (s_ws s)) 0) eqn:E1.
      - apply Qeq_bool_iff in E1. apply Qeq_bool_iff. lra.
      - apply Qeq_bool_neq in E1. apply not_true_iff_false. intros C. apply Qeq_bool_iff in C. apply E1. lra. }
    rewrite Hz. destruct (Qeq_bool (Qsum (s_ws s)) 0) eqn:E0.
    { injection E as <- <-. cbn. auto. }
    apply Qeq_bool_neq in E0.
    set (us := if Qltb 0 u then map Z.to_nat (so_uniform o) else []) in *.
    destruct (negb (_ && _ && forallb frac_ok (so_fracs o))) eqn:Eg in E; [discriminate|].
    apply negb_false_iff in Eg. apply andb_true_iff in Eg. destruct Eg as [Eg Hfr].
    apply andb_true_iff in Eg. destruct Eg as [Hur Hund].
    assert (Hfs : Forall (fun f => 0 <= f < 1)%Q (so_fracs o)).
    { apply Forall_forall. intros f Hin. rewrite forallb_forall in Hfr. apply frac_ok_iff. auto. }
    apply nodupb_NoDup in Hund.
    assert (Hub : Forall (fun i => i < length (s_ws s)) us).
    { unfold us. destruct (Qltb 0 u); [|constructor]. apply Forall_forall. intros i Hi. apply in_map_iff in Hi.
      destruct Hi as (z & <- & Hz'). rewrite forallb_forall in Hur. specialize (Hur z Hz'). lia. }
    set (ws1 := if s_wait s then zero_at (s_ws s) us else s_ws s) in *.
    destruct (draws ws1 (so_fracs o)) as [ds|] eqn:Ed; [|discriminate]. injection E as <- <-.
    assert (Hstage1 : exists q1 mp, (if Qltb 0 u
         then '(s1, ixs, vals) <- uniform_sample (sums b) (so_uniform o) (s_wait s) ;;
              Ok (s1, ixs, vals, (u / inject_Z (Z.of_nat (length (data b))) + (1 - u) * (mn / tot))%Q)
         else Ok (sums b, [], [], (mn / tot)%Q)) = Ok (q1, map Z.of_nat us, at_ixs (s_ws s) us, mp) /\
       tq_rep op_sum q1 ws1 /\
       (mp == (if Qltb 0 u then u / inject_Z (Z.of_nat (length (s_vals s))) + (1 - u) * (Qminl 0 (p0 :: pt) / Qsum (s_ws s))
               else Qminl 0 (p0 :: pt) / Qsum (s_ws s)))%Q).
    { assert (Hmq : (mn / tot == Qminl 0 (p0 :: pt) / Qsum (s_ws s))%Q).
      { rewrite Htot. rewrite (is_min_unique mn (Qminl 0 (p0 :: pt)) (p0 :: pt)); auto using Qminl_is_min. reflexivity. }
      destruct (Qltb 0 u) eqn:Eu.
      - assert (Hmap : so_uniform o = map Z.of_nat us).
        { unfold us. rewrite map_map. rewrite <- (map_id (so_uniform o)) at 1. apply map_ext_in. intros z Hz'.
          rewrite forallb_forall in Hur. specialize (Hur z Hz'). lia. }
        rewrite Hmap. destruct (uniform_sample_spec (sums b) (s_ws s) us (s_wait s) Hs Hund Hub) as (q1 & E1 & H1).
        rewrite E1. cbn [rbind]. eexists q1, _. split; [reflexivity|]. split; [exact H1|].
        rewrite Hd, Hmq. reflexivity.
      - exists (sums b), (mn / tot)%Q. split; [reflexivity|]. split; [|exact Hmq].
        unfold ws1, us. destruct (s_wait s); exact Hs. }
    destruct Hstage1 as (q1 & mp & Es1 & Hr1 & Hmp).
    rewrite Es1. cbn [rbind].
    assert (Hnn1 : Forall (Qle 0) ws1) by (unfold ws1; destruct (s_wait s); auto using zero_at_nonneg).
    destruct (prioritized_sample_spec q1 ws1 (so_fracs o) ds (s_wait s) Hr1 Hnn1 Hfs Ed) as (q2 & Es2 & Hr2).
    rewrite Es2. cbn [rbind].
    assert (Hlen1 : length ws1 = length (s_vals s)).
    { unfold ws1. destruct (s_wait s); rewrite ?zero_at_length; auto. }
    pose proof (draws_bounds _ _ _ Ed) as Hdb. rewrite Hlen1 in Hdb. rewrite L1 in Hub.
    rewrite <- map_app, Hd, data_at_spec by (apply Forall_app; auto). cbn [rbind fst snd].
    split.
    + cbn [out_eq]. split; [reflexivity|]. split; [|exact Hmp].
      induction (at_ixs (s_ws s) us ++ at_ixs ws1 ds) as [|v l IHl]; cbn [map]; constructor; auto.
      rewrite Htot. reflexivity.
    + unfold pb_rel; cbn. splits; auto.
      all: try (rewrite Eps; auto; fail).
      all: try (destruct (s_wait s); rewrite ?zero_at_length; auto using zero_at_nonneg; fail).
  - (* set_last_priority *)
    unfold pb_set_last_priority. rewrite Hw, Hf.
    replace (negb (s_wait s) || s_flag s) with (negb (s_wait s && negb (s_flag s))) by (destruct (s_wait s), (s_flag s); auto).
    destruct (s_wait s && negb (s_flag s)); cbn [negb passert rbind].
    { injection E as <- <-. cbn. auto. }
    change (forallb (fun p => Qltb 0 p) ps) with (forallb (Qltb 0) ps).
    destruct (forallb (Qltb 0) ps) eqn:Ep; cbn [negb passert rbind] in *; [|injection E as <- <-; cbn; auto].
    rewrite Hsi. destruct (s_sampled s) as [ixs|]; cbn [option_map]; [|injection E as <- <-; cbn; auto].
    rewrite map_length. destruct (length ixs =? length ps) eqn:El; cbn [negb passert rbind] in *; [|injection E as <- <-; cbn; auto].
    destruct (forallb (fun i => i <? length (s_vals s)) ixs) eqn:Eb; cbn [negb] in E; [|discriminate].
    injection E as <- <-.
    assert (Hb : Forall (fun i => i < length (s_ws s)) ixs).
    { apply Forall_forall. intros i Hi. rewrite forallb_forall in Eb. specialize (Eb i Hi). lia. }
    destruct (set_priorities_spec ixs (sums b) (mins b) (max_priority b) _ _ ps Hs Hm ltac:(lia) Hb ltac:(lia)) as (s2 & m2 & E2 & Ha & Hb2).
    rewrite E2. cbn. split; [reflexivity|].
    unfold pb_rel; cbn. rewrite !assign_length. splits; auto; try congruence.
    apply assign_nonneg; auto. apply Forall_forall. intros p Hp. rewrite forallb_forall in Ep. specialize (Ep p Hp). now qb.
  - injection E as <- <-. cbn. rewrite Hd. auto.
Qed.

Lemma pb_refines {A} ops : forall (b : pbuf A) s s' rs, pb_rel b s -> sb_run s ops = Some (s', rs) ->
  Forall2 out_eq (snd (run pb_step b ops)) rs /\ pb_rel (fst (run pb_step b ops)) s'.
Proof.
  induction ops as [|o ops IH]; intros b s s' rs HR E; cbn in E.
  - injection E as <- <-. cbn. auto.
  - destruct (sb_step s o) as [[s1 r]|] eqn:E1; [|discriminate].
    destruct (sb_run s1 ops) as [[s2 rs']|] eqn:E2; [|discriminate]. injection E as <- <-.
    destruct (pb_step_refines b s o s1 r HR E1) as [Ho HR1]. cbn [run].
    destruct (pb_step b o) as [b1 r1]. cbn in Ho, HR1.
    destruct (IH b1 s1 s2 rs' HR1 E2) as [Hos HR2]. destruct (run pb_step b1 ops). cbn in *. auto.
Qed.
