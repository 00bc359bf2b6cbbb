(** Proofs for C127: rounding errors of the priority tree. *)
From Coq Require Import Reals Lra ZifyBool ZifyNat.
From Verif Require Import Base P_Base M_Prioritized S_Prioritized P_PriorityTree P_PrioritizedProps M_FloatTree S_FloatTree.
Open Scope R_scope.

Lemma rsum_app l1 l2 : rsum (l1 ++ l2) = rsum l1 + rsum l2.
Proof. induction l1 as [|x l IH]; cbn [rsum app]; [lra|]. rewrite IH. lra. Qed.

Lemma Rabs_le_inv x y : Rabs x <= y -> - y <= x <= y.
Proof. unfold Rabs. destruct (Rcase_abs x); lra. Qed.

(** ** Depth of the tree *)
Section Depth.
Context {V : Type}.
Variable op : list V -> V.

Definition shallow (N : nat) (q : tqueue V) : Prop :=
  match tree q with
  | None => True
  | Some (_, il, ir) => exists d : nat, (ir = il + 2 ^ Z.of_nat d)%Z /\ (d <= depth N)%nat /\ (2 * - il < 2 ^ Z.of_nat d)%Z
  end.

Lemma shallow_mono N N' q : (N <= N')%nat -> shallow N q -> shallow N' q.
Proof.
  intros H. unfold shallow. destruct (tree q) as [[[root il] ir]|]; auto.
  intros (d & H1 & H2 & H3). exists d. split; [auto|]. split; [|auto].
  unfold depth in *. pose proof (Nat.log2_up_le_mono N N' H). lia.
Qed.

Lemma tq_write_bounds q i v q' ret : tq_write op q i v = Ok (q', ret) ->
  match tree q, tree q' with
  | Some (_, il, ir), Some (_, il', ir') => il = il' /\ ir = ir'
  | _, _ => False
  end /\ tlen q' = tlen q.
Proof.
  unfold tq_write. destruct (tree q) as [[[root il] ir]|]; [|discriminate].
  destruct (write op (fuel_of il ir) il ir root i v) as [[root' r]|]; cbn [rbind]; [|discriminate].
  intros H. injection H as <- <-. cbn. auto.
Qed.

Lemma shallow_write N q i v q' ret : tq_write op q i v = Ok (q', ret) -> shallow N q -> shallow N q'.
Proof.
  intros H. apply tq_write_bounds in H. destruct H as [H _]. unfold shallow.
  destruct (tree q) as [[[root il] ir]|]; [|contradiction]. destruct (tree q') as [[[root' il'] ir']|]; [|contradiction].
  destruct H as [<- <-]. auto.
Qed.

Lemma shallow_step N q xs o : tq_rep op q xs -> shallow N q ->
  (length xs <= N)%nat -> (length (fst (tq_spec xs o)) <= N)%nat -> shallow N (fst (tq_step op q o)).
Proof.
  intros Hr Hs HN HN'. destruct o as [v| |i v]; cbn [tq_step tq_spec] in *.
  - destruct (tq_append op q v) as [q'|] eqn:E; [|exact Hs]. cbn [fst].
    unfold tq_append in E. destruct (tlen q =? 0)%Z eqn:E0.
    + injection E as <-. unfold shallow. cbn. exists 0%nat. unfold depth. cbn. lia.
    + destruct Hr as (Hlen & Ht). unfold shallow in Hs. destruct (tree q) as [[[root il] ir]|] eqn:Et; [|discriminate].
      destruct Ht as (d' & Hir' & Hil & Hn & _). destruct Hs as (d & Hir & Hd & Hil2).
      cbn [fst] in HN'. rewrite app_length in HN'. cbn [length] in HN'.
      destruct (ir =? tlen q)%Z eqn:Eg.
      * destruct (nval root) as [rv|]; [|discriminate]. cbn [rbind] in E.
        destruct (tq_write op _ (tlen q) (Some v)) as [[q1 [w|]]|] eqn:Ew; cbn [rbind] in E; try discriminate.
        injection E as <-. apply tq_write_bounds in Ew. destruct Ew as [Ew _]. cbn [tree] in Ew.
        unfold shallow. cbn [tree]. destruct (tree q1) as [[[r1 il1] ir1]|]; [|contradiction].
        destruct Ew as [<- <-]. exists (S d). pose proof (pow2_pos d) as Hp.
        rewrite Nat2Z.inj_succ, Z.pow_succ_r by lia. split; [lia|]. split; [|lia].
        unfold depth. apply le_n_S. rewrite <- (Nat.log2_up_pow2 d) by lia.
        destruct d as [|d1]; [cbn; lia|].
        assert (HN2 : (2 ^ d1 < N)%nat).
        { assert (Z.of_nat (2 ^ d1) < Z.of_nat N)%Z; [|lia]. rewrite pow2_nat.
          rewrite Nat2Z.inj_succ, Z.pow_succ_r in Hir, Hil2 by lia. lia. }
        rewrite Nat.log2_up_pow2 by lia.
        apply Nat.log2_up_le_mono in HN2. rewrite Nat.log2_up_succ_pow2 in HN2 by lia. exact HN2.
      * cbn [rbind] in E. destruct (tq_write op _ (tlen q) (Some v)) as [[q1 [w|]]|] eqn:Ew; cbn [rbind] in E; try discriminate.
        injection E as <-. apply tq_write_bounds in Ew. destruct Ew as [Ew _]. cbn [tree] in Ew.
        unfold shallow. cbn [tree]. destruct (tree q1) as [[[r1 il1] ir1]|]; [|contradiction].
        destruct Ew as [<- <-]. exists d. auto.
  - destruct (tq_popleft op q) as [[q' r]|] eqn:E; [|exact Hs]. cbn [fst].
    unfold tq_popleft in E. destruct (0 <? tlen q)%Z; cbn [passert rbind] in E; [|discriminate].
    destruct (tq_write op q 0 None) as [[q1 ret]|] eqn:Ew; cbn [rbind] in E; [|discriminate].
    pose proof (shallow_write N q 0 None q1 ret Ew Hs) as H1. unfold shallow in H1.
    apply tq_write_bounds in Ew. destruct Ew as [Ew _]. destruct Hr as (Hlen & Ht).
    destruct (tree q) as [[[root0 il0] ir0]|]; [|contradiction].
    destruct (tree q1) as [[[root il] ir]|]; [|discriminate]. destruct Ew as [-> ->].
    destruct Ht as (d' & Hir' & Hil & Hn & _).
    destruct (tlen q - 1 =? 0)%Z eqn:El; [injection E as <- <-; exact I|].
    destruct H1 as (d & Hir & Hd & Hil2).
    destruct d as [|d]; [exfalso; cbn in Hir, Hil2; lia|].
    destruct ((il - 1 + (ir - 1)) / 2 =? 0)%Z eqn:Ec.
    + destruct root as [|w|l r' w]; try discriminate. injection E as <- <-. unfold shallow. cbn [tree].
      exists d. rewrite (center_S d) in * by (rewrite Hir; lia).
      rewrite Nat2Z.inj_succ, Z.pow_succ_r in Hir by lia. split; [lia|]. split; [lia|]. pose proof (pow2_pos d). lia.
    + injection E as <- <-. unfold shallow. cbn [tree]. exists (S d). split; [lia|]. split; [auto|].
      rewrite (center_S d) in Ec by (rewrite Hir; lia).
      rewrite Nat2Z.inj_succ, Z.pow_succ_r in * by lia. lia.
  - destruct (tq_set op q i v) as [[q' r]|] eqn:E; [|exact Hs]. cbn [fst].
    unfold tq_set in E. destruct ((0 <=? i) && (i <? tlen q))%Z; cbn [passert rbind] in E; [|discriminate].
    exact (shallow_write N q i (Some v) q' r E Hs).
Qed.

Lemma shallow_run N : forall ops q xs, tq_rep op q xs -> shallow N q -> (longest xs ops <= N)%nat ->
  tq_rep op (fst (run (tq_step op) q ops)) (fst (run tq_spec xs ops)) /\ shallow N (fst (run (tq_step op) q ops)).
Proof.
  induction ops as [|o ops IH]; intros q xs Hr Hs HN; cbn [run fst longest] in *; [auto|].
  pose proof (tq_step_refines op q xs o Hr) as [_ Hr'].
  assert (HL : forall (l : list V) o', (length l <= longest l o')%nat) by (intros l [|]; cbn [longest]; lia).
  pose proof (HL (fst (tq_spec xs o)) ops).
  assert (Hs' : shallow N (fst (tq_step op q o))) by (apply (shallow_step N q xs o); auto; lia).
  specialize (IH (fst (tq_step op q o)) (fst (tq_spec xs o)) Hr' Hs' ltac:(lia)).
  destruct (tq_step op q o) as [q' y]. destruct (tq_spec xs o) as [xs' y']. cbn [fst] in *.
  destruct (run (tq_step op) q' ops). destruct (run tq_spec xs' ops). exact IH.
Qed.

Lemma after_run ops : tq_rep op (fst (run (tq_step op) tq_init ops)) (fst (run tq_spec [] ops)) /\
  shallow (longest [] ops) (fst (run (tq_step op) tq_init ops)).
Proof. apply shallow_run; [apply tq_init_rep|exact I|lia]. Qed.
End Depth.

(** ** Contiguous slots *)
Section Contig.
Context {V : Type}.
Implicit Types l r sl : list (option V).

Definition contig sl : Prop := forall i j k v w, (i < j < k)%nat ->
  nth i sl None = Some v -> nth k sl None = Some w -> nth j sl None <> None.

Lemma nth_some_lt sl i v : nth i sl None = Some v -> (i < length sl)%nat.
Proof. intros H. destruct (Nat.lt_ge_cases i (length sl)); auto. rewrite nth_overflow in H by auto. discriminate. Qed.

Lemma contig_l l r : contig (l ++ r) -> contig l.
Proof.
  intros H i j k v w Hij Hi Hk. pose proof (nth_some_lt l k w Hk). rewrite <- (app_nth1 l r None) by lia.
  apply (H i j k v w Hij); rewrite app_nth1 by lia; auto.
Qed.
Lemma contig_r l r : contig (l ++ r) -> contig r.
Proof.
  intros H i j k v w Hij Hi Hk.
  replace (nth j r None) with (nth (length l + j) (l ++ r) None) by (rewrite app_nth2_plus; reflexivity).
  apply (H (length l + i)%nat (length l + j)%nat (length l + k)%nat v w); [lia| |]; rewrite app_nth2_plus; auto.
Qed.

Lemma somes_nil sl : somes sl = [] <-> forall i, nth i sl None = None.
Proof.
  induction sl as [|[v|] sl IH]; cbn.
  - split; auto. intros _ [|]; auto.
  - split; [discriminate|]. intros H. specialize (H 0%nat). discriminate.
  - rewrite IH. split; intros H i; [destruct i; auto|]. exact (H (S i)).
Qed.
Lemma somes_not_nil sl : somes sl <> [] -> exists i v, nth i sl None = Some v.
Proof.
  induction sl as [|[v|] sl IH]; cbn; intros H; [congruence|exists 0%nat, v; reflexivity|].
  destruct (IH H) as (i & v & E). exists (S i), v. exact E.
Qed.
Lemma nth_skipn sl i j : nth j (skipn i sl) None = nth (i + j) sl None.
Proof. revert sl. induction i as [|i IH]; intros [|x sl]; cbn [skipn Nat.add nth]; auto. destruct j; reflexivity. Qed.

(** A used slot in the left part and one in the right part: everything between them is used. *)
Lemma contig_cross l r i : contig (l ++ r) -> somes l <> [] -> (i < length l)%nat -> nth i l None = None ->
  (forall j, (i <= j)%nat -> nth j l None = None) -> somes r = [].
Proof.
  intros Hc Hl Hi E Hafter. destruct (somes r) as [|w ws] eqn:Er; [reflexivity|exfalso].
  destruct (somes_not_nil l Hl) as (a & v & Ea). destruct (somes_not_nil r) as (b & w' & Eb); [rewrite Er; discriminate|].
  assert (Ha : (a < i)%nat). { destruct (Nat.lt_ge_cases a i); auto. rewrite Hafter in Ea by auto. discriminate. }
  apply (Hc a i (length l + b)%nat v w'); [lia| | |].
  - rewrite app_nth1; auto. lia.
  - rewrite app_nth2_plus. auto.
  - rewrite app_nth1; auto.
Qed.
End Contig.


(** ** Rounding errors *)
Section Error.
Context {V : Type} (A : arith V) (val : V -> R) (ok unit01 : V -> Prop) (u eta M : R).
Hypothesis HA : rounded A val ok unit01 u eta M.

Definition sv (sl : list (option V)) : R := rsum (map val (somes sl)).
Definition okl (sl : list (option V)) : Prop := Forall ok (somes sl).

Lemma sv_app l r : sv (l ++ r) = sv l + sv r.
Proof. unfold sv. now rewrite somes_app, map_app, rsum_app. Qed.
Lemma okl_app l r : okl (l ++ r) <-> okl l /\ okl r.
Proof. unfold okl. now rewrite somes_app, Forall_app. Qed.
Lemma sv_nil sl : somes sl = [] -> sv sl = 0.
Proof. intros E. unfold sv. now rewrite E. Qed.
Lemma rsum_ok l : Forall ok l -> 0 <= rsum (map val l).
Proof. induction 1 as [|x l Hx Hl IH]; cbn [map rsum]; [lra|]. pose proof (r_ok _ _ _ _ _ _ _ HA x Hx). lra. Qed.
Lemma sv_ok sl : okl sl -> 0 <= sv sl.
Proof. apply rsum_ok. Qed.
Lemma okl_firstn sl i : okl sl -> okl (firstn i sl).
Proof. rewrite <- (firstn_skipn i sl) at 1. rewrite okl_app. tauto. Qed.
Lemma okl_skipn sl i : okl sl -> okl (skipn i sl).
Proof. rewrite <- (firstn_skipn i sl) at 1. rewrite okl_app. tauto. Qed.
Lemma sv_firstn_le sl i : okl sl -> sv (firstn i sl) <= sv sl.
Proof.
  intros H. rewrite <- (firstn_skipn i sl) at 2. rewrite sv_app. pose proof (sv_ok _ (okl_skipn sl i H)). lra.
Qed.
Lemma sv_firstn_all sl i : somes (skipn i sl) = [] -> sv (firstn i sl) = sv sl.
Proof. intros H. rewrite <- (firstn_skipn i sl) at 2. rewrite sv_app, (sv_nil (skipn i sl) H). lra. Qed.

Lemma growth_1 d : 1 <= (1 + u) ^ d.
Proof. apply pow_R1_Rle. pose proof (r_u _ _ _ _ _ _ _ HA). lra. Qed.
Lemma growth_le d D : (d <= D)%nat -> (1 + u) ^ d <= (1 + u) ^ D.
Proof. intros. apply Rle_pow; auto. pose proof (r_u _ _ _ _ _ _ _ HA). lra. Qed.

Definition nv (n : node V) : V := match nval n with Some v => v | None => a_zero A end.

(** A node's value is the sum of the priorities below it up to d relative errors. *)
Lemma node_error d : forall n, wfn (fsum A) d n -> okl (slots d n) -> sv (slots d n) * (1 + u) ^ d <= M ->
  ok (nv n) /\ Rabs (val (nv n) - sv (slots d n)) <= ((1 + u) ^ d - 1) * sv (slots d n).
Proof.
  pose proof (r_u _ _ _ _ _ _ _ HA) as Hu. pose proof (r_zero _ _ _ _ _ _ _ HA) as [Hz Hz0].
  induction d as [|d IH]; intros n Hwf Hok HM.
  - cbn [slots] in *. unfold sv, okl, nv in *. destruct (nval n) as [v|]; cbn [somes flat_map opt_list app map rsum] in *.
    + inversion Hok; subst. split; [auto|]. rewrite pow_O. replace (val v - (val v + 0)) with 0 by lra. rewrite Rabs_R0. lra.
    + split; [auto|]. rewrite Hz0, Rminus_0_r, Rabs_R0. lra.
  - destruct n as [|v|l r v]; [|contradiction|].
    + rewrite slots_emp in *. unfold nv. cbn [nval]. unfold sv. rewrite somes_repeat_none. cbn [map rsum].
      split; [auto|]. rewrite Hz0, Rminus_0_r, Rabs_R0. lra.
    + cbn [slots wfn] in *. destruct Hwf as (Hl & Hr & vs & Evs & Hne & Ev).
      rewrite okl_app in Hok. destruct Hok as [Hokl Hokr]. rewrite sv_app in *.
      pose proof (sv_ok _ Hokl) as Hsl. pose proof (sv_ok _ Hokr) as Hsr.
      pose proof (growth_1 d) as Hg. set (g := (1 + u) ^ d) in *.
      assert (Eg : (1 + u) ^ S d = g * (1 + u)) by (unfold g; cbn [pow]; ring). rewrite Eg in *.
      set (Sl := sv (slots d l)) in *. set (Sr := sv (slots d r)) in *.
      assert (Hpl : 0 <= (g - 1) * Sl) by (apply Rmult_le_pos; lra).
      assert (Hpr : 0 <= (g - 1) * Sr) by (apply Rmult_le_pos; lra).
      assert (Hgl : 0 <= g * u * Sl) by (repeat apply Rmult_le_pos; lra).
      assert (Hgr : 0 <= g * u * Sr) by (repeat apply Rmult_le_pos; lra).
      assert (HMl : Sl * g <= M).
      { apply Rle_trans with ((Sl + Sr) * (g * (1 + u))); [|exact HM].
        replace ((Sl + Sr) * (g * (1 + u))) with (Sl * g + (Sr + (g - 1) * Sr) + g * u * Sl + g * u * Sr) by ring. lra. }
      assert (HMr : Sr * g <= M).
      { apply Rle_trans with ((Sl + Sr) * (g * (1 + u))); [|exact HM].
        replace ((Sl + Sr) * (g * (1 + u))) with (Sr * g + (Sl + (g - 1) * Sl) + g * u * Sl + g * u * Sr) by ring. lra. }
      destruct (IH l Hl Hokl HMl) as [Ol El]. destruct (IH r Hr Hokr HMr) as [Or Er].
      fold Sl in El. fold Sr in Er. unfold nv at 1 2. cbn [nval].
      apply Rabs_le_inv in El, Er.
      assert (Hone : forall (n : node V) w S, nv n = w -> ok (nv n) -> - ((g - 1) * S) <= val (nv n) - S <= (g - 1) * S ->
        vs = [w] -> 0 <= S -> ok v /\ - ((g - 1) * S) <= val v - S <= (g - 1) * S).
      { intros n w S E O B -> HS. subst v. unfold fsum. cbn [fold_left].
        destruct (r_add0 _ _ _ _ _ _ _ HA w) as [O' B']; [rewrite <- E; auto|]. split; [auto|]. rewrite B', <- E. exact B. }
      destruct (nval l) as [a|] eqn:Ea; destruct (nval r) as [b|] eqn:Eb; cbn [opt_list app] in Evs.
      * assert (El' : nv l = a) by (unfold nv; now rewrite Ea). assert (Er' : nv r = b) by (unfold nv; now rewrite Eb).
        rewrite El', Er' in *. subst vs v. unfold fsum. cbn [fold_left].
        destruct (r_add0 _ _ _ _ _ _ _ HA a Ol) as [Oa Va].
        destruct (r_add _ _ _ _ _ _ _ HA (a_add A (a_zero A) a) b Oa Or) as [Oab Vab].
        { rewrite Va. apply Rle_trans with ((Sl + Sr) * (g * (1 + u))); [|exact HM].
          replace ((Sl + Sr) * (g * (1 + u))) with (((g - 1) * Sl + Sl + ((g - 1) * Sr + Sr)) * (1 + u)) by ring.
          apply Rmult_le_compat_r; lra. }
        split; [exact Oab|]. rewrite Va in Vab. apply Rabs_le_inv in Vab. apply Rabs_le.
        assert (Hub : u * (val a + val b) <= g * u * Sl + g * u * Sr).
        { replace (g * u * Sl + g * u * Sr) with (u * ((g - 1) * Sl + Sl + ((g - 1) * Sr + Sr))) by ring.
          apply Rmult_le_compat_l; lra. }
        replace ((g * (1 + u) - 1) * (Sl + Sr)) with ((g - 1) * Sl + (g - 1) * Sr + g * u * Sl + g * u * Sr) by ring. lra.
      * assert (HSr : Sr = 0) by (apply sv_nil, wfn_nval_somes with (op := fsum A); auto).
        destruct (Hone l a Sl) as [O B]; auto; [unfold nv; now rewrite Ea|].
        split; [exact O|]. apply Rabs_le. rewrite HSr.
        replace ((g * (1 + u) - 1) * (Sl + 0)) with ((g - 1) * Sl + g * u * Sl) by ring. lra.
      * assert (HSl : Sl = 0) by (apply sv_nil, wfn_nval_somes with (op := fsum A); auto).
        destruct (Hone r b Sr) as [O B]; auto; [unfold nv; now rewrite Eb|].
        split; [exact O|]. apply Rabs_le. rewrite HSl.
        replace ((g * (1 + u) - 1) * (0 + Sr)) with ((g - 1) * Sr + g * u * Sr) by ring. lra.
      * congruence.
Qed.

Section Find.
Variables (D : nat) (P : R).
Notation G := ((1 + u) ^ D - 1).

Lemma find_error d : forall fuel il ir n pos,
  (ir = il + 2 ^ Z.of_nat d)%Z -> (d <= fuel)%nat -> (d <= D)%nat -> wfn (fsum A) d n ->
  let sl := slots d n in
  contig sl -> okl sl -> sv sl * (1 + u) ^ D <= M -> ok pos -> val pos <= P ->
  match ffind A fuel il ir n pos with
  | Ok ix => exists i, ix = (il + Z.of_nat i)%Z /\ (i < 2 ^ d)%nat /\
      sv (firstn i sl) <= val pos + INR d * (u * P) + G * sv sl /\
      (val pos <= sv (firstn (S i) sl) + INR d * (u * P) + G * sv sl \/ somes (skipn (S i) sl) = []) /\
      ((exists v, nth i sl None = Some v) \/ (nth i sl None = None /\ somes (skipn i sl) = []))
  | Err e => e = ValueError /\ sv sl <= val pos + INR d * (u * P) + G * sv sl /\ nth (2 ^ d - 1) sl None = None
  end.
Proof.
  pose proof (r_u _ _ _ _ _ _ _ HA) as Hu. pose proof (growth_1 D) as HG.
  induction d as [|d IH]; intros fuel il ir n pos Hir Hf HD Hwf sl Hc Hok HM Hpos HP.
  - assert (E : (ir - il =? 1)%Z = true) by (rewrite (size_one 0) by assumption; reflexivity).
    pose proof (r_ok _ _ _ _ _ _ _ HA pos Hpos) as H0.
    assert (Hs : 0 <= sv sl) by (apply sv_ok; auto). assert (0 <= G * sv sl) by (apply Rmult_le_pos; lra).
    assert (Ef : ffind A fuel il ir n pos = Ok il) by (destruct fuel; cbn [ffind]; rewrite E; reflexivity).
    rewrite Ef. exists 0%nat. split; [cbn; lia|]. split; [cbn; lia|]. split; [|split].
    + cbn [firstn INR]. unfold sv at 1. cbn [somes flat_map map rsum]. lra.
    + right. reflexivity.
    + unfold sl. cbn [slots nth]. destruct (nval n) as [v|]; [left; eauto|]. right. split; reflexivity.
  - pose proof (r_ok _ _ _ _ _ _ _ HA pos Hpos) as H0.
    assert (HuP : 0 <= u * P) by (apply Rmult_le_pos; lra).
    assert (HdP : 0 <= INR d * (u * P)) by (apply Rmult_le_pos; [apply pos_INR|lra]).
    assert (Hs : 0 <= sv sl) by (apply sv_ok; auto). assert (HGs : 0 <= G * sv sl) by (apply Rmult_le_pos; lra).
    assert (ES : INR (S d) * (u * P) = INR d * (u * P) + u * P) by (rewrite S_INR; ring).
    rewrite ES in *. set (K := INR d * (u * P)) in *.
    destruct fuel as [|fuel]; [lia|]. cbn [ffind].
    rewrite (size_one (S d)) by assumption. cbn [Nat.eqb].
    rewrite (center_S d) by assumption.
    destruct n as [|v|l r v]; [|contradiction|].
    + split; [reflexivity|]. unfold sl in *. rewrite slots_emp in *. unfold sv in *. rewrite somes_repeat_none in *. cbn [map rsum] in *.
      split; [lra|]. apply nth_repeat.
    + cbn [wfn] in Hwf. destruct Hwf as (Hl & Hr & _). unfold sl in *. clear sl. cbn [slots] in *.
      set (sl := slots d l) in *. set (sr := slots d r) in *.
      assert (Lsl : length sl = (2 ^ d)%nat) by apply slots_length.
      assert (Lsr : length sr = (2 ^ d)%nat) by apply slots_length.
      pose proof (contig_l _ _ Hc) as Hcl. pose proof (contig_r _ _ Hc) as Hcr.
      rewrite okl_app in Hok. destruct Hok as [Hokl Hokr].
      rewrite sv_app in *. rewrite Rmult_plus_distr_l in *.
      pose proof (sv_ok _ Hokl) as Hsl. pose proof (sv_ok _ Hokr) as Hsr.
      assert (HGl : 0 <= G * sv sl) by (apply Rmult_le_pos; lra).
      assert (HGr : 0 <= G * sv sr) by (apply Rmult_le_pos; lra).
      assert (HMl : sv sl * (1 + u) ^ D <= M).
      { apply Rle_trans with ((sv sl + sv sr) * (1 + u) ^ D); [apply Rmult_le_compat_r; lra|lra]. }
      assert (HMr : sv sr * (1 + u) ^ D <= M).
      { apply Rle_trans with ((sv sl + sv sr) * (1 + u) ^ D); [apply Rmult_le_compat_r; lra|lra]. }
      assert (HMd : sv sl * (1 + u) ^ d <= M).
      { apply Rle_trans with (sv sl * (1 + u) ^ D); [|lra]. apply Rmult_le_compat_l; [lra|]. apply growth_le; lia. }
      destruct (node_error d l Hl Hokl HMd) as [Olv Elv]. fold sl in Elv.
      assert (Elv' : - (G * sv sl) <= val (nv l) - sv sl <= G * sv sl).
      { apply Rabs_le_inv in Elv. assert (((1 + u) ^ d - 1) * sv sl <= G * sv sl); [|lra].
        apply Rmult_le_compat_r; [lra|]. pose proof (growth_le d D ltac:(lia)). lra. }
      clear Elv. fold (nv l).
      assert (Hp2 : (2 ^ S d = 2 ^ d + 2 ^ d)%nat) by (cbn; lia). pose proof (Nat.pow_nonzero 2 d ltac:(lia)) as Hnz.
      destruct (a_ltb A pos (nv l)) eqn:Eb.
      * apply (r_ltb _ _ _ _ _ _ _ HA) in Eb; auto.
        assert (Hln : somes sl <> []).
        { intros E. apply (wfn_nval_somes (fsum A) d l Hl) in E. unfold nv in Eb. rewrite E in Eb.
          rewrite (proj2 (r_zero _ _ _ _ _ _ _ HA)) in Eb. lra. }
        specialize (IH fuel il (il + 2 ^ Z.of_nat d)%Z l pos eq_refl ltac:(lia) ltac:(lia) Hl Hcl Hokl HMl Hpos HP).
        fold sl in IH.
        destruct (ffind A fuel il (il + 2 ^ Z.of_nat d) l pos) as [ix|e].
        -- destruct IH as (i & Ei & Hi & Hlow & Hup & Huse). exists i. split; [exact Ei|]. split; [lia|].
           rewrite !firstn_app, !skipn_app. rewrite !Lsl.
           replace (i - 2 ^ d)%nat with 0%nat by lia. replace (S i - 2 ^ d)%nat with 0%nat by lia.
           rewrite !firstn_O, !skipn_O, !app_nil_r. rewrite app_nth1 by lia.
           assert (Hcross : nth i sl None = None -> somes (skipn i sl) = [] -> somes sr = []).
           { intros E1 E2. apply (contig_cross sl sr i); auto; [lia|]. intros j Hj.
             rewrite somes_nil in E2. specialize (E2 (j - i)%nat). rewrite nth_skipn in E2.
             replace (i + (j - i))%nat with j in E2 by lia. exact E2. }
           split; [lra|]. split.
           ++ left. destruct Hup as [Hup|Hup]; [lra|]. rewrite sv_firstn_all by exact Hup. lra.
           ++ destruct Huse as [Huse|[E1 E2]]; [left; exact Huse|]. right. split; [exact E1|].
              rewrite somes_app, E2. cbn [app]. auto.
        -- destruct IH as (He & Hlow & Hlast).
           assert (Er : somes sr = []).
           { apply (contig_cross sl sr (2 ^ d - 1)); auto; [lia|]. intros j Hj.
             destruct (Nat.eq_dec j (2 ^ d - 1)) as [->|]; [exact Hlast|]. apply nth_overflow. lia. }
           split; [exact He|]. rewrite (sv_nil _ Er) in *. split; [lra|].
           rewrite app_nth2 by lia. rewrite somes_nil in Er. apply Er.
      * assert (Hge : val (nv l) <= val pos).
        { destruct (Rlt_dec (val pos) (val (nv l))) as [H|H]; [|lra].
          apply (r_ltb _ _ _ _ _ _ _ HA pos (nv l) Hpos Olv) in H. congruence. }
        pose proof (r_ok _ _ _ _ _ _ _ HA _ Olv) as Hlv0.
        destruct (r_sub _ _ _ _ _ _ _ HA pos (nv l) Hpos Olv Hge) as (Op' & Ep' & Hp').
        set (pos' := a_sub A pos (nv l)) in *.
        assert (Ep : - (u * P) <= val pos' - (val pos - val (nv l)) <= u * P).
        { apply Rabs_le_inv in Ep'. assert (u * (val pos - val (nv l)) <= u * P) by (apply Rmult_le_compat_l; lra). lra. }
        clear Ep'.
        assert (Hic : (ir = il + 2 ^ Z.of_nat d + 2 ^ Z.of_nat d)%Z)
          by (rewrite Hir, Nat2Z.inj_succ, Z.pow_succ_r by lia; ring).
        specialize (IH fuel (il + 2 ^ Z.of_nat d)%Z ir r pos' Hic ltac:(lia) ltac:(lia) Hr Hcr Hokr HMr Op' ltac:(lra)).
        fold sr in IH.
        destruct (ffind A fuel (il + 2 ^ Z.of_nat d) ir r pos') as [ix|e].
        -- destruct IH as (i & Ei & Hi & Hlow & Hup & Huse). exists (2 ^ d + i)%nat.
           split; [rewrite Ei, Nat2Z.inj_add, pow2_nat; ring|]. split; [lia|].
           replace (S (2 ^ d + i)) with (2 ^ d + S i)%nat by lia.
           rewrite <- !Lsl, !firstn_app_2, !app_nth2_plus, !sv_app.
           assert (Esk : forall k, skipn (length sl + k) (sl ++ sr) = skipn k sr).
           { intros k. rewrite skipn_app, skipn_all2 by lia. cbn [app]. f_equal. lia. }
           rewrite !Esk.
           split; [lra|]. split; [|exact Huse].
           destruct Hup as [Hup|Hup]; [left; lra|right; exact Hup].
        -- destruct IH as (He & Hlow & Hlast). split; [exact He|]. split; [lra|].
           replace (2 ^ S d - 1)%nat with (length sl + (2 ^ d - 1))%nat by lia. rewrite app_nth2_plus. exact Hlast.
Qed.
End Find.

(** *** From slots to the list of priorities *)
Lemma layout_used (ws : list V) il ir i v : (il <= 0)%Z -> nth i (layout ws il ir) None = Some v ->
  exists k, i = (Z.to_nat (- il) + k)%nat /\ (k < length ws)%nat /\ nth_error ws k = Some v.
Proof.
  intros Hil. unfold layout. set (a := Z.to_nat (- il)).
  destruct (Nat.lt_ge_cases i a) as [H|H].
  { rewrite app_nth1 by (rewrite repeat_length; auto). rewrite nth_repeat. discriminate. }
  rewrite app_nth2 by (rewrite repeat_length; auto). rewrite repeat_length.
  destruct (Nat.lt_ge_cases (i - a) (length ws)) as [H'|H'].
  - rewrite app_nth1 by (rewrite map_length; auto). intros E. exists (i - a)%nat. split; [lia|]. split; [auto|].
    destruct (nth_error ws (i - a)) as [w|] eqn:Ew; [|apply nth_error_None in Ew; lia].
    rewrite (nth_indep _ None (Some w)) in E by (rewrite map_length; auto). rewrite map_nth in E.
    rewrite (nth_error_nth _ _ _ Ew) in E. exact E.
  - rewrite app_nth2 by (rewrite map_length; auto). rewrite nth_repeat. discriminate.
Qed.

Lemma layout_contig (ws : list V) il ir : (il <= 0)%Z -> contig (layout ws il ir).
Proof.
  intros Hil i j k v w Hij Hi Hk.
  destruct (layout_used ws il ir i v Hil Hi) as (ki & Ei & Hki & _).
  destruct (layout_used ws il ir k w Hil Hk) as (kk & Ek & Hkk & _).
  assert (H : nth (Z.to_nat (Z.of_nat (j - Z.to_nat (- il)) - il)) (layout ws il ir) None = nth_error ws (j - Z.to_nat (- il)))
    by (apply layout_nth; auto; lia).
  replace (Z.to_nat (Z.of_nat (j - Z.to_nat (- il)) - il)) with j in H by lia. rewrite H.
  apply nth_error_Some. lia.
Qed.

Lemma layout_firstn (ws : list V) il ir k : (il <= 0)%Z -> (k <= length ws)%nat ->
  sv (firstn (Z.to_nat (- il) + k) (layout ws il ir)) = prefix val ws k.
Proof.
  intros Hil Hk. unfold layout, prefix.
  replace (Z.to_nat (- il)) with (length (repeat (@None V) (Z.to_nat (- il)))) at 1 by apply repeat_length.
  rewrite firstn_app_2. rewrite sv_app. rewrite (sv_nil (repeat None _)) by apply somes_repeat_none.
  rewrite firstn_app, map_length. replace (k - length ws)%nat with 0%nat by lia. rewrite firstn_O, app_nil_r.
  rewrite firstn_map. unfold sv. rewrite somes_map_some. lra.
Qed.

Lemma layout_sv (ws : list V) il ir : sv (layout ws il ir) = total val ws.
Proof. unfold sv. rewrite layout_somes. reflexivity. Qed.

(** *** One draw *)
Definition G D := (1 + u) ^ D - 1.

Lemma root_error q ws N : tq_rep (fsum A) q ws -> shallow N q -> ws <> [] -> Forall ok ws ->
  total val ws * (1 + u) ^ depth N <= M ->
  exists root il ir s, tree q = Some (root, il, ir) /\ nval root = Some s /\ ok s /\
    Rabs (val s - total val ws) <= G (depth N) * total val ws.
Proof.
  intros (Hlen & Ht) Hsh Hne Hok HM. unfold shallow in Hsh.
  destruct (tree q) as [[[root il] ir]|]; [|contradiction].
  destruct Ht as (d & Hir & Hil & Hn & Hwf & Hs). destruct Hsh as (d' & Hir' & Hd & _).
  assert (d' = d).
  { assert (E : (2 ^ Z.of_nat d = 2 ^ Z.of_nat d')%Z) by lia. apply Z.pow_inj_r in E; lia. }
  subst d'.
  assert (Hsv : sv (slots d root) = total val ws) by (rewrite Hs; apply layout_sv).
  assert (Hokl : okl (slots d root)) by (unfold okl; rewrite Hs, layout_somes; exact Hok).
  pose proof (sv_ok _ Hokl) as H0. rewrite Hsv in H0.
  destruct (node_error d root Hwf Hokl) as [O E].
  { rewrite Hsv. apply Rle_trans with (total val ws * (1 + u) ^ depth N); [|exact HM].
    apply Rmult_le_compat_l; [lra|]. apply growth_le. exact Hd. }
  destruct (nval root) as [s|] eqn:Er.
  2:{ apply (wfn_nval_somes (fsum A) d root Hwf) in Er. rewrite Hs, layout_somes in Er. contradiction. }
  unfold nv in O, E. rewrite Er in O, E. exists root, il, ir, s. split; [reflexivity|]. split; [exact Er|].
  split; [exact O|]. rewrite Hsv in E. eapply Rle_trans; [exact E|]. apply Rmult_le_compat_r; [lra|].
  unfold G. pose proof (growth_le d (depth N) Hd). lra.
Qed.

Lemma draw_one q ws N root il ir s f : tq_rep (fsum A) q ws -> shallow N q -> ws <> [] -> Forall ok ws ->
  total val ws * (1 + u) ^ depth N <= M -> tree q = Some (root, il, ir) -> nval root = Some s -> unit01 f ->
  let E := draw_error u eta (depth N) (total val ws) in
  match ffind A (fuel_of il ir) il ir root (a_mul A s f) with
  | Ok ix => (exists k w, ix = Z.of_nat k /\ nth_error ws k = Some w /\
                prefix val ws k - E <= val f * total val ws <= prefix val ws (S k) + E) \/
             ((Z.of_nat (length ws) <= ix < ir)%Z /\ total val ws - E <= val f * total val ws)
  | Err e => e = ValueError /\ total val ws - E <= val f * total val ws
  end.
Proof.
  intros Hr Hsh Hne Hok HM Etree Es Hf E.
  destruct (root_error q ws N Hr Hsh Hne Hok HM) as (root' & il' & ir' & s' & Et' & Es' & Os & Bs).
  rewrite Etree in Et'. injection Et' as <- <- <-. rewrite Es in Es'. injection Es' as <-.
  destruct Hr as (Hlen & Ht). unfold shallow in Hsh. rewrite Etree in Ht, Hsh.
  destruct Ht as (d & Hir & Hil & Hn & Hwf & Hs). destruct Hsh as (d' & Hir' & Hd & _).
  assert (d' = d).
  { assert (E' : (2 ^ Z.of_nat d = 2 ^ Z.of_nat d')%Z) by lia. apply Z.pow_inj_r in E'; lia. }
  subst d'. clear Hir'.
  pose proof (r_u _ _ _ _ _ _ _ HA) as Hu. pose proof (r_eta _ _ _ _ _ _ _ HA) as Heta.
  assert (Hokl : okl (slots d root)) by (unfold okl; rewrite Hs, layout_somes; exact Hok).
  pose proof (sv_ok _ Hokl) as H0. rewrite Hs, layout_sv in H0.
  set (T := total val ws) in *. set (D := depth N) in *.
  pose proof (growth_1 D) as HG1. assert (HG : 0 <= G D) by (unfold G; lra).
  assert (HGT : 0 <= G D * T) by (apply Rmult_le_pos; lra).
  pose proof (r_unit _ _ _ _ _ _ _ HA f Hf) as Hf01.
  destruct (r_mul _ _ _ _ _ _ _ HA s f Os Hf) as (Op & Hps & Bp).
  pose proof (r_ok _ _ _ _ _ _ _ HA s Os) as Hs0.
  apply Rabs_le_inv in Bs, Bp.
  set (pos := a_mul A s f) in *. set (fs := fuel_of il ir) in *.
  assert (Hsle : val s <= (1 + u) ^ D * T) by (unfold G in Bs; lra).
  pose proof (find_error D (val s) d fs il ir root pos Hir (fuel_of_ge d il ir Hir) Hd Hwf) as F.
  cbv zeta in F. rewrite Hs, layout_sv in F. fold T in F. specialize (F (layout_contig ws il ir Hil)).
  assert (Hokl' : okl (layout ws il ir)) by (unfold okl; rewrite layout_somes; exact Hok).
  specialize (F Hokl' HM Op Hps).
  (* the error terms *)
  assert (HuT : 0 <= u * ((1 + u) ^ D * T)) by (apply Rmult_le_pos; [lra|apply Rmult_le_pos; lra]).
  assert (HK : INR d * (u * val s) <= INR D * (u * ((1 + u) ^ D * T))).
  { apply Rmult_le_compat; [apply pos_INR|apply Rmult_le_pos; lra|apply le_INR; exact Hd|apply Rmult_le_compat_l; lra]. }
  assert (Hsf : 0 <= val s * val f <= val s).
  { split; [apply Rmult_le_pos; lra|]. rewrite <- (Rmult_1_r (val s)) at 2. apply Rmult_le_compat_l; lra. }
  assert (Hm1 : u * (val s * val f) <= u * ((1 + u) ^ D * T)) by (apply Rmult_le_compat_l; lra).
  assert (Hm2 : - (G D * T) <= val s * val f - val f * T <= G D * T).
  { replace (val s * val f - val f * T) with (val f * (val s - T)) by ring.
    split.
    - apply Rle_trans with (val f * (- (G D * T))); [|apply Rmult_le_compat_l; lra].
      assert (val f * (G D * T) <= 1 * (G D * T)) by (apply Rmult_le_compat_r; lra). lra.
    - apply Rle_trans with (val f * (G D * T)); [apply Rmult_le_compat_l; lra|].
      assert (val f * (G D * T) <= 1 * (G D * T)) by (apply Rmult_le_compat_r; lra). lra. }
  assert (HE : E = INR D * (u * ((1 + u) ^ D * T)) + u * ((1 + u) ^ D * T) + 2 * (G D * T) + eta).
  { unfold E, draw_error, G. ring. }
  fold (G D) in F.
  destruct (ffind A fs il ir root pos) as [ix|e].
  - destruct F as (i & Ei & Hi & Hlow & Hup & Huse).
    destruct Huse as [[v Ev]|[Ev Eafter]].
    + left. destruct (layout_used ws il ir i v Hil Ev) as (k & Eik & Hk & Ek). exists k, v.
      split; [lia|]. split; [exact Ek|]. rewrite Eik in Hlow, Hup. rewrite layout_firstn in Hlow by lia.
      replace (S (Z.to_nat (- il) + k)) with (Z.to_nat (- il) + S k)%nat in Hup by lia.
      rewrite layout_firstn in Hup by lia. split; [lra|].
      destruct Hup as [Hup|Hup]; [lra|].
      apply sv_firstn_all in Hup. rewrite layout_firstn, layout_sv in Hup by lia. fold T in Hup.
      assert (val f * T <= T) by (rewrite <- (Rmult_1_l T) at 2; apply Rmult_le_compat_r; lra).
      assert (0 <= INR D * (u * ((1 + u) ^ D * T))) by (apply Rmult_le_pos; [apply pos_INR|lra]). lra.
    + right. split.
      * assert (Hia : (Z.to_nat (- il) + length ws <= i)%nat).
        { destruct (Nat.lt_ge_cases i (Z.to_nat (- il) + length ws)) as [H|H]; [exfalso|exact H].
          rewrite somes_nil in Eafter. specialize (Eafter (Z.to_nat (- il) + (length ws - 1) - i)%nat).
          rewrite nth_skipn in Eafter. destruct ws as [|w0 ws0]; [congruence|]. cbn [length] in *.
          assert (L : nth (Z.to_nat (Z.of_nat (length ws0) - il)) (layout (w0 :: ws0) il ir) None = nth_error (w0 :: ws0) (length ws0))
            by (apply layout_nth; auto; cbn [length]; lia).
          replace (i + (Z.to_nat (- il) + (S (length ws0) - 1) - i))%nat
            with (Z.to_nat (Z.of_nat (length ws0) - il)) in Eafter by lia.
          rewrite L in Eafter. apply nth_error_None in Eafter. cbn [length] in Eafter. lia. }
        pose proof (pow2_nat d). lia.
      * apply sv_firstn_all in Eafter. rewrite layout_sv in Eafter. fold T in Eafter. lra.
  - destruct F as (He & Hlow & _). split; [exact He|]. lra.
Qed.

(** *** Several draws *)
Lemma total_set ws k w : nth_error ws k = Some w -> total val (list_set ws k (a_zero A)) = total val ws - val w.
Proof.
  revert k. unfold total. induction ws as [|x ws IH]; intros [|k] E; cbn [nth_error list_set map rsum] in *; try discriminate.
  - injection E as ->. rewrite (proj2 (r_zero _ _ _ _ _ _ _ HA)). lra.
  - rewrite (IH k E). lra.
Qed.

Lemma Forall_list_set_ok ws k : Forall ok ws -> Forall ok (list_set ws k (a_zero A)).
Proof.
  intros H. revert k. induction H as [|x ws Hx Hws IH]; intros [|k]; cbn [list_set]; constructor; auto.
  apply (r_zero _ _ _ _ _ _ _ HA).
Qed.

Lemma write_unused q ws root il ir ix v : tq_rep (fsum A) q ws -> tree q = Some (root, il, ir) ->
  (Z.of_nat (length ws) <= ix < ir)%Z -> exists q', tq_write (fsum A) q ix v = Ok (q', None).
Proof.
  intros (Hlen & Ht) Et Hix. rewrite Et in Ht. destruct Ht as (d & Hir & Hil & Hn & Hwf & Hs).
  unfold tq_write. rewrite Et.
  destruct (write_spec (fsum A) d (fuel_of il ir) il ir root ix v Hir (fuel_of_ge d il ir Hir) Hwf ltac:(lia)) as (root' & E & _).
  rewrite E. cbn [rbind]. rewrite Hs.
  destruct (nth (Z.to_nat (ix - il)) (layout ws il ir) None) as [w|] eqn:Ew; [|eauto].
  destruct (layout_used ws il ir _ w Hil Ew) as (k & Ek & Hk & _). lia.
Qed.

Definition ixs_ok (n : nat) (ixs : list Z) : Prop := Forall (fun i => (0 <= i < Z.of_nat n)%Z) ixs.

Lemma draw_loop_near N : forall fs q ws, tq_rep (fsum A) q ws -> shallow N q -> ws <> [] -> Forall ok ws ->
  total val ws * (1 + u) ^ depth N <= M -> Forall unit01 fs ->
  match fdraw_loop A q fs with
  | Ok (q', ixs, vs) => draws_near A val (draw_error u eta (depth N)) ws fs (Ok (ixs, vs)) /\
      tq_rep (fsum A) q' (zeroed A ws ixs) /\ ixs_ok (length ws) ixs /\
      length ixs = length vs /\
      (NoDup ixs -> Forall2 (fun i v => nth_error ws (Z.to_nat i) = Some v) ixs vs)
  | Err e => draws_near A val (draw_error u eta (depth N)) ws fs (Err e)
  end.
Proof.
  induction fs as [|f fs IH]; intros q ws Hr Hsh Hne Hok HM Hfs; cbn [fdraw_loop].
  { split; [constructor|]. split; [exact Hr|]. split; [constructor|]. split; [reflexivity|]. constructor. }
  inversion Hfs as [|? ? Hf Hfs']; subst.
  destruct (root_error q ws N Hr Hsh Hne Hok HM) as (root & il & ir & s & Et & Es & Os & Bs).
  rewrite Et, Es. pose proof (draw_one q ws N root il ir s f Hr Hsh Hne Hok HM Et Es Hf) as F. cbv zeta in F.
  destruct (ffind A (fuel_of il ir) il ir root (a_mul A s f)) as [ix|e]; cbn [rbind].
  2:{ destruct F as [-> F]. apply dn_fail; auto. }
  destruct F as [(k & w & -> & Ek & F)|[Hix F]].
  - assert (Hk : (k < length ws)%nat) by (apply nth_error_Some; congruence).
    destruct (tq_write_some (fsum A) q ws k (a_zero A) Hr Hk) as (q' & Ew & Hr').
    rewrite Ew. cbn [rbind]. rewrite Ek.
    pose proof (shallow_write (fsum A) N q _ _ q' _ Ew Hsh) as Hsh'.
    assert (Hw0 : 0 <= val w).
    { apply (r_ok _ _ _ _ _ _ _ HA). rewrite Forall_forall in Hok. apply Hok. apply nth_error_In with k. exact Ek. }
    specialize (IH q' (list_set ws k (a_zero A)) Hr' Hsh').
    assert (Hne' : list_set ws k (a_zero A) <> []).
    { intros H. apply (f_equal (@length V)) in H. rewrite list_set_length in H. cbn in H. lia. }
    specialize (IH Hne' (Forall_list_set_ok ws k Hok)).
    assert (HM' : total val (list_set ws k (a_zero A)) * (1 + u) ^ depth N <= M).
    { rewrite (total_set ws k w Ek). pose proof (growth_1 (depth N)).
      apply Rle_trans with (total val ws * (1 + u) ^ depth N); [apply Rmult_le_compat_r; lra|exact HM]. }
    specialize (IH HM' Hfs').
    destruct (fdraw_loop A q' fs) as [[[q'' is] vs]|e]; cbn [rbind].
    + destruct IH as (IH1 & IH2 & IH3 & IH4 & IH5). split; [|split; [|split; [|split]]].
      * exact (dn_cons A val (draw_error u eta (depth N)) ws f fs k w (Ok (is, vs)) Ek F IH1).
      * unfold zeroed in *. cbn [fold_left]. rewrite Nat2Z.id. exact IH2.
      * unfold ixs_ok in *. rewrite list_set_length in IH3. constructor; [lia|exact IH3].
      * cbn [length]. now rewrite IH4.
      * intros Hnd. inversion Hnd as [|? ? Hni Hnd']; subst. constructor; [now rewrite Nat2Z.id|].
        specialize (IH5 Hnd').
        assert (G' : forall is' vs', ixs_ok (length (list_set ws k (a_zero A))) is' -> ~ In (Z.of_nat k) is' ->
          Forall2 (fun i v => nth_error (list_set ws k (a_zero A)) (Z.to_nat i) = Some v) is' vs' ->
          Forall2 (fun i v => nth_error ws (Z.to_nat i) = Some v) is' vs').
        { intros is' vs' Hio Hn HF. induction HF as [|i v is' vs' Hiv HF IHF]; constructor.
          - inversion Hio; subst. rewrite nth_error_list_set in Hiv.
            destruct (Nat.eqb_spec (Z.to_nat i) k) as [Eik|Eik]; [|exact Hiv || (destruct (_ && _)%bool eqn:Eb; [lia|exact Hiv])].
            exfalso. apply Hn. left. lia.
          - inversion Hio; subst. apply IHF; auto. intros H. apply Hn. right. exact H. }
        apply G'; auto.
    + exact (dn_cons A val (draw_error u eta (depth N)) ws f fs k w (Err e) Ek F IH).
  - destruct (write_unused q ws root il ir ix (Some (a_zero A)) Hr Et Hix) as (q' & Ew).
    rewrite Ew. cbn [rbind]. apply dn_fail; auto.
Qed.

(** *** Writing back *)
Lemma list_nth_error_ext {B} : forall l l' : list B, (forall j, nth_error l j = nth_error l' j) -> l = l'.
Proof.
  induction l as [|x l IH]; intros [|y l'] H; [reflexivity|specialize (H 0%nat); discriminate|specialize (H 0%nat); discriminate|].
  f_equal; [specialize (H 0%nat); cbn in H; congruence|]. apply IH. intros j. exact (H (S j)).
Qed.

Lemma restore_ok : forall ixs vs q l, tq_rep (fsum A) q l -> ixs_ok (length l) ixs ->
  exists q', frestore A q ixs vs = Ok q' /\
    tq_rep (fsum A) q' (fold_left (fun (w : list V) (iv : Z * V) => list_set w (Z.to_nat (fst iv)) (snd iv)) (combine ixs vs) l).
Proof.
  induction ixs as [|i ixs IH]; intros [|v vs] q l Hr Hi; cbn [frestore combine fold_left]; eauto.
  inversion Hi as [|? ? Hi0 Hi']; subst.
  destruct (tq_write_some (fsum A) q l (Z.to_nat i) v Hr ltac:(lia)) as (q1 & E & Hr1).
  rewrite Z2Nat.id in E by lia. rewrite E. cbn [rbind fst snd].
  apply IH; [exact Hr1|]. rewrite list_set_length. exact Hi'.
Qed.

Lemma putback : forall ixs vs (ws l : list V), length l = length ws -> ixs_ok (length ws) ixs ->
  Forall2 (fun i v => nth_error ws (Z.to_nat i) = Some v) ixs vs ->
  (forall j, ~ In (Z.of_nat j) ixs -> nth_error l j = nth_error ws j) ->
  fold_left (fun (w : list V) (iv : Z * V) => list_set w (Z.to_nat (fst iv)) (snd iv)) (combine ixs vs) l = ws.
Proof.
  intros ixs vs ws l HL Hio HF. revert l HL. induction HF as [|i v ixs vs Hiv HF IH]; intros l HL Hj; cbn [combine fold_left fst snd].
  - apply list_nth_error_ext. intros j. apply Hj. auto.
  - inversion Hio as [|? ? Hi0 Hi']; subst. apply IH; auto; [now rewrite list_set_length|].
    intros j Hn. rewrite nth_error_list_set.
    destruct (Nat.eq_dec j (Z.to_nat i)) as [->|Hne].
    + rewrite Hiv. rewrite Nat.eqb_refl. replace (Z.to_nat i <? length l)%nat with true by lia. reflexivity.
    + replace (j =? Z.to_nat i)%nat with false by lia. cbn [andb]. apply Hj. intros [H|H]; [lia|contradiction].
Qed.

Lemma zeroed_length ixs : forall ws : list V, length (zeroed A ws ixs) = length ws.
Proof. unfold zeroed. induction ixs as [|i ixs IH]; intros ws; cbn [fold_left]; [reflexivity|]. rewrite IH. apply list_set_length. Qed.

Lemma zeroed_other ixs : forall (ws : list V) j, ixs_ok (length ws) ixs -> ~ In (Z.of_nat j) ixs ->
  nth_error (zeroed A ws ixs) j = nth_error ws j.
Proof.
  unfold zeroed. induction ixs as [|i ixs IH]; intros ws j Hio Hn; cbn [fold_left]; [reflexivity|].
  inversion Hio as [|? ? Hi0 Hi']; subst. rewrite IH; [|now rewrite list_set_length|intros H; apply Hn; right; exact H].
  rewrite nth_error_list_set. replace (j =? Z.to_nat i)%nat with false; [reflexivity|].
  symmetry. apply Nat.eqb_neq. intros ->. apply Hn. left. lia.
Qed.

(** *** After any history *)
Theorem sum_after ops : Forall ok (held ops) ->
  total val (held ops) * (1 + u) ^ depth (longest [] ops) <= M ->
  exists s, ftq_sum A (queue_after A ops) = Ok s /\ ok s /\
    Rabs (val s - total val (held ops)) <= ((1 + u) ^ depth (longest [] ops) - 1) * total val (held ops).
Proof.
  intros Hok HM. destruct (after_run (fsum A) ops) as [Hr Hsh].
  pose proof (proj1 Hr) as Hlen. unfold ftq_sum. rewrite Hlen.
  destruct (held ops) as [|w ws] eqn:Ew.
  - cbn [length Z.of_nat Z.eqb]. exists (a_zero A). split; [reflexivity|].
    destruct (r_zero _ _ _ _ _ _ _ HA) as [O E]. split; [exact O|]. unfold total. cbn [map rsum].
    rewrite E, Rminus_0_r, Rabs_R0. lra.
  - replace (Z.of_nat (length (w :: ws)) =? 0)%Z with false by (cbn [length]; lia).
    destruct (root_error _ _ _ Hr Hsh ltac:(discriminate) Hok HM) as (root & il & ir & s & Et & Es & Os & B).
    rewrite Et, Es. eauto.
Qed.

Theorem sample_after ops fs remove : held ops <> [] -> Forall ok (held ops) ->
  total val (held ops) * (1 + u) ^ depth (longest [] ops) <= M -> Forall unit01 fs ->
  draws_near A val (draw_error u eta (depth (longest [] ops))) (held ops) fs
    (rmap (fun '(_, ixs, vs) => (ixs, vs)) (fprioritized_sample A (queue_after A ops) fs remove)) /\
  forall q' ixs vs, fprioritized_sample A (queue_after A ops) fs remove = Ok (q', ixs, vs) ->
    (remove = true -> drain (length (held ops)) (fsum A) q' = zeroed A (held ops) ixs) /\
    (remove = false -> NoDup ixs -> drain (length (held ops)) (fsum A) q' = held ops).
Proof.
  intros Hne Hok HM Hfs. destruct (after_run (fsum A) ops) as [Hr Hsh].
  pose proof (draw_loop_near _ fs _ _ Hr Hsh Hne Hok HM Hfs) as F.
  unfold fprioritized_sample. set (q := queue_after A ops) in *. set (ws := held ops) in *.
  destruct (fdraw_loop A q fs) as [[[q1 ixs] vs]|e]; cbn [rbind].
  2:{ split; [exact F|]. discriminate. }
  destruct F as (F & Hr1 & Hio & HL & Hv).
  destruct remove; cbn [rbind rmap].
  - split; [exact F|]. intros q' ixs' vs' E. injection E as <- <- <-. split; [|discriminate]. intros _.
    rewrite <- (zeroed_length ixs ws). apply drain_spec. exact Hr1.
  - destruct (restore_ok ixs vs q1 _ Hr1 ltac:(rewrite zeroed_length; exact Hio)) as (q2 & E2 & Hr2).
    rewrite E2. cbn [rbind rmap]. split; [exact F|]. intros q' ixs' vs' E. injection E as <- <- <-. split; [discriminate|].
    intros _ Hnd. rewrite (putback ixs vs ws) in Hr2; auto using zeroed_length, zeroed_other. apply drain_spec. exact Hr2.
Qed.
End Error.
