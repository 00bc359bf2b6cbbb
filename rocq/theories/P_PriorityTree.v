(** Lemmas about the priority trees of M_Prioritized. *)
From Verif Require Import Base P_Base M_Prioritized S_Prioritized.
From Coq Require Import ZifyBool ZifyNat Lqa Morphisms.
Open Scope nat_scope.

Section Slots.
Context {V : Type}.
Variable op : list V -> V.

(** The 2^d slots below a node of depth d. *)
Fixpoint slots (d : nat) (n : node V) : list (option V) :=
  match d with
  | O => [nval n]
  | S d' => match n with
            | Br l r _ => slots d' l ++ slots d' r
            | _ => repeat None (2 ^ d)
            end
  end.

Fixpoint wfn (d : nat) (n : node V) : Prop :=
  match d with
  | O => match n with Br _ _ _ => False | _ => True end
  | S d' => match n with
            | Emp => True
            | Leaf _ => False
            | Br l r v => wfn d' l /\ wfn d' r /\
                          exists vs, opt_list (nval l) ++ opt_list (nval r) = vs /\ vs <> [] /\ v = op vs
            end
  end.

Lemma slots_length d n : length (slots d n) = 2 ^ d.
Proof.
  revert n. induction d as [|d IH]; intros n; [reflexivity|].
  cbn [slots]. destruct n; try apply repeat_length.
  rewrite app_length, !IH. cbn. lia.
Qed.

Lemma slots_emp d : slots d Emp = repeat None (2 ^ d).
Proof. destruct d; reflexivity. Qed.

Lemma wfn_emp d : wfn d (@Emp V).
Proof. destruct d; exact I. Qed.

Lemma nval_none (n : node V) : nval n = None <-> n = Emp.
Proof. destruct n; cbn; split; congruence. Qed.

Lemma reduce_wf d l r : wfn d l -> wfn d r -> wfn (S d) (reduce op l r).
Proof.
  intros Hl Hr. unfold reduce.
  destruct (opt_list (nval l) ++ opt_list (nval r)) as [|v vs] eqn:E; [exact I|].
  cbn [wfn]. repeat split; auto. exists (v :: vs). split; [exact E|]. split; [discriminate|reflexivity].
Qed.

Lemma reduce_slots d l r : slots (S d) (reduce op l r) = slots d l ++ slots d r.
Proof.
  unfold reduce.
  destruct (opt_list (nval l) ++ opt_list (nval r)) as [|v vs] eqn:E; [|reflexivity].
  apply app_eq_nil in E. destruct E as [E1 E2].
  destruct l; cbn in E1; try discriminate. destruct r; cbn in E2; try discriminate.
  rewrite !slots_emp, <- repeat_app. cbn [slots]. f_equal. cbn. lia.
Qed.

Lemma list_set_repeat_app {B} (l1 l2 : list B) k i x :
  length l1 = k -> i < k -> list_set (l1 ++ l2) i x = list_set l1 i x ++ l2.
Proof. intros; apply list_set_app_l; lia. Qed.

Lemma pow2_pos d : (0 < 2 ^ Z.of_nat d)%Z.
Proof. apply Z.pow_pos_nonneg; lia. Qed.

Lemma pow2_nat d : Z.of_nat (2 ^ d) = (2 ^ Z.of_nat d)%Z.
Proof. rewrite Nat2Z.inj_pow. reflexivity. Qed.

Lemma center_S d il ir : (ir = il + 2 ^ Z.of_nat (S d))%Z ->
  ((il + ir) / 2 = il + 2 ^ Z.of_nat d)%Z.
Proof.
  intros ->. rewrite Nat2Z.inj_succ, Z.pow_succ_r by lia.
  replace (il + (il + 2 * 2 ^ Z.of_nat d))%Z with ((il + 2 ^ Z.of_nat d) * 2)%Z by ring.
  apply Z.div_mul. lia.
Qed.

Lemma size_one d il ir : (ir = il + 2 ^ Z.of_nat d)%Z -> (ir - il =? 1)%Z = (d =? 0).
Proof.
  intros ->. destruct d.
  - cbn. lia.
  - rewrite Nat2Z.inj_succ, Z.pow_succ_r by lia. pose proof (pow2_pos d). lia.
Qed.

Lemma write_spec d : forall fuel il ir n key value,
  (ir = il + 2 ^ Z.of_nat d)%Z -> d <= fuel -> wfn d n -> (il <= key < ir)%Z ->
  exists n', write op fuel il ir n key value = Ok (n', nth (Z.to_nat (key - il)) (slots d n) None) /\
    wfn d n' /\ slots d n' = list_set (slots d n) (Z.to_nat (key - il)) value.
Proof.
  induction d as [|d IH]; intros fuel il ir n key value Hir Hf Hwf Hk.
  - assert (E : (ir - il =? 1)%Z = true) by (rewrite (size_one 0) by assumption; reflexivity).
    cbn in Hir. assert (key = il) by lia. subst key.
    replace (Z.to_nat (il - il)) with 0 by lia.
    exists (match value with None => Emp | Some v => Leaf v end).
    destruct fuel; cbn [write]; rewrite E; (split; [reflexivity|]); destruct value; cbn; auto.
  - destruct fuel as [|fuel]; [lia|]. cbn [write].
    rewrite (size_one (S d)) by assumption. cbn [Nat.eqb].
    rewrite (center_S d) by assumption.
    set (ic := (il + 2 ^ Z.of_nat d)%Z).
    assert (Hic : (ir = ic + 2 ^ Z.of_nat d)%Z).
    { unfold ic. rewrite Hir, Nat2Z.inj_succ, Z.pow_succ_r by lia. ring. }
    pose proof (pow2_pos d) as Hpos.
    assert (Hn : exists l r, (match n with Br l r _ => (l, r) | _ => (Emp, Emp) end) = (l, r) /\
                   wfn d l /\ wfn d r /\ slots (S d) n = slots d l ++ slots d r /\
                   match n with Leaf _ => False | _ => True end).
    { destruct n as [|v|l r v]; cbn [wfn] in Hwf.
      - exists Emp, Emp. repeat split; auto using wfn_emp.
        rewrite !slots_emp, <- repeat_app. f_equal. cbn. lia.
      - contradiction.
      - exists l, r. destruct Hwf as (H1 & H2 & _). auto. }
    destruct Hn as (l & r & Elr & Hl & Hr & Hs & HnL).
    assert (Hmatch : forall (X : Type) (a b : X), match n with Leaf _ => a | _ => b end = b)
      by (intros; destruct n; auto; contradiction).
    rewrite Hmatch, Elr. rewrite Hs.
    destruct (key <? ic)%Z eqn:Ek.
    + destruct (IH fuel il ic l key value eq_refl ltac:(lia) Hl ltac:(lia)) as (l' & E1 & Hwf' & Hs').
      rewrite E1. cbn [rbind]. exists (reduce op l' r).
      assert (Hlt : Z.to_nat (key - il) < length (slots d l)).
      { rewrite slots_length. unfold ic in Ek. pose proof (pow2_nat d). lia. }
      split; [|split].
      * do 2 f_equal. symmetry. apply app_nth1. exact Hlt.
      * apply reduce_wf; auto.
      * rewrite reduce_slots, Hs'. symmetry. apply list_set_app_l. exact Hlt.
    + destruct (IH fuel ic ir r key value Hic ltac:(lia) Hr ltac:(lia)) as (r' & E1 & Hwf' & Hs').
      rewrite E1. cbn [rbind]. exists (reduce op l r').
      assert (Hge : length (slots d l) <= Z.to_nat (key - il)).
      { rewrite slots_length. unfold ic in Ek. pose proof (pow2_nat d). lia. }
      assert (Hsub : Z.to_nat (key - il) - length (slots d l) = Z.to_nat (key - ic)).
      { rewrite slots_length. unfold ic. pose proof (pow2_nat d). lia. }
      split; [|split].
      * do 2 f_equal. rewrite app_nth2 by exact Hge. now rewrite Hsub.
      * apply reduce_wf; auto.
      * rewrite reduce_slots, Hs'. rewrite list_set_app_r by exact Hge. now rewrite Hsub.
Qed.

(** The values present below a node, in order. *)
Definition somes (l : list (option V)) : list V := flat_map opt_list l.

Lemma somes_app l1 l2 : somes (l1 ++ l2) = somes l1 ++ somes l2.
Proof. apply flat_map_app. Qed.
Lemma somes_repeat_none n : somes (repeat None n) = [].
Proof. induction n; cbn; auto. Qed.
Lemma somes_map_some xs : somes (map Some xs) = xs.
Proof. induction xs as [|a xs IH]; [reflexivity|]. cbn. f_equal. exact IH. Qed.

(** Representation of a list of values by a tree queue. *)
Definition layout (xs : list V) (il ir : Z) : list (option V) :=
  repeat None (Z.to_nat (- il)) ++ map Some xs ++ repeat None (Z.to_nat (ir - Z.of_nat (length xs))).

Definition tq_rep (q : tqueue V) (xs : list V) : Prop :=
  tlen q = Z.of_nat (length xs) /\
  match tree q with
  | None => xs = []
  | Some (root, il, ir) =>
      exists d, (ir = il + 2 ^ Z.of_nat d)%Z /\ (il <= 0)%Z /\ (0 < Z.of_nat (length xs) <= ir)%Z /\
        wfn d root /\ slots d root = layout xs il ir
  end.

Lemma layout_length xs il ir :
  (il <= 0)%Z -> (Z.of_nat (length xs) <= ir)%Z -> length (layout xs il ir) = Z.to_nat (ir - il).
Proof. intros. unfold layout. rewrite !app_length, !repeat_length, map_length. lia. Qed.

Lemma layout_nth xs il ir i :
  (il <= 0)%Z -> i < length xs -> nth (Z.to_nat (Z.of_nat i - il)) (layout xs il ir) None = nth_error xs i.
Proof.
  intros Hil Hi. unfold layout.
  rewrite app_nth2; rewrite repeat_length; [|lia].
  replace (Z.to_nat (Z.of_nat i - il) - Z.to_nat (- il)) with i by lia.
  rewrite app_nth1 by (rewrite map_length; lia).
  destruct (nth_error xs i) as [v|] eqn:E.
  - rewrite nth_indep with (d' := Some v) by (rewrite map_length; lia).
    rewrite map_nth. f_equal. now apply nth_error_nth.
  - apply nth_error_None in E. lia.
Qed.

Lemma layout_set xs il ir i v :
  (il <= 0)%Z -> i < length xs ->
  list_set (layout xs il ir) (Z.to_nat (Z.of_nat i - il)) (Some v) = layout (list_set xs i v) il ir.
Proof.
  intros Hil Hi. unfold layout.
  rewrite list_set_app_r; rewrite repeat_length; [|lia].
  replace (Z.to_nat (Z.of_nat i - il) - Z.to_nat (- il)) with i by lia.
  rewrite list_set_app_l by (rewrite map_length; lia).
  rewrite list_set_length. do 2 f_equal.
  clear. revert i. induction xs as [|a xs IH]; intros [|i]; cbn; auto. f_equal. apply IH.
Qed.

Lemma fuel_of_ge d il ir : (ir = il + 2 ^ Z.of_nat d)%Z -> d <= fuel_of il ir.
Proof.
  intros ->. unfold fuel_of. replace (il + 2 ^ Z.of_nat d - il)%Z with (2 ^ Z.of_nat d)%Z by ring.
  rewrite Z.log2_up_pow2 by lia. lia.
Qed.

Lemma layout_somes xs il ir : somes (layout xs il ir) = xs.
Proof. unfold layout. rewrite !somes_app, !somes_repeat_none, somes_map_some, app_nil_r. reflexivity. Qed.

Lemma wfn_nval_somes d n : wfn d n -> (nval n = None <-> somes (slots d n) = []).
Proof.
  revert n. induction d as [|d IH]; intros n Hw.
  - cbn. destruct (nval n); cbn; split; congruence.
  - destruct n as [|v|l r v].
    + rewrite slots_emp, somes_repeat_none. cbn. tauto.
    + contradiction.
    + cbn [slots wfn] in *. destruct Hw as (Hl & Hr & vs & E & Hne & Hv).
      rewrite somes_app. cbn. split; [discriminate|].
      intros H. apply app_eq_nil in H. destruct H as [H1 H2].
      apply (IH l Hl) in H1. apply (IH r Hr) in H2. rewrite H1, H2 in E. cbn in E. congruence.
Qed.

Lemma tq_write_some q xs i v : tq_rep q xs -> i < length xs ->
  exists q', tq_write op q (Z.of_nat i) (Some v) = Ok (q', nth_error xs i) /\ tq_rep q' (list_set xs i v).
Proof.
  intros (Hlen & Ht) Hi. unfold tq_write.
  destruct (tree q) as [[[root il] ir]|]; [|subst xs; cbn in Hi; lia].
  destruct Ht as (d & Hir & Hil & Hn & Hwf & Hs).
  destruct (write_spec d (fuel_of il ir) il ir root (Z.of_nat i) (Some v) Hir (fuel_of_ge d il ir Hir) Hwf ltac:(lia))
    as (root' & E & Hwf' & Hs').
  rewrite E. cbn [rbind]. eexists. split.
  - do 2 f_equal. rewrite Hs. apply layout_nth; auto.
  - split; cbn; rewrite list_set_length; auto.
    exists d. repeat split; auto; try lia. rewrite Hs', Hs. apply layout_set; auto.
Qed.

Lemma tq_set_spec q xs i v : tq_rep q xs ->
  (forall k, (0 <= i < Z.of_nat (length xs))%Z -> k = Z.to_nat i ->
     exists q', tq_set op q i v = Ok (q', nth_error xs k) /\ tq_rep q' (list_set xs k v)) /\
  (~ (0 <= i < Z.of_nat (length xs))%Z -> tq_set op q i v = Err AssertionError).
Proof.
  intros Hr. unfold tq_set. rewrite (proj1 Hr). split.
  - intros k Hi ->. replace ((0 <=? i) && (i <? Z.of_nat (length xs)))%Z with true by lia. cbn [passert rbind].
    destruct (tq_write_some q xs (Z.to_nat i) v Hr ltac:(lia)) as (q' & E & H').
    replace (Z.of_nat (Z.to_nat i)) with i in E by lia. eauto.
  - intros Hi. replace ((0 <=? i) && (i <? Z.of_nat (length xs)))%Z with false by lia. reflexivity.
Qed.

Lemma tq_append_spec q xs v : tq_rep q xs ->
  exists q', tq_append op q v = Ok q' /\ tq_rep q' (xs ++ [v]).
Proof.
  intros (Hlen & Ht). unfold tq_append. rewrite Hlen.
  destruct (Z.of_nat (length xs) =? 0)%Z eqn:E0.
  - destruct xs; cbn in E0; [|lia]. eexists. split; [reflexivity|].
    split; [reflexivity|]. cbn [tree]. exists 0. cbn. repeat split; auto; try lia.
  - destruct (tree q) as [[[root il] ir]|]; [|subst xs; cbn in E0; lia].
    destruct Ht as (d & Hir & Hil & Hn & Hwf & Hs).
    set (grown := if (ir =? Z.of_nat (length xs))%Z then _ else _).
    assert (Hg : exists d' root' il' ir', grown = Ok (root', il', ir') /\
       (ir' = il' + 2 ^ Z.of_nat d')%Z /\ (il' <= 0)%Z /\ (Z.of_nat (length xs) < ir')%Z /\
       (* not wfn: the root's cached value is refreshed by the write *)
       (exists l r w, d' <> 0 /\ root' = Br l r w /\ wfn (pred d') l /\ wfn (pred d') r \/ wfn d' root') /\
       slots d' root' = layout xs il' ir').
    { subst grown. destruct (ir =? Z.of_nat (length xs))%Z eqn:Ei.
      - destruct (nval root) as [rv|] eqn:Erv.
        + exists (S d), (Br root Emp rv), il, (ir + (ir - il))%Z.
          split; [reflexivity|]. rewrite Nat2Z.inj_succ, Z.pow_succ_r by lia.
          pose proof (pow2_pos d). repeat split; try lia.
          * exists root, Emp, rv. left. repeat split; auto using wfn_emp.
          * cbn [slots]. rewrite Hs, slots_emp. unfold layout.
            rewrite <- !app_assoc. do 2 f_equal. rewrite <- repeat_app. f_equal.
            pose proof (pow2_nat d). lia.
        + apply (wfn_nval_somes d root Hwf) in Erv. rewrite Hs, layout_somes in Erv. subst xs. cbn in E0. lia.
      - exists d, root, il, ir. repeat split; auto; try lia. exists Emp, Emp, v. auto. }
    destruct Hg as (d' & root' & il' & ir' & Eg & Hir' & Hil' & Hlt & Hwf0 & Hs0).
    rewrite Eg. cbn [rbind]. unfold tq_write. cbn [tree tlen].
    assert (Hwfr : exists root'', wfn d' root'' /\ slots d' root'' = slots d' root' /\
              forall key val, write op (fuel_of il' ir') il' ir' root' key val = write op (fuel_of il' ir') il' ir' root'' key val).
    { destruct Hwf0 as (l & r & w & [(Hd & -> & Hwl & Hwr)|Hw]).
      - destruct d' as [|d']; [congruence|]. cbn [pred] in *. clear Hd.
        destruct (opt_list (nval l) ++ opt_list (nval r)) as [|a vs] eqn:Evs.
        + (* both children empty: impossible here since xs <> [] *)
          exfalso. apply app_eq_nil in Evs. destruct Evs as [E1 E2].
          destruct l; cbn in E1; try discriminate. destruct r; cbn in E2; try discriminate.
          assert (Hx : somes (slots (S d') (Br Emp Emp w)) = []).
          { cbn [slots]. rewrite !slots_emp, somes_app, somes_repeat_none. reflexivity. }
          rewrite Hs0, layout_somes in Hx. subst xs. cbn in E0. lia.
        + exists (Br l r (op (a :: vs))). cbn [wfn slots]. repeat split; auto.
          * exists (a :: vs). split; [exact Evs|]. split; [discriminate|reflexivity].
          * intros key val. pose proof (fuel_of_ge _ _ _ Hir') as Hf.
            destruct (fuel_of il' ir') as [|f]; [lia|]. cbn [write].
            rewrite (size_one (S d')) by assumption. reflexivity.
      - exists root'. auto. }
    destruct Hwfr as (root'' & Hwf'' & Hs'' & Ew). rewrite Ew.
    destruct (write_spec d' (fuel_of il' ir') il' ir' root'' (Z.of_nat (length xs)) (Some v) Hir' (fuel_of_ge _ _ _ Hir') Hwf''
                ltac:(lia)) as (root3 & E & Hwf3 & Hs3).
    rewrite E. cbn [rbind tree].
    rewrite Hs'', Hs0.
    assert (Hnth : nth (Z.to_nat (Z.of_nat (length xs) - il')) (layout xs il' ir') None = None).
    { unfold layout. rewrite app_nth2; rewrite repeat_length; [|lia].
      rewrite app_nth2; rewrite map_length; [|lia]. apply nth_repeat. }
    rewrite Hnth. eexists. split; [reflexivity|].
    split; cbn [tlen tree]; rewrite app_length; cbn [length]; [lia|].
    exists d'. repeat split; auto; try lia.
    rewrite Hs3, Hs'', Hs0. unfold layout.
    rewrite list_set_app_r; rewrite repeat_length; [|lia].
    rewrite list_set_app_r; rewrite map_length; [|lia].
    replace (Z.to_nat (Z.of_nat (length xs) - il') - Z.to_nat (- il') - length xs) with 0 by lia.
    rewrite app_length, map_app. cbn [length map]. rewrite <- app_assoc. do 2 f_equal.
    replace (Z.to_nat (ir' - Z.of_nat (length xs))) with (S (Z.to_nat (ir' - Z.of_nat (length xs + 1)))) by lia.
    reflexivity.
Qed.

Lemma tq_popleft_spec q x xs : tq_rep q (x :: xs) ->
  exists q', tq_popleft op q = Ok (q', Some x) /\ tq_rep q' xs.
Proof.
  intros (Hlen & Ht). unfold tq_popleft. rewrite Hlen.
  replace (0 <? Z.of_nat (length (x :: xs)))%Z with true by (cbn [length]; lia).
  cbn [passert rbind]. unfold tq_write.
  destruct (tree q) as [[[root il] ir]|]; [|discriminate].
  destruct Ht as (d & Hir & Hil & Hn & Hwf & Hs).
  destruct (write_spec d (fuel_of il ir) il ir root 0%Z None Hir (fuel_of_ge _ _ _ Hir) Hwf ltac:(lia))
    as (root' & E & Hwf' & Hs').
  rewrite E. cbn [rbind tree].
  assert (Hret : nth (Z.to_nat (0 - il)) (slots d root) None = Some x).
  { rewrite Hs. change 0%Z with (Z.of_nat 0). rewrite layout_nth; cbn; auto; lia. }
  rewrite Hret.
  assert (Hs2 : slots d root' = layout xs (il - 1) (ir - 1)).
  { rewrite Hs', Hs. unfold layout. rewrite list_set_app_r; rewrite repeat_length; [|lia].
    replace (Z.to_nat (0 - il) - Z.to_nat (- il)) with 0 by lia. cbn [map app list_set].
    replace (Z.to_nat (- (il - 1))) with (Z.to_nat (- il) + 1) by lia.
    rewrite repeat_app, <- app_assoc. cbn [repeat app]. do 4 f_equal. cbn [length]. lia. }
  destruct (Z.of_nat (length (x :: xs)) - 1 =? 0)%Z eqn:E1.
  - destruct xs; [|cbn [length] in E1; lia]. eexists. split; [reflexivity|]. split; reflexivity.
  - destruct ((il - 1 + (ir - 1)) / 2 =? 0)%Z eqn:Ec.
    + destruct d as [|d].
      { exfalso. cbn in Hir. cbn [length] in *. lia. }
      assert (Hc := center_S d (il - 1) (ir - 1) ltac:(lia)).
      rewrite Hc in Ec |- *.
      destruct root' as [|w|l r w]; cbn [wfn] in Hwf'; try contradiction.
      { exfalso. assert (Hx : somes (slots (S d) Emp) = []) by (rewrite slots_emp; apply somes_repeat_none).
        rewrite Hs2, layout_somes in Hx. subst xs. cbn in E1. lia. }
      eexists. split; [reflexivity|].
      split; cbn [tlen tree]; [cbn [length]; lia|].
      exists d. destruct Hwf' as (_ & Hr & _).
      assert (Hir2 : (ir - 1 = 2 ^ Z.of_nat d)%Z).
      { rewrite Nat2Z.inj_succ, Z.pow_succ_r in Hir by lia. lia. }
      cbn [length] in *. repeat split; auto; try lia.
      cbn [slots] in Hs2. unfold layout in *.
      apply (f_equal (skipn (2 ^ d))) in Hs2.
      rewrite skipn_app, slots_length, Nat.sub_diag, skipn_all2 in Hs2 by (rewrite slots_length; lia).
      cbn [skipn app] in Hs2. rewrite Hs2.
      pose proof (pow2_nat d).
      rewrite skipn_app, repeat_length, skipn_all2 by (rewrite repeat_length; lia).
      replace (2 ^ d - Z.to_nat (- (il - 1))) with 0 by lia. cbn [skipn app].
      replace (Z.to_nat (- (il - 1 + 2 ^ Z.of_nat d))) with 0 by lia. reflexivity.
    + eexists. split; [reflexivity|].
      split; cbn [tlen tree]; [cbn [length]; lia|].
      exists d. cbn [length] in *. repeat split; auto; try lia.
Qed.

Lemma tq_init_rep : tq_rep tq_init [].
Proof. split; reflexivity. Qed.

Lemma tq_step_refines q xs o : tq_rep q xs ->
  snd (tq_step op q o) = snd (tq_spec xs o) /\ tq_rep (fst (tq_step op q o)) (fst (tq_spec xs o)).
Proof.
  intros Hr. destruct o as [v| |i v]; cbn [tq_step tq_spec].
  - destruct (tq_append_spec q xs v Hr) as (q' & E & H'). rewrite E. auto.
  - destruct xs as [|x xs].
    + unfold tq_popleft. rewrite (proj1 Hr). cbn. auto.
    + destruct (tq_popleft_spec q x xs Hr) as (q' & E & H'). rewrite E. auto.
  - destruct (tq_set_spec q xs i v Hr) as [H1 H2].
    destruct ((0 <=? i) && (i <? Z.of_nat (length xs)))%Z eqn:E.
    + destruct (H1 (Z.to_nat i) ltac:(lia) eq_refl) as (q' & E' & H'). rewrite E'. auto.
    + rewrite H2 by lia. auto.
Qed.

Lemma tq_refines ops :
  snd (run (tq_step op) tq_init ops) = snd (run tq_spec [] ops) /\
  tq_rep (fst (run (tq_step op) tq_init ops)) (fst (run tq_spec [] ops)).
Proof. apply (run_refine (tq_step op) tq_spec tq_rep); auto using tq_step_refines, tq_init_rep. Qed.
End Slots.
