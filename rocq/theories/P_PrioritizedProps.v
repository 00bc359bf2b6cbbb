(** Derived facts for C03-C06. *)
From Verif Require Import Base P_Base M_Prioritized S_Prioritized P_PriorityTree P_Prioritized.
From Coq Require Import ZifyBool ZifyNat Lqa.
Open Scope nat_scope.

Lemma sum_after_ops ops :
  exists s, tq_sum (fst (run (tq_step op_sum) tq_init ops)) = Ok s /\ (s == Qsum (fst (run tq_spec [] ops)))%Q.
Proof. apply tq_sum_spec. apply tq_refines. Qed.

Lemma min_after_ops ops :
  match fst (run tq_spec [] ops) with
  | [] => tq_min (fst (run (tq_step op_min) tq_init ops)) = Ok None
  | l => exists m, tq_min (fst (run (tq_step op_min) tq_init ops)) = Ok (Some m) /\ is_min m l
  end.
Proof.
  pose proof (tq_min_spec _ _ (proj2 (tq_refines op_min ops))) as H.
  destruct (fst (run tq_spec [] ops)); exact H.
Qed.

Lemma pb_run_refines A cap wait m (ops : list (pb_op A)) s rs :
  sb_run (sb_init cap wait m) ops = Some (s, rs) ->
  Forall2 out_eq (snd (run pb_step (pb_init cap wait m) ops)) rs.
Proof. intros H. exact (proj1 (pb_refines ops _ _ _ _ (pb_init_rel cap wait m) H)). Qed.

Lemma reachable_rel {A} (b : pbuf A) : reachable b -> exists s, pb_rel b s.
Proof.
  intros (cap & wait & m & ops & s & rs & E & ->). exists s.
  exact (proj2 (pb_refines ops _ _ _ _ (pb_init_rel cap wait m) E)).
Qed.

(** *** capacity *)
Lemma rbind_ok {X Y} (x : result X) (f : X -> result Y) y : rbind x f = Ok y -> exists a, x = Ok a /\ f a = Ok y.
Proof. destruct x; cbn; [eauto|discriminate]. Qed.

Definition cap_inv {A} c (b : pbuf A) : Prop := capacity b = Some c /\ length (data b) <= c.

Lemma pb_popleft_data {A} (b b' : pbuf A) x : pb_popleft b = Ok (b', x) ->
  capacity b' = capacity b /\ data b = x :: data b'.
Proof.
  unfold pb_popleft. destruct (data b) as [|y t] eqn:Ed; [discriminate|].
  intros E. apply rbind_ok in E. destruct E as ([q1 r1] & E1 & E). apply rbind_ok in E. destruct E as ([q2 r2] & E2 & E).
  injection E as <- <-. cbn. auto.
Qed.

Lemma cap_inv_step {A} c (b : pbuf A) o : cap_inv c b -> cap_inv c (fst (pb_step b o)).
Proof.
  intros [Hc Hl]. destruct o as [x p| |o u|ps|]; cbn [pb_step].
  - destruct (pb_append b x p) as [b'|e] eqn:E; [|split; auto]. cbn.
    unfold pb_append in E. rewrite Hc in E. destruct (length (data b) =? c) eqn:El.
    + apply rbind_ok in E. destruct E as (b1 & E1 & E). apply rbind_ok in E1. destruct E1 as ([b2 y] & Ep & E1).
      injection E1 as <-. apply pb_popleft_data in Ep. destruct Ep as [Hc2 Hd2].
      apply rbind_ok in E. destruct E as (q1 & _ & E). apply rbind_ok in E. destruct E as (q2 & _ & E).
      injection E as <-. split; cbn; [congruence|]. rewrite app_length. cbn. rewrite Hd2 in El. cbn [length] in El. lia.
    + cbn [rbind] in E. apply rbind_ok in E. destruct E as (q1 & _ & E). apply rbind_ok in E. destruct E as (q2 & _ & E).
      injection E as <-. split; cbn; [congruence|]. rewrite app_length. cbn. lia.
  - destruct (pb_popleft b) as [[b' x]|e] eqn:E; [|split; auto]. apply pb_popleft_data in E. destruct E as [E1 E2].
    split; cbn; [congruence|]. rewrite E2 in Hl. cbn in Hl. lia.
  - destruct (pb_sample b o u) as [[b' [[xs ps] m]]|e] eqn:E; [|split; auto]. cbn. unfold pb_sample in E.
    apply rbind_ok in E. destruct E as (? & _ & E). apply rbind_ok in E. destruct E as (? & _ & E).
    apply rbind_ok in E. destruct E as ([mn|] & _ & E); [|discriminate].
    destruct (Qeq_bool _ 0); [discriminate|].
    apply rbind_ok in E. destruct E as ([[[? ?] ?] ?] & _ & E). apply rbind_ok in E. destruct E as ([[? ?] ?] & _ & E).
    apply rbind_ok in E. destruct E as (? & _ & E). injection E as <- <- <- <-. split; cbn; auto.
  - destruct (pb_set_last_priority b ps) as [b'|e] eqn:E; [|split; auto]. cbn. unfold pb_set_last_priority in E.
    apply rbind_ok in E. destruct E as (? & _ & E). apply rbind_ok in E. destruct E as (? & _ & E).
    destruct (sampled_indices b); [|discriminate]. apply rbind_ok in E. destruct E as (? & _ & E).
    apply rbind_ok in E. destruct E as ([[? ?] ?] & _ & E). injection E as <-. split; cbn; auto.
  - split; auto.
Qed.

Lemma pb_capacity A c wait m (ops : list (pb_op A)) :
  length (data (fst (run pb_step (pb_init (Some c) wait m) ops))) <= c.
Proof.
  apply (run_inv pb_step (cap_inv c)); [intros; now apply cap_inv_step|]. split; cbn; [auto|lia].
Qed.

(** *** drain *)
Lemma drain_spec {V} (op : list V -> V) xs : forall q, tq_rep op q xs -> drain (length xs) op q = xs.
Proof.
  induction xs as [|x xs IH]; intros q Hr; [reflexivity|]. cbn [length drain].
  destruct (tq_popleft_spec op q x xs Hr) as (q' & E & H'). rewrite E. f_equal. auto.
Qed.

Lemma priorities_rel {A} (b : pbuf A) s : pb_rel b s -> priorities b = s_ps s.
Proof.
  intros (Hc & Hd & Hs & Hm & Hx & Hw & Hf & Hsi & L1 & L2 & Hnn & Hcap).
  unfold priorities. rewrite Hd, <- L2. now apply drain_spec.
Qed.
Lemma weights_rel {A} (b : pbuf A) s : pb_rel b s -> weights b = s_ws s.
Proof.
  intros (Hc & Hd & Hs & Hm & Hx & Hw & Hf & Hsi & L1 & L2 & Hnn & Hcap).
  unfold weights. rewrite Hd, <- L1. now apply drain_spec.
Qed.

(** *** enough weight for the draws *)

Lemma npos_sum ws : Forall (Qle 0) ws -> 0 < npos ws -> (0 < Qsum ws)%Q.
Proof.
  unfold npos. induction 1 as [|w ws H0 H IH]; cbn; [lia|]. pose proof (Qsum_nonneg ws H).
  destruct (Qltb 0 w) eqn:E; qb.
  - intros _. lra.
  - intros Hn. specialize (IH Hn). lra.
Qed.

Lemma npos_list_set ws i : npos ws <= S (npos (list_set ws i 0%Q)).
Proof.
  unfold npos. revert i. induction ws as [|w ws IH]; intros [|i]; cbn; try lia.
  - destruct (Qltb 0 w); cbn; lia.
  - specialize (IH i). destruct (Qltb 0 w); cbn; lia.
Qed.

Lemma npos_zero_at ixs : forall ws, npos ws <= length ixs + npos (zero_at ws ixs).
Proof.
  unfold zero_at. induction ixs as [|i ixs IH]; intros ws; cbn [fold_left length]; [lia|].
  specialize (IH (list_set ws i 0%Q)). pose proof (npos_list_set ws i). lia.
Qed.

Lemma draws_enough fs : forall ws, Forall (Qle 0) ws -> Forall (fun f => 0 <= f < 1)%Q fs -> length fs <= npos ws ->
  exists ds, draws ws fs = Some ds /\ length ds = length fs.
Proof.
  induction fs as [|f fs IH]; intros ws Hw Hfs Hn; [exists []; auto|].
  inversion Hfs as [|? ? Hf Hfs']; subst. cbn [draws length] in *.
  assert (Hs : (0 < Qsum ws)%Q) by (apply npos_sum; auto; lia).
  destruct (cdf_find_some ws (Qsum ws * f)%Q) as (i & Ei & Hi).
  - now apply draw_pos_nonneg.
  - assert (Qsum ws * f < Qsum ws * 1)%Q by (apply Qmult_lt_l; lra). lra.
  - rewrite Ei. destruct (IH (list_set ws i 0%Q)) as (ds & Ed & Hl); auto.
    + apply list_set_nonneg; auto; lra.
    + pose proof (npos_list_set ws i). lia.
    + rewrite Ed. cbn. exists (i :: ds). cbn. auto.
Qed.

Lemma tq_reach_rep ops : tq_rep op_sum (fst (run (tq_step op_sum) tq_init ops)) (fst (run tq_spec [] ops)).
Proof. apply tq_refines. Qed.

Lemma single_draw ops f remove : let xs := fst (run tq_spec [] ops) in
  Forall (Qle 0) xs -> (0 < Qsum xs)%Q -> (0 <= f < 1)%Q ->
  exists i p q', nth_error xs i = Some p /\ (0 < p)%Q /\
    prioritized_sample (fst (run (tq_step op_sum) tq_init ops)) [f] remove = Ok (q', [Z.of_nat i], [p]) /\
    forall j, j < length xs ->
      (j = i <-> (Qsum (firstn j xs) <= f * Qsum xs < Qsum (firstn (S j) xs))%Q).
Proof.
  intros xs Hnn Hs Hf.
  destruct (cdf_find_some xs (Qsum xs * f)%Q) as (i & Ei & Hi).
  { now apply draw_pos_nonneg. }
  { assert (Qsum xs * f < Qsum xs * 1)%Q by (apply Qmult_lt_l; lra). lra. }
  destruct (cdf_find_pos xs _ i Hnn (draw_pos_nonneg xs f Hnn Hf) Ei) as (p & Ep & Hp).
  assert (Ed : draws xs [f] = Some [i]) by (cbn; rewrite Ei; reflexivity).
  destruct (prioritized_sample_spec _ xs [f] [i] remove (tq_reach_rep ops) Hnn ltac:(auto) Ed) as (q' & E & _).
  exists i, p, q'. repeat split; auto.
  - rewrite E. unfold at_ixs. cbn. rewrite Ep. reflexivity.
  - subst j. destruct (cdf_find_bounds _ _ _ Ei) as (_ & H1 & H2). specialize (H2 (draw_pos_nonneg xs f Hnn Hf) Hnn). lra.
  - subst j. destruct (cdf_find_bounds _ _ _ Ei) as (_ & H1 & H2). lra.
  - intros [H1 H2]. assert (E2 : cdf_find xs (Qsum xs * f)%Q = Some j) by (apply cdf_find_complete; auto; lra). congruence.
Qed.

Lemma many_draws ops fs remove : let xs := fst (run tq_spec [] ops) in
  Forall (Qle 0) xs -> Forall (fun f => 0 <= f < 1)%Q fs -> length fs <= npos xs ->
  exists q' ds, prioritized_sample (fst (run (tq_step op_sum) tq_init ops)) fs remove = Ok (q', map Z.of_nat ds, at_ixs xs ds) /\
    length ds = length fs /\ NoDup ds /\ Forall (fun i => exists p, nth_error xs i = Some p /\ 0 < p)%Q ds /\
    drain (length xs) op_sum q' = (if remove then zero_at xs ds else xs).
Proof.
  intros xs Hnn Hfs Hn. destruct (draws_enough fs xs Hnn Hfs Hn) as (ds & Ed & Hl).
  destruct (prioritized_sample_spec _ xs fs ds remove (tq_reach_rep ops) Hnn Hfs Ed) as (q' & E & Hr).
  destruct (draws_positive fs xs ds Hnn Hfs Ed) as [Hnd Hp].
  exists q', ds. repeat split; auto.
  destruct remove; [|now apply drain_spec].
  rewrite <- (zero_at_length xs ds). now apply drain_spec.
Qed.

(** *** sample on reachable buffers *)
Lemma sample_in_contract {A} (b : pbuf A) s o u : pb_rel b s -> oracle_ok (length (data b)) o -> enough b o u ->
  s_wait s && s_flag s = false ->
  let us := if Qltb 0 u then map Z.to_nat (so_uniform o) else [] in
  let ws1 := if s_wait s then zero_at (s_ws s) us else s_ws s in
  exists ds probs m, draws ws1 (so_fracs o) = Some ds /\ length ds = length (so_fracs o) /\
    sb_step s (PSample o u) =
      Some (mkSb (s_cap s) (s_vals s) (if s_wait s then zero_at ws1 ds else ws1) (s_ps s) (s_max s) (s_wait s) true (Some (us ++ ds)),
            PSampled (at_ixs (s_vals s) (us ++ ds)) probs m).
Proof.
  intros HR (Hn & Hb & Hf) (Hp & Hen) Hwf us ws1.
  pose proof (weights_rel b s HR) as Hws. rewrite Hws in Hp, Hen.
  destruct HR as (Hc & Hd & Hs & Hm & Hx & Hw & Hfl & Hsi & L1 & L2 & Hnn & Hcap). rewrite Hd in Hb.
  assert (Hlen : length us = if Qltb 0 u then length (so_uniform o) else 0).
  { unfold us. destruct (Qltb 0 u); [apply map_length|reflexivity]. }
  assert (Hnn1 : Forall (Qle 0) ws1) by (unfold ws1; destruct (s_wait s); auto using zero_at_nonneg).
  destruct (draws_enough (so_fracs o) ws1 Hnn1 Hf) as (ds & Ed & Hl).
  { unfold ws1. pose proof (npos_zero_at us (s_ws s)). destruct (s_wait s); lia. }
  cbn [sb_step]. rewrite Hwf.
  assert (Hl0 : (length (s_vals s) =? 0) = false).
  { destruct (s_vals s); [|reflexivity]. destruct (s_ws s); [|discriminate]. cbn in Hp. lia. }
  pose proof (npos_sum _ Hnn Hp) as Hpos.
  assert (Hz : Qeq_bool (Qsum (s_ws s)) 0 = false).
  { apply not_true_iff_false. intros C. apply Qeq_bool_iff in C. lra. }
  rewrite Hl0, Hz. cbn [orb]. fold us.
  assert (Hg1 : forallb (fun i => (0 <=? i) && (i <? Z.of_nat (length (s_vals s))))%Z (so_uniform o) = true).
  { apply forallb_forall. intros z Hz'. rewrite Forall_forall in Hb. specialize (Hb z Hz'). lia. }
  assert (Hg2 : nodupb us = true).
  { apply nodupb_NoDup. unfold us. destruct (Qltb 0 u); [|constructor].
    rewrite Forall_forall in Hb. revert Hn Hb. generalize (so_uniform o). induction 1; intros; cbn; constructor; auto.
    - intros Hin. apply in_map_iff in Hin. destruct Hin as (z & Ez & Hin). assert (z = x).
      { pose proof (Hb z (or_intror Hin)). pose proof (Hb x (or_introl eq_refl)). lia. } subst; auto.
    - apply IHHn. intros; apply Hb; now right. }
  assert (Hg3 : forallb frac_ok (so_fracs o) = true).
  { apply forallb_forall. intros f Hin. rewrite Forall_forall in Hf. now apply frac_ok_iff, Hf. }
  rewrite Hg1, Hg2, Hg3. cbn [andb negb]. fold ws1. rewrite Ed.
  exists ds. eexists _, _. split; [reflexivity|]. split; [exact Hl|]. reflexivity.
Qed.

Lemma us_NoDup (o : soracle) u n : oracle_ok n o ->
  let us := if Qltb 0 u then map Z.to_nat (so_uniform o) else [] in
  NoDup us /\ Forall (fun i => i < n) us.
Proof.
  intros (Hn & Hb & _) us. unfold us. destruct (Qltb 0 u); [|split; constructor].
  revert Hn Hb. generalize (so_uniform o). intros l. induction l as [|z l IH]; intros Hn Hb; cbn; [split; constructor|].
  inversion Hn as [|? ? Hni Hn']; subst. inversion Hb as [|? ? Hz Hb']; subst.
  destruct (IH Hn' Hb') as [H1 H2]. split; constructor; auto; [|lia].
  intros Hin. apply in_map_iff in Hin. destruct Hin as (y & Ey & Hin). rewrite Forall_forall in Hb'. specialize (Hb' y Hin).
  assert (y = z) by lia. subst; auto.
Qed.

Lemma sampled_NoDup ws fs us ds (wait : bool) : Forall (Qle 0) ws -> Forall (fun f => 0 <= f < 1)%Q fs -> NoDup us ->
  Forall (fun i => i < length ws) us ->
  draws (if wait then zero_at ws us else ws) fs = Some ds -> (wait = true \/ us = []) -> NoDup (us ++ ds).
Proof.
  intros Hw Hf Hu Hb Ed Hor.
  assert (Hw1 : Forall (Qle 0) (if wait then zero_at ws us else ws)) by (destruct wait; auto using zero_at_nonneg).
  destruct (draws_positive fs _ ds Hw1 Hf Ed) as [Hnd Hpos].
  destruct Hor as [->| ->]; [|exact Hnd].
  rewrite Forall_forall in Hpos.
  assert (Hdis : forall i, In i us -> ~ In i ds).
  { intros i Hi Hi2. destruct (Hpos i Hi2) as (v & Ev & Hv). rewrite zero_at_nth in Ev.
    replace (existsb (Nat.eqb i) us) with true in Ev.
    - rewrite Forall_forall in Hb. specialize (Hb i Hi). replace (i <? length ws) with true in Ev by lia.
      cbn in Ev. injection Ev as <-. lra.
    - symmetry. apply existsb_exists. exists i. split; auto. apply Nat.eqb_refl. }
  clear -Hu Hnd Hdis. induction Hu as [|x l Hx Hl IH]; cbn; auto. constructor.
  - intros H. apply in_app_or in H. destruct H as [H|H]; [auto|]. exact (Hdis x (or_introl eq_refl) H).
  - apply IH. intros i Hi. apply Hdis. now right.
Qed.

Lemma assign_updated ixs : forall l l0 ps, NoDup ixs -> Forall (fun i => i < length l0) ixs -> length ixs = length ps ->
  length l = length l0 -> (forall i, ~ In i ixs -> nth_error l i = nth_error l0 i) ->
  updated_at l0 (assign l ixs ps) ixs ps.
Proof.
  intros l l0 ps Hn Hb Hlen Hl Hag. split; [now rewrite assign_length|].
  revert l ps Hlen Hl Hag. induction ixs as [|i ixs IH]; intros l ps Hlen Hl Hag.
  - destruct ps; [|discriminate]. split; [intros [|k]; discriminate|]. intros j Hj. cbn. auto.
  - destruct ps as [|p ps]; [discriminate|]. rewrite assign_cons.
    inversion Hn as [|? ? Hni Hn']; subst. inversion Hb as [|? ? Hi Hb']; subst.
    assert (Hother : forall l1 ixs ps1 j, ~ In j ixs -> nth_error (assign l1 ixs ps1) j = nth_error l1 j).
    { clear. intros l1 ixs. revert l1. induction ixs as [|i ixs IH]; intros l1 [|p ps1] j Hj; try reflexivity.
      rewrite assign_cons, IH by (cbn in Hj; tauto). rewrite nth_error_list_set.
      replace (j =? i) with false; [reflexivity|]. symmetry. apply Nat.eqb_neq. intros ->. apply Hj. now left. }
    split.
    + intros [|k] j q Ej Eq; cbn in Ej, Eq.
      * injection Ej as <-. injection Eq as <-. rewrite Hother by auto. rewrite nth_error_list_set, Nat.eqb_refl.
        replace (i <? length l) with true by lia. reflexivity.
      * (* later position: use a version of IH on a list agreeing outside *)
        assert (G : forall (l1 : list Q) ixs ps1, NoDup ixs -> Forall (fun i => i < length l1) ixs ->
          forall k j q, nth_error ixs k = Some j -> nth_error ps1 k = Some q -> nth_error (assign l1 ixs ps1) j = Some q).
        { clear -Hother. intros l1 ixs. revert l1. induction ixs as [|i ixs IH]; intros l1 ps1 Hn Hb [|k] j q Ej Eq; try discriminate.
          - destruct ps1 as [|p ps1]; [discriminate|]. cbn in Ej, Eq. injection Ej as <-. injection Eq as <-.
            inversion Hn; subst. inversion Hb; subst. rewrite assign_cons, Hother by auto.
            rewrite nth_error_list_set, Nat.eqb_refl. replace (i <? length l1) with true by lia. reflexivity.
          - destruct ps1 as [|p ps1]; [discriminate|]. cbn in Ej, Eq. inversion Hn; subst. inversion Hb; subst.
            rewrite assign_cons. apply IH with (k := k); auto.
            eapply Forall_impl; [|eassumption]. intros a Ha. cbn. now rewrite list_set_length. }
        apply (G (list_set l i p) ixs ps Hn') with (k := k); auto.
        eapply Forall_impl; [|exact Hb']. intros a Ha. cbn beta in *. rewrite list_set_length. lia.
    + intros j Hj. rewrite Hother by (cbn in Hj; tauto). rewrite nth_error_list_set.
      replace (j =? i) with false; [apply Hag; auto|]. symmetry. apply Nat.eqb_neq. intros ->. apply Hj. now left.
Qed.

Lemma at_ixs_Forall2 {B} (l : list B) ixs : Forall (fun i => i < length l) ixs ->
  Forall2 (fun i x => nth_error l i = Some x) ixs (at_ixs l ixs).
Proof.
  induction 1 as [|i ixs Hi H IH]; [constructor|].
  destruct (nth_error l i) as [v|] eqn:E; [|apply nth_error_None in E; lia].
  rewrite (at_ixs_cons l i v ixs E). constructor; auto.
Qed.

(** A successful sample, on concrete buffers. *)
Lemma sample_ok A (b : pbuf A) o u : reachable b -> oracle_ok (length (data b)) o -> enough b o u ->
  wait_after b && flag_wait b = false ->
  exists b1 xs probs m ixs s1, pb_sample b o u = Ok (b1, (xs, probs, m)) /\
    pb_rel b1 s1 /\ s_sampled s1 = Some ixs /\ flag_wait b1 = true /\ wait_after b1 = wait_after b /\
    max_priority b1 = max_priority b /\ data b1 = data b /\ priorities b1 = priorities b /\ capacity b1 = capacity b /\
    length (weights b1) = length (weights b) /\
    (forall i, ~ In i ixs -> nth_error (weights b1) i = nth_error (weights b) i) /\
    length ixs = (if Qltb 0 u then length (so_uniform o) else 0) + length (so_fracs o) /\
    Forall (fun i => i < length (data b)) ixs /\
    Forall2 (fun i x => nth_error (data b) i = Some x) ixs xs /\
    (wait_after b = true \/ (u <= 0)%Q -> NoDup ixs).
Proof.
  intros Hreach Ho Hen Hwf. destruct (reachable_rel b Hreach) as (s & HR).
  pose proof HR as (Hc & Hd & Hs & Hm & Hx & Hw & Hf & Hsi & L1 & L2 & Hnn & Hcap).
  rewrite Hw, Hf in Hwf.
  destruct (sample_in_contract b s o u HR Ho Hen Hwf) as (ds & probs & m & Ed & Hdl & Est).
  set (us := if Qltb 0 u then map Z.to_nat (so_uniform o) else []) in *.
  destruct (pb_step_refines b s (PSample o u) _ _ HR Est) as [Hout HR1]. cbn [pb_step] in Hout, HR1.
  destruct (pb_sample b o u) as [[b1 [[xs probs1] m1]]|e] eqn:E; [|cbn in Hout; discriminate].
  cbn in Hout, HR1. destruct Hout as (-> & _ & _).
  eexists b1, _, probs1, m1, (us ++ ds), _. split; [reflexivity|]. split; [exact HR1|].
  split; [reflexivity|].
  rewrite (priorities_rel b1 _ HR1), (weights_rel b1 _ HR1), (priorities_rel b s HR), (weights_rel b s HR).
  pose proof HR1 as (Hc1 & Hd1 & Hs1 & Hm1 & Hx1 & Hw1 & Hf1 & _). cbn in *.
  pose proof (draws_bounds _ _ _ Ed) as Hdb.
  destruct (us_NoDup o u _ Ho) as [Hund Hub]. fold us in Hund, Hub.
  assert (Hb : Forall (fun i => i < length (s_vals s)) (us ++ ds)).
  { apply Forall_app. split; [now rewrite Hd in Hub|]. eapply Forall_impl; [|exact Hdb]. intros a. cbn.
    destruct (s_wait s); rewrite ?zero_at_length; lia. }
  rewrite Hd. splits; auto; try congruence.
  - destruct (s_wait s); rewrite ?zero_at_length; auto.
  - intros i Hi. destruct (s_wait s); [|reflexivity]. rewrite !zero_at_other; auto; intros C; apply Hi; apply in_or_app; auto.
  - rewrite app_length, Hdl. f_equal. unfold us. destruct (Qltb 0 u); [apply map_length|reflexivity].
  - now apply at_ixs_Forall2.
  - intros Hor. apply (sampled_NoDup (s_ws s) (so_fracs o) us ds (s_wait s)); auto.
    + apply Ho.
    + rewrite Hd in Hub. rewrite L1. exact Hub.
    + destruct Hor as [H|H]; [left; congruence|right]. unfold us. replace (Qltb 0 u) with false; [reflexivity|].
      symmetry. now apply Qltb_ge.
Qed.

Lemma Qmaxl_ge ps : forall m, (m <= Qmaxl m ps)%Q /\ (forall p, In p ps -> p <= Qmaxl m ps)%Q.
Proof.
  unfold Qmaxl. induction ps as [|p ps IH]; intros m; cbn; [split; [lra|tauto]|].
  destruct (IH (if Qltb m p then p else m)) as [H1 H2]. destruct (Qltb m p) eqn:E; qb; split; try lra.
  - intros q [->|Hq]; auto.
  - intros q [->|Hq]; auto. lra.
Qed.
Lemma Qmaxl_in ps : forall m, Qmaxl m ps = m \/ In (Qmaxl m ps) ps.
Proof.
  unfold Qmaxl. induction ps as [|p ps IH]; intros m; cbn; [auto|].
  destruct (IH (if Qltb m p then p else m)) as [H|H]; [|auto]. rewrite H. destruct (Qltb m p); auto.
Qed.

Lemma set_last_ok A (b : pbuf A) s ixs ps : pb_rel b s -> s_sampled s = Some ixs -> flag_wait b = true ->
  Forall (fun i => i < length (data b)) ixs -> Forall (Qlt 0) ps -> length ixs = length ps ->
  exists b2, pb_set_last_priority b ps = Ok b2 /\ data b2 = data b /\
    priorities b2 = assign (priorities b) ixs ps /\ weights b2 = assign (weights b) ixs ps /\
    max_priority b2 = Qmaxl (max_priority b) ps /\ flag_wait b2 = false.
Proof.
  intros HR Esam Hfl Hb Hps Hlen.
  pose proof HR as (Hc & Hd & Hs & Hm & Hx & Hw & Hf & Hsi & L1 & L2 & Hnn & Hcap).
  assert (Est : sb_step s (PSetLast ps) = Some (mkSb (s_cap s) (s_vals s) (assign (s_ws s) ixs ps) (assign (s_ps s) ixs ps)
      (Qmaxl (s_max s) ps) (s_wait s) false (Some []), PNone)).
  { cbn [sb_step]. rewrite <- Hf, Hfl. rewrite andb_false_r.
    replace (forallb (Qltb 0) ps) with true.
    2:{ symmetry. apply forallb_forall. intros p Hp. rewrite Forall_forall in Hps. apply Qltb_lt. auto. }
    cbn [negb]. rewrite Esam. replace (length ixs =? length ps) with true by lia. cbn [negb].
    replace (forallb (fun i => i <? length (s_vals s)) ixs) with true; [reflexivity|].
    symmetry. apply forallb_forall. intros i Hi. rewrite Forall_forall in Hb. specialize (Hb i Hi). rewrite Hd in Hb. lia. }
  destruct (pb_step_refines b s (PSetLast ps) _ _ HR Est) as [Hout HR1]. cbn [pb_step] in Hout, HR1.
  destruct (pb_set_last_priority b ps) as [b2|e]; [|cbn in Hout; discriminate]. cbn in HR1.
  exists b2. split; [reflexivity|].
  rewrite (priorities_rel b2 _ HR1), (weights_rel b2 _ HR1), (priorities_rel b s HR), (weights_rel b s HR).
  destruct HR1 as (Hc1 & Hd1 & Hs1 & Hm1 & Hx1 & Hw1 & Hf1 & _). cbn in *.
  rewrite Hd1, Hd, Hx1, Hx, Hf1. splits; auto.
Qed.

Lemma priorities_length {A} (b : pbuf A) s : pb_rel b s -> length (priorities b) = length (data b).
Proof. intros HR. rewrite (priorities_rel b s HR). destruct HR as (_ & -> & _ & _ & _ & _ & _ & _ & _ & ? & _). auto. Qed.
Lemma weights_length {A} (b : pbuf A) s : pb_rel b s -> length (weights b) = length (data b).
Proof. intros HR. rewrite (weights_rel b s HR). destruct HR as (_ & -> & _ & _ & _ & _ & _ & _ & ? & _). auto. Qed.

Lemma update_after_sample A (b : pbuf A) o u ps : reachable b -> oracle_ok (length (data b)) o -> enough b o u ->
  wait_after b && flag_wait b = false -> (wait_after b = true \/ (u <= 0)%Q) ->
  Forall (Qlt 0) ps -> length ps = (if Qltb 0 u then length (so_uniform o) else 0) + length (so_fracs o) ->
  exists b1 xs probs m b2 ixs,
    pb_sample b o u = Ok (b1, (xs, probs, m)) /\ pb_set_last_priority b1 ps = Ok b2 /\
    Forall2 (fun i x => nth_error (data b) i = Some x) ixs xs /\ NoDup ixs /\
    data b2 = data b /\
    updated_at (priorities b) (priorities b2) ixs ps /\ updated_at (weights b) (weights b2) ixs ps /\
    (max_priority b <= max_priority b2)%Q /\ (forall p, In p ps -> p <= max_priority b2)%Q /\
    (max_priority b2 = max_priority b \/ In (max_priority b2) ps).
Proof.
  intros Hreach Ho Hen Hwf Hor Hps Hlen.
  destruct (sample_ok A b o u Hreach Ho Hen Hwf)
    as (b1 & xs & probs & m & ixs & s1 & E & HR1 & Esam & Hfl & Hw1 & Hmax & Hd1 & Hp1 & Hc1 & Hwl & Hwo & Hl & Hb & Hf2 & Hnd).
  specialize (Hnd Hor).
  destruct (set_last_ok A b1 s1 ixs ps HR1 Esam Hfl) as (b2 & E2 & Hd2 & Hp2 & Hw2 & Hm2 & _); auto.
  { now rewrite Hd1. } { lia. }
  exists b1, xs, probs, m, b2, ixs. splits; auto.
  - congruence.
  - rewrite Hp2, Hp1. apply assign_updated; auto; [|lia].
    rewrite <- Hp1, (priorities_length b1 s1 HR1), Hd1. exact Hb.
  - rewrite Hw2. apply assign_updated; auto; [|lia]. rewrite <- Hwl, (weights_length b1 s1 HR1), Hd1. exact Hb.
  - rewrite Hm2, Hmax. apply (proj1 (Qmaxl_ge _ _)).
  - rewrite Hm2. apply (proj2 (Qmaxl_ge _ _)).
  - rewrite Hm2, Hmax. apply Qmaxl_in.
Qed.

(** Rejections. *)
Lemma sample_pending A (b : pbuf A) o u : wait_after b = true -> flag_wait b = true -> pb_sample b o u = Err AssertionError.
Proof. intros H1 H2. unfold pb_sample. rewrite H1, H2. reflexivity. Qed.
Lemma set_not_pending A (b : pbuf A) ps : wait_after b = true -> flag_wait b = false -> pb_set_last_priority b ps = Err AssertionError.
Proof. intros H1 H2. unfold pb_set_last_priority. rewrite H1, H2. reflexivity. Qed.

(** append without eviction *)
Lemma append_no_evict A (b : pbuf A) s x : pb_rel b s -> (0 < max_priority b)%Q ->
  match capacity b with Some c => length (data b) < c | None => True end ->
  exists b' s', pb_append b x None = Ok b' /\ pb_rel b' s' /\ data b' = data b ++ [x] /\
    priorities b' = priorities b ++ [max_priority b] /\ weights b' = weights b ++ [max_priority b] /\
    max_priority b' = max_priority b /\ flag_wait b' = flag_wait b /\ capacity b' = capacity b /\
    s_sampled s' = s_sampled s.
Proof.
  intros HR Hmp Hlt.
  pose proof HR as (Hc & Hd & Hs & Hm & Hx & Hw & Hf & Hsi & L1 & L2 & Hnn & Hcap).
  set (s' := mkSb (s_cap s) (s_vals s ++ [x]) (s_ws s ++ [s_max s]) (s_ps s ++ [s_max s]) (s_max s) (s_wait s) (s_flag s) (s_sampled s)).
  assert (Est : sb_step s (PAppend x None) = Some (s', PNone)).
  { cbn [sb_step]. replace (Qltb 0 (s_max s)) with true by (symmetry; apply Qltb_lt; rewrite <- Hx; auto). cbn [negb].
    rewrite Hc, Hd in Hlt. unfold s'. destruct (s_cap s) as [[|c]|]; [lia| |reflexivity].
    cbn [trunc]. rewrite !lastn_all by (rewrite app_length; cbn; lia). reflexivity. }
  destruct (pb_step_refines b s (PAppend x None) _ _ HR Est) as [Hout HR1]. cbn [pb_step] in Hout, HR1.
  destruct (pb_append b x None) as [b'|e]; [|cbn in Hout; discriminate]. cbn in HR1.
  exists b', s'. split; [reflexivity|]. split; [exact HR1|].
  rewrite (priorities_rel b' _ HR1), (weights_rel b' _ HR1), (priorities_rel b s HR), (weights_rel b s HR).
  destruct HR1 as (Hc1 & Hd1 & Hs1 & Hm1 & Hx1 & Hw1 & Hf1 & _). cbn in *.
  rewrite Hd1, Hd, Hx1, Hx, Hf1, Hf, Hc1, Hc. splits; auto.
Qed.

Lemma repeat_snoc {B} (x : B) n : repeat x n ++ [x] = x :: repeat x n.
Proof. induction n; cbn; congruence. Qed.

Lemma appends_no_evict A xs : forall (b : pbuf A) s, pb_rel b s -> (0 < max_priority b)%Q ->
  match capacity b with Some c => length (data b) + length xs <= c | None => True end ->
  exists b' s', pb_appends b xs = Ok b' /\ pb_rel b' s' /\ data b' = data b ++ xs /\
    priorities b' = priorities b ++ repeat (max_priority b) (length xs) /\
    weights b' = weights b ++ repeat (max_priority b) (length xs) /\
    max_priority b' = max_priority b /\ flag_wait b' = flag_wait b /\ s_sampled s' = s_sampled s.
Proof.
  induction xs as [|x xs IH]; intros b s HR Hmp Hcap; cbn [pb_appends].
  - exists b, s. cbn. rewrite !app_nil_r. splits; auto.
  - destruct (append_no_evict A b s x HR Hmp) as (b1 & s1 & E1 & HR1 & Hd1 & Hp1 & Hw1 & Hm1 & Hf1 & Hc1 & Hs1).
    { destruct (capacity b); auto. cbn in Hcap. lia. }
    rewrite E1. cbn [rbind].
    destruct (IH b1 s1 HR1) as (b2 & s2 & E2 & HR2 & Hd2 & Hp2 & Hw2 & Hm2 & Hf2 & Hs2).
    { now rewrite Hm1. }
    { rewrite Hc1, Hd1, app_length. cbn. destruct (capacity b); auto. cbn in Hcap. lia. }
    exists b2, s2. split; [exact E2|]. split; [exact HR2|]. rewrite Hd2, Hd1, Hp2, Hp1, Hw2, Hw1, Hm1, <- !app_assoc.
    splits; auto; congruence.
Qed.

Lemma assign_app l1 l2 ixs : forall ps, Forall (fun i => i < length l1) ixs -> assign (l1 ++ l2) ixs ps = assign l1 ixs ps ++ l2.
Proof.
  revert l1. induction ixs as [|i ixs IH]; intros l1 [|p ps] Hb; try reflexivity.
  inversion Hb; subst. rewrite !assign_cons, list_set_app_l by auto. apply IH.
  eapply Forall_impl; [|eassumption]. intros a Ha. cbn. now rewrite list_set_length.
Qed.

Lemma append_between_no_evict A (b : pbuf A) o u xs ps : reachable b -> oracle_ok (length (data b)) o -> enough b o u ->
  wait_after b && flag_wait b = false -> (wait_after b = true \/ (u <= 0)%Q) -> (0 < max_priority b)%Q ->
  match capacity b with Some c => length (data b) + length xs <= c | None => True end ->
  Forall (Qlt 0) ps -> length ps = (if Qltb 0 u then length (so_uniform o) else 0) + length (so_fracs o) ->
  exists b1 out b2 b3 ixs, pb_sample b o u = Ok (b1, out) /\ sampled_indices b1 = Some (map Z.of_nat ixs) /\
    pb_appends b1 xs = Ok b2 /\ pb_set_last_priority b2 ps = Ok b3 /\ data b3 = data b ++ xs /\
    updated_at (priorities b ++ repeat (max_priority b) (length xs)) (priorities b3) ixs ps /\
    updated_at (weights b ++ repeat (max_priority b) (length xs)) (weights b3) ixs ps.
Proof.
  intros Hreach Ho Hen Hwf Hor Hmp Hcap Hps Hlen.
  destruct (sample_ok A b o u Hreach Ho Hen Hwf)
    as (b1 & ys & probs & m & ixs & s1 & E & HR1 & Esam & Hfl & Hw1 & Hmax & Hd1 & Hp1 & Hc1 & Hwl & Hwo & Hl & Hb & Hf2 & Hnd).
  specialize (Hnd Hor).
  destruct (appends_no_evict A xs b1 s1 HR1) as (b2 & s2 & E2 & HR2 & Hd2 & Hp2 & Hw2 & Hm2 & Hf2' & Hs2).
  { now rewrite Hmax. } { now rewrite Hc1, Hd1. }
  destruct (set_last_ok A b2 s2 ixs ps HR2) as (b3 & E3 & Hd3 & Hp3 & Hw3 & Hm3 & _); auto; try congruence.
  { rewrite Hd2, Hd1, app_length. eapply Forall_impl; [|exact Hb]. cbn beta. intros; lia. }
  assert (HLp : length (priorities b) = length (data b)) by (rewrite <- Hp1, (priorities_length b1 s1 HR1); congruence).
  assert (HLw : length (weights b) = length (data b)) by (rewrite <- Hwl, (weights_length b1 s1 HR1); congruence).
  exists b1, (ys, probs, m), b2, b3, ixs. splits; auto.
  - destruct HR1 as (_ & _ & _ & _ & _ & _ & _ & Hsi & _). rewrite Hsi, Esam. reflexivity.
  - congruence.
  - rewrite Hp3, Hp2, Hp1, Hmax. apply assign_updated; auto; [|lia].
    rewrite app_length, HLp. eapply Forall_impl; [|exact Hb]. cbn beta. intros; lia.
  - rewrite Hw3, Hw2, Hmax. apply assign_updated; auto; [|lia|rewrite !app_length; lia|].
    + rewrite app_length, HLw. eapply Forall_impl; [|exact Hb]. cbn beta. intros; lia.
    + intros i Hi. destruct (lt_dec i (length (weights b))).
      * rewrite !nth_error_app1 by lia. auto.
      * rewrite !nth_error_app2 by lia. now rewrite Hwl.
Qed.

(** witness against C06: capacity 2, elements 10 (priority 1) and 11 (priority 1); sample draws position 0 (element 10);
    appending 12 evicts element 10; the new priority 5 goes to element 11. *)
Definition w6_ops : list (pb_op nat) := [PAppend 10 None; PAppend 11 None].
Definition w6_b : pbuf nat := fst (run pb_step (pb_init (Some 2) true 1%Q) w6_ops).

Lemma append_between_refuted : ~ append_between_claim.
Proof.
  intros H.
  assert (Hr : reachable w6_b).
  { exists (Some 2), true, 1%Q, w6_ops. eexists _, _. split; [vm_compute; reflexivity|reflexivity]. }
  pose (o := mkSo [] [0%Q]).
  destruct (pb_sample w6_b o 0%Q) as [[b1 out]|] eqn:E1; [|vm_compute in E1; discriminate].
  destruct (pb_appends b1 [12]) as [b2|] eqn:E2; [|vm_compute in E1; injection E1 as <- _; vm_compute in E2; discriminate].
  destruct (pb_set_last_priority b2 [5%Q]) as [b3|] eqn:E3;
    [|vm_compute in E1; injection E1 as <- _; vm_compute in E2; injection E2 as <-; vm_compute in E3; discriminate].
  specialize (H nat w6_b b1 b2 b3 o 0%Q out [12] [0] [5%Q] Hr E1).
  assert (Es : sampled_indices b1 = Some (map Z.of_nat [0])) by (vm_compute in E1; injection E1 as <- _; reflexivity).
  specialize (H Es E2 E3). cbn zeta in H. destruct H as (full & (Hlen & _ & Hoth) & Hp).
  assert (Ep : priorities b3 = [5%Q; 1%Q]).
  { vm_compute in E1; injection E1 as <- _; vm_compute in E2; injection E2 as <-; vm_compute in E3; injection E3 as <-.
    vm_compute. reflexivity. }
  assert (Ek : length (data w6_b) + length [12] - length (data b2) = 1).
  { vm_compute in E1; injection E1 as <- _; vm_compute in E2; injection E2 as <-. reflexivity. }
  rewrite Ek in Hp. rewrite Ep in Hp.
  assert (E5 : nth_error full 1 = Some 5%Q).
  { change 1 with (1 + 0) at 1. rewrite <- nth_error_skipn', <- Hp. reflexivity. }
  rewrite Hoth in E5 by (cbn; intuition discriminate). vm_compute in E5. discriminate.
Qed.

(** Mixed sampling with priorities kept can return the same element twice. *)
Lemma mixed_duplicates : exists (b : pbuf nat) o, reachable b /\ oracle_ok (length (data b)) o /\ enough b o (1 # 2)%Q /\
  exists b1 probs m, pb_sample b o (1 # 2)%Q = Ok (b1, ([10; 10], probs, m)) /\ sampled_indices b1 = Some [0%Z; 0%Z].
Proof.
  exists (fst (run pb_step (pb_init None false 1%Q) w6_ops)), (mkSo [0%Z] [0%Q]).
  split; [exists None, false, 1%Q, w6_ops; eexists _, _; split; [vm_compute; reflexivity|reflexivity]|].
  split.
  { repeat split; cbn; repeat constructor; cbn; try lia; try lra; auto. }
  split; [vm_compute; lia|].
  eexists _, _, _. split; vm_compute; reflexivity.
Qed.

Lemma sample_distinct A (b : pbuf A) o u : reachable b -> oracle_ok (length (data b)) o -> enough b o u ->
  wait_after b && flag_wait b = false -> (wait_after b = true \/ (u <= 0)%Q) ->
  exists b1 xs probs m ixs, pb_sample b o u = Ok (b1, (xs, probs, m)) /\
    length ixs = (if Qltb 0 u then length (so_uniform o) else 0) + length (so_fracs o) /\
    NoDup ixs /\ Forall2 (fun i x => nth_error (data b) i = Some x) ixs xs.
Proof.
  intros Hreach Ho Hen Hwf Hor.
  destruct (sample_ok A b o u Hreach Ho Hen Hwf)
    as (b1 & ys & probs & m & ixs & s1 & E & HR1 & Esam & Hfl & Hw1 & Hmax & Hd1 & Hp1 & Hc1 & Hwl & Hwo & Hl & Hb & Hf2 & Hnd).
  exists b1, ys, probs, m, ixs. splits; auto.
Qed.

Lemma trunc_snoc {B} c (l : list B) x : c <> Some 0 -> exists l', trunc c (l ++ [x]) = l' ++ [x].
Proof.
  destruct c as [[|c]|]; intros H; [congruence| |exists l; reflexivity].
  cbn [trunc]. rewrite lastn_app, (lastn_all _ [x]) by (cbn; lia). eauto.
Qed.

Lemma new_element_priority A (b : pbuf A) x b' : reachable b -> (0 < max_priority b)%Q ->
  pb_append b x None = Ok b' -> exists l, priorities b' = l ++ [max_priority b] /\ max_priority b' = max_priority b.
Proof.
  intros Hreach Hmp E. destruct (reachable_rel b Hreach) as (s & HR).
  pose proof HR as (Hc & Hd & Hs & Hm & Hx & Hw & Hf & Hsi & L1 & L2 & Hnn & Hcap).
  assert (Hst : sb_step s (PAppend x None) =
    match s_cap s with
    | Some 0 => Some (s, PExn AssertionError)
    | _ => Some (mkSb (s_cap s) (trunc (s_cap s) (s_vals s ++ [x])) (trunc (s_cap s) (s_ws s ++ [s_max s]))
                         (trunc (s_cap s) (s_ps s ++ [s_max s])) (s_max s) (s_wait s) (s_flag s) (s_sampled s), PNone)
    end).
  { cbn [sb_step]. replace (Qltb 0 (s_max s)) with true by (symmetry; apply Qltb_lt; rewrite <- Hx; auto). reflexivity. }
  assert (Hn0 : s_cap s <> Some 0).
  { intros C. rewrite C in Hst. destruct (pb_step_refines b s (PAppend x None) _ _ HR Hst) as [Hout _].
    cbn [pb_step] in Hout. rewrite E in Hout. discriminate. }
  assert (Hst2 : sb_step s (PAppend x None) = Some (mkSb (s_cap s) (trunc (s_cap s) (s_vals s ++ [x])) (trunc (s_cap s) (s_ws s ++ [s_max s]))
                         (trunc (s_cap s) (s_ps s ++ [s_max s])) (s_max s) (s_wait s) (s_flag s) (s_sampled s), PNone)).
  { rewrite Hst. destruct (s_cap s) as [[|]|]; congruence. }
  destruct (pb_step_refines b s (PAppend x None) _ _ HR Hst2) as [_ HR1]. cbn [pb_step] in HR1. rewrite E in HR1. cbn in HR1.
  destruct (trunc_snoc (s_cap s) (s_ps s) (s_max s) Hn0) as (l & El).
  exists l. rewrite (priorities_rel b' _ HR1). cbn. rewrite El, Hx. split; [reflexivity|].
  destruct HR1 as (_ & _ & _ & _ & Hx1 & _). exact Hx1.
Qed.
