(** Invariants of the actor-learner loops. *)
From Verif Require Import Base P_Base M_Prioritized S_Prioritized P_PriorityTree P_Prioritized P_PrioritizedProps M_ActorLearner S_ActorLearner.
From Coq Require Import ZifyBool ZifyNat Lqa.
Open Scope nat_scope.

Lemma f2_length {X Y} (R : X -> Y -> Prop) l l' : Forall2 R l l' -> length l = length l'.
Proof. induction 1; cbn; congruence. Qed.

(** *** Sampling whatever the weights are *)
Lemma find_range d : forall fuel il ir n pos i, (ir = il + 2 ^ Z.of_nat d)%Z -> find fuel il ir n pos = Ok i -> (il <= i < ir)%Z.
Proof.
  induction d as [|d IH]; intros fuel il ir n pos i Hir E.
  - assert (E1 : (ir - il =? 1)%Z = true) by (rewrite (size_one 0) by assumption; reflexivity).
    destruct fuel; cbn [find] in E; rewrite E1 in E; injection E as <-; cbn in Hir; lia.
  - assert (E1 : (ir - il =? 1)%Z = false) by (rewrite (size_one (S d)) by assumption; reflexivity).
    destruct fuel; cbn [find] in E; rewrite E1 in E; [discriminate|]. destruct n as [|v|l r v]; try discriminate.
    rewrite (center_S d) in E by assumption. rewrite Nat2Z.inj_succ, Z.pow_succ_r in Hir by lia.
    pose proof (Z.pow_pos_nonneg 2 (Z.of_nat d) ltac:(lia) ltac:(lia)).
    destruct (Qltb pos _); apply IH in E; lia.
Qed.

Lemma layout_in (ws : list Q) il ir k v : (il <= 0)%Z -> nth k (layout ws il ir) None = Some v -> Z.to_nat (- il) <= k < Z.to_nat (- il) + length ws.
Proof.
  intros Hil H. unfold layout in H. destruct (Nat.lt_ge_cases k (Z.to_nat (- il))) as [L|L].
  - rewrite app_nth1 in H by (rewrite repeat_length; lia). rewrite nth_repeat in H. discriminate.
  - split; [exact L|]. destruct (Nat.lt_ge_cases k (Z.to_nat (- il) + length ws)) as [G|G]; [exact G|].
    rewrite app_nth2 in H by (rewrite repeat_length; lia). rewrite repeat_length in H.
    rewrite app_nth2 in H by (rewrite map_length; lia). rewrite nth_repeat in H. discriminate.
Qed.

Lemma draw_loop_any fs : forall q ws q' is vs, tq_rep op_sum q ws -> draw_loop q fs = Ok (q', is, vs) ->
  exists ixs, is = map Z.of_nat ixs /\ Forall (fun i => i < length ws) ixs /\ length ixs = length fs /\ tq_rep op_sum q' (zero_at ws ixs).
Proof.
  induction fs as [|f fs IH]; intros q ws q' is vs Hr E; cbn [draw_loop] in E.
  - injection E as <- <- <-. exists []. repeat split; auto; apply Hr.
  - destruct (tree q) as [[[root il] ir]|] eqn:Et; [|discriminate]. destruct (nval root) as [tot|]; [|discriminate].
    apply rbind_ok in E. destruct E as (ix & Ef & E). apply rbind_ok in E. destruct E as ([q1 ret] & Ew & E).
    destruct ret as [v|]; [|discriminate]. apply rbind_ok in E. destruct E as ([[q2 is2] vs2] & El & E). injection E as <- <- <-.
    pose proof Hr as (Hlen & Ht). rewrite Et in Ht. destruct Ht as (d & Hir & Hil & Hn & Hwf & Hs).
    pose proof (find_range d _ _ _ _ _ _ Hir Ef) as Hix.
    assert (Hin : (0 <= ix < Z.of_nat (length ws))%Z).
    { unfold tq_write in Ew. rewrite Et in Ew.
      destruct (write_spec op_sum d (fuel_of il ir) il ir root ix (Some 0%Q) Hir (fuel_of_ge d il ir Hir) Hwf Hix) as (root' & Ew' & _).
      rewrite Ew' in Ew. cbn [rbind] in Ew. injection Ew as _ Ev. rewrite Hs in Ev. apply layout_in in Ev; lia. }
    destruct (tq_write_some op_sum q ws (Z.to_nat ix) 0%Q Hr ltac:(lia)) as (q1' & Ew' & Hr1). rewrite Z2Nat.id in Ew' by lia.
    rewrite Ew in Ew'. injection Ew' as <- _.
    destruct (IH q1 _ q2 is2 vs2 Hr1 El) as (ixs & -> & Hb & Hl & Hr2). exists (Z.to_nat ix :: ixs).
    split; [cbn; f_equal; lia|]. split; [constructor; [lia|]; rewrite list_set_length in Hb; exact Hb|]. split; [cbn; lia|exact Hr2].
Qed.

Lemma at_ixs_all {A} (l : list A) ixs : Forall (fun i => i < length l) ixs -> Forall2 (fun i x => nth_error l i = Some x) ixs (at_ixs l ixs).
Proof.
  induction 1 as [|i ixs Hi H IH]; [constructor|]. destruct (nth_error l i) as [v|] eqn:E; [|apply nth_error_None in E; lia].
  rewrite (at_ixs_cons l i v ixs E). constructor; assumption.
Qed.

(** What a successful sample of the learner does, whatever weights are left. *)
Lemma sample_any {A} (b b' : pbuf A) s n o xs : pb_rel b s -> s_wait s = true -> buffer_sample b n o = Ok (b', xs) ->
  s_flag s = false /\ n <= length (data b) /\ exists ixs, Forall (fun i => i < length (s_vals s)) ixs /\
    Forall2 (fun i x => nth_error (data b) i = Some x) ixs xs /\ data b' = data b /\ length ixs <= n /\
    pb_rel b' (mkSb (s_cap s) (s_vals s) (zero_at (s_ws s) ixs) (s_ps s) (s_max s) true true (Some ixs)).
Proof.
  intros HR Hwt E. pose proof HR as (Hc & Hd & Hs & Hm & Hx & Hw & Hf & Hsi & L1 & L2 & Hnn & Hcap).
  unfold buffer_sample in E. destruct (n <=? length (data b)) eqn:En; [|discriminate]. cbn [passert rbind] in E.
  apply rbind_ok in E. destruct E as ([b1 [[xs1 pr] mp]] & E & E'). injection E' as <- <-.
  unfold pb_sample in E. cbn [so_uniform so_fracs] in E. rewrite Hw, Hf, Hwt in E. cbn [negb orb] in E.
  destruct (s_flag s); [discriminate|]. split; [reflexivity|]. split; [lia|]. cbn [negb passert rbind] in E.
  apply rbind_ok in E. destruct E as (tot & _ & E). apply rbind_ok in E. destruct E as ([mn|] & _ & E); [|discriminate].
  destruct (Qeq_bool tot 0); [discriminate|]. cbn [rbind] in E. replace (Qltb 0 0) with false in E by reflexivity. cbn [rbind] in E.
  apply rbind_ok in E. destruct E as ([[s2 prix] pp] & Ep & E). apply rbind_ok in E. destruct E as (sm & Ed & E). injection E as <- <- _ _.
  unfold prioritized_sample in Ep. apply rbind_ok in Ep. destruct Ep as ([[q1 is] vs] & El & Ep). cbn [rbind] in Ep. injection Ep as <- <- <-.
  destruct (draw_loop_any _ _ _ _ _ _ Hs El) as (ixs & -> & Hb & Hlen & Hr). rewrite L1 in Hb. exists ixs. split; [exact Hb|].
  cbn [app] in Ed. rewrite data_at_spec in Ed by (rewrite Hd; exact Hb). injection Ed as <-.
  split; [apply at_ixs_all; rewrite Hd; exact Hb|]. split; [reflexivity|]. split; [rewrite Hlen, firstn_length; lia|].
  unfold pb_rel; cbn. rewrite zero_at_length. splits; auto. apply zero_at_nonneg; auto.
Qed.

(** *** Appending *)
Definition appended {A} (s : sbuf A) (x : A) : sbuf A :=
  mkSb (s_cap s) (trunc (s_cap s) (s_vals s ++ [x])) (trunc (s_cap s) (s_ws s ++ [s_max s])) (trunc (s_cap s) (s_ps s ++ [s_max s]))
    (s_max s) (s_wait s) (s_flag s) (s_sampled s).
Lemma append_rel {A} (b : pbuf A) s x : pb_rel b s -> (0 < s_max s)%Q -> s_cap s <> Some 0 ->
  exists b', pb_append b x None = Ok b' /\ pb_rel b' (appended s x).
Proof.
  intros HR Hm Hc. destruct (pb_step_refines b s (PAppend x None) (appended s x) PNone HR) as [Ho HR'].
  - unfold appended. cbn [sb_step]. replace (Qltb 0 (s_max s)) with true by (symmetry; now apply Qltb_lt). cbn [negb]. destruct (s_cap s) as [[|c]|]; congruence || reflexivity.
  - cbn [pb_step] in *. destruct (pb_append b x None) as [b'|e]; [|discriminate]. exists b'. auto.
Qed.

(** *** The invariant of every schedule *)
Definition phase_ok {A} (s : sbuf A) (ph : phase A) : Prop :=
  match ph with
  | LSampled xs => s_flag s = true /\ exists ixs, s_sampled s = Some ixs /\ length ixs = length xs /\ Forall (fun i => i < length (s_vals s)) ixs
  | LWriting todo => s_flag s = true /\ Forall (fun ixp => exists j, fst (fst ixp) = Z.of_nat j /\ j < length (s_vals s) /\ (0 < snd ixp)%Q) todo
  | LFailed _ => True
  | _ => s_flag s = false
  end.
Definition al_rel {A} cap (st : al_state A) (s : sbuf A) : Prop :=
  pb_rel (buf st) s /\ s_cap s = cap /\ s_wait s = true /\ (0 < s_max s)%Q /\ poller_failed st = false /\ phase_ok s (lphase st).

Lemma trunc_len {B} cap (l : list B) x : match cap with Some c => length l <= c | None => True end -> cap <> Some 0 ->
  length (trunc cap (l ++ [x])) = match cap with Some c => Nat.min c (S (length l)) | None => S (length l) end.
Proof.
  intros H Hc. destruct cap as [c|]; cbn [trunc]; [|rewrite app_length; cbn; lia]. rewrite lastn_length, app_length. cbn. lia.
Qed.

Lemma phase_ok_grow {A} (s s' : sbuf A) ph : length (s_vals s) <= length (s_vals s') -> s_flag s' = s_flag s -> s_sampled s' = s_sampled s -> phase_ok s ph -> phase_ok s' ph.
Proof.
  intros L F S. destruct ph; cbn; rewrite ?F, ?S; auto.
  - intros (H & ixs & E & El & Hb). split; [exact H|]. exists ixs. repeat split; auto. eapply Forall_impl; [|exact Hb]. cbn. lia.
  - intros (H & Hb). split; [exact H|]. eapply Forall_impl; [|exact Hb]. cbn. intros a (j & E & Hj & Hp). exists j. repeat split; auto. lia.
Qed.

Lemma poll_inv {A} cap (st : al_state A) s x : cap <> Some 0 -> al_rel cap st s -> exists b, pb_append (buf st) x None = Ok b /\ al_rel cap (al_step (mkCfg 0 0 0 0 0 None) st (Poll x)) (appended s x).
Proof.
  intros Hc (HR & Ec & Hw & Hm & Hp & Hph). destruct (append_rel (buf st) s x HR Hm ltac:(congruence)) as (b & E & HR'). exists b. split; [exact E|].
  cbn [al_step]. unfold poll_step. rewrite Hp, E. split; [exact HR'|]. cbn. repeat split; auto.
  eapply phase_ok_grow; [| | |exact Hph]; try reflexivity. unfold appended. cbn [s_vals].
  assert (C := HR). destruct C as (_ & _ & _ & _ & _ & _ & _ & _ & _ & _ & _ & Hcap). rewrite (trunc_len (s_cap s) (s_vals s) x Hcap) by congruence.
  destruct (s_cap s); lia.
Qed.
Lemma step_poll {A} c c' (st : al_state A) x : al_step c st (Poll x) = al_step c' st (Poll x).
Proof. reflexivity. Qed.

Lemma zip_ok {A} ixs (xs : list A) ps n : Forall (fun i => i < n) ixs -> forallb (fun p => Qltb 0 p) ps = true ->
  Forall (fun ixp : Z * A * Q => exists j, fst (fst ixp) = Z.of_nat j /\ j < n /\ (0 < snd ixp)%Q) (combine (combine (map Z.of_nat ixs) xs) ps).
Proof.
  revert xs ps. induction ixs as [|i ixs IH]; intros [|x xs] [|p ps] H F; cbn; try constructor.
  - cbn. inversion H; subst. cbn in F. apply andb_true_iff in F. destruct F as [F1 F2]. exists i. split; [reflexivity|]. split; [assumption|]. now apply Qltb_lt.
  - inversion H; subst. cbn in F. apply andb_true_iff in F. apply IH; tauto.
Qed.

(** One write: both trees, at that index, nothing else. *)
Definition written {A} (s : sbuf A) j p : sbuf A :=
  mkSb (s_cap s) (s_vals s) (list_set (s_ws s) j p) (list_set (s_ps s) j p) (if Qltb (s_max s) p then p else s_max s) (s_wait s) (s_flag s) (s_sampled s).
Lemma write_rel {A} cap (st : al_state A) s i x p rest c : al_rel cap st s -> lphase st = LWriting ((i, x, p) :: rest) ->
  exists j, i = Z.of_nat j /\ j < length (s_vals s) /\ (0 < p)%Q /\ lphase (al_step c st Write) = LWriting rest /\ al_rel cap (al_step c st Write) (written s j p).
Proof.
  intros (HR & Ec & Hw & Hm & Hp & Hph) E. rewrite E in Hph. cbn in Hph. destruct Hph as (Hfl & Hf). inversion Hf as [|? ? (j & Ei & Hj & Hpp) Hf']; subst. cbn in Ei, Hpp. subst i.
  exists j. split; [reflexivity|]. split; [exact Hj|]. split; [exact Hpp|]. cbn [al_step]. rewrite E. cbn [write_step].
  pose proof HR as (Hc & Hd & Hs & Hmn & Hx & Hwt & Hfw & Hsi & L1 & L2 & Hnn & Hcap).
  destruct (proj1 (tq_set_spec op_sum (sums (buf st)) (s_ws s) (Z.of_nat j) p Hs) j ltac:(lia) ltac:(lia)) as (s1 & E1 & H1).
  destruct (proj1 (tq_set_spec op_min (mins (buf st)) (s_ps s) (Z.of_nat j) p Hmn) j ltac:(lia) ltac:(lia)) as (m1 & E2 & H2).
  rewrite E1. cbn [rbind]. rewrite E2. cbn [rbind]. split; [reflexivity|]. split.
  - unfold pb_rel; cbn. rewrite !list_set_length, Hx. splits; auto. apply list_set_nonneg; [lra|auto].
  - cbn. repeat split; auto. destruct (Qltb (s_max s) p); auto.
Qed.

Lemma al_rel_step {A} cap c (st : al_state A) s e : cap <> Some 0 -> al_rel cap st s -> exists s', al_rel cap (al_step c st e) s'.
Proof.
  intros Hc H. pose proof H as (HR & Ec & Hw & Hm & Hp & Hph).
  assert (keep : forall ph, phase_ok s ph -> al_rel cap (with_phase st ph) s) by (intros ph Hok; repeat split; auto; apply HR).
  destruct e as [x|o|ps| |].
  - destruct (poll_inv cap st s x Hc H) as (b & _ & H'). exists (appended s x). exact H'.
  - cbn [al_step]. destruct (lphase st) eqn:Eph; try (exists s; exact H). unfold learn_top.
    destruct (length (data (buf st)) <? replay_start_size c); [exists s; exact H|].
    assert (G : exists s', al_rel cap (match buffer_sample (buf st) (minibatch_size c) o with Ok (b, xs) => with_phase (with_buf st b) (LSampled xs) | Err e => with_phase st (LFailed e) end) s').
    { destruct (buffer_sample (buf st) (minibatch_size c) o) as [[b xs]|e] eqn:Es; [|exists s; apply keep; exact I].
      destruct (sample_any _ _ _ _ _ _ HR Hw Es) as (_ & _ & ixs & Hb & F2 & _ & _ & HR'). eexists. split; [exact HR'|]. cbn. repeat split; auto. exists ixs. repeat split; auto. now apply f2_length in F2. }
    destruct (n_updates c) as [n|]; [|exact G]. destruct (n <? optim_t st); [exists s; apply keep; exact I|]. destruct (optim_t st =? n); [|exact G]. exists s. apply keep. exact Hph.
  - cbn [al_step]. destruct (lphase st) as [|xs| | | |] eqn:Eph; try (exists s; exact H). exists s. unfold enter_update.
    destruct (negb (wait_after (buf st)) || flag_wait (buf st)); cbn [passert rbind]; [|apply keep; exact I].
    destruct (forallb (fun p => Qltb 0 p) ps) eqn:Ep; cbn [passert rbind]; [|apply keep; exact I].
    cbn in Hph. destruct Hph as (Hfl & ixs & Esm & El & Hb). assert (Hsi : sampled_indices (buf st) = Some (map Z.of_nat ixs)) by (destruct HR as (_ & _ & _ & _ & _ & _ & _ & Hsi & _); rewrite Hsi, Esm; reflexivity).
    rewrite Hsi. destruct (length (map Z.of_nat ixs) =? length ps); cbn [passert rbind]; [|apply keep; exact I]. apply keep. split; [exact Hfl|]. apply zip_ok; auto.
  - cbn [al_step]. destruct (lphase st) as [| |todo| | |] eqn:Eph; try (exists s; exact H). destruct todo as [|[[i x] p] rest].
    + cbn [write_step]. exists (mkSb (s_cap s) (s_vals s) (s_ws s) (s_ps s) (s_max s) (s_wait s) false (Some [])). split; [|repeat split; auto].
      destruct HR as (H1 & H2 & H3 & H4 & H5 & H6 & H7 & H8 & H9 & H10 & H11 & H12). unfold pb_rel; cbn. splits; auto.
    + destruct (write_rel cap st s i x p rest c H Eph) as (j & _ & _ & _ & _ & H'). eexists. cbn [al_step] in H'. rewrite Eph in H'. exact H'.
  - cbn [al_step]. destruct (lphase st) eqn:Eph; try (exists s; exact H). exists s. split; [exact HR|]. repeat split; auto.
Qed.

Lemma al_run_app {A} c (st : al_state A) es es' : al_run c st (es ++ es') = al_run c (al_run c st es) es'.
Proof. apply fold_left_app. Qed.
Lemma polled_app {A} (es es' : list (event A)) : polled (es ++ es') = polled es ++ polled es'.
Proof. apply flat_map_app. Qed.

Lemma al_run_rel {A} cap c es : cap <> Some 0 -> exists s, al_rel cap (al_run c (@al_init A cap) es) s.
Proof.
  intros Hc. induction es as [|e es IH] using rev_ind.
  - exists (sb_init cap true 1%Q). split; [apply pb_init_rel|]. cbn. repeat split.
  - destruct IH as (s & IH). rewrite al_run_app. cbn. eapply al_rel_step; eauto.
Qed.

(** *** From one sampling to the end of that iteration *)
(** Facts about the iteration that sampled from the stored transitions [d0], after [more] has been polled. *)
Definition located {A} (d0 : list A) (st : al_state A) : Prop :=
  match lphase st with
  | LSampled xs => exists ixs, sampled_indices (buf st) = Some (map Z.of_nat ixs) /\ Forall2 (fun i x => nth_error d0 i = Some x) ixs xs
  | LWriting todo => Forall (fun ixp => exists j, fst (fst ixp) = Z.of_nat j /\ nth_error d0 j = Some (snd (fst ixp))) todo
  | LTop => False
  | _ => True
  end.
Definition kept {A} cap (d0 more : list A) : list A := skipn (dropped cap (length d0) (length more)) (d0 ++ more).

Lemma located_zip {A} (d0 : list A) ixs xs ps : Forall2 (fun i x => nth_error d0 i = Some x) ixs xs ->
  Forall (fun ixp : Z * A * Q => exists j, fst (fst ixp) = Z.of_nat j /\ nth_error d0 j = Some (snd (fst ixp))) (combine (combine (map Z.of_nat ixs) xs) ps).
Proof.
  intros H. revert ps. induction H as [|i x ixs xs Hi H IH]; intros [|p ps]; cbn; constructor; auto. exists i. auto.
Qed.

Lemma kept_snoc {A} cap (d0 more : list A) x : match cap with Some c => length d0 <= c | None => True end -> cap <> Some 0 ->
  trunc cap (kept cap d0 more ++ [x]) = kept cap d0 (more ++ [x]).
Proof.
  intros H Hc. unfold kept, dropped. destruct cap as [c|]; cbn [trunc].
  - rewrite app_length. cbn [length]. rewrite app_assoc. unfold lastn. rewrite app_length, skipn_length, app_length. cbn [length].
    assert (E : skipn (length d0 + length more - c) (d0 ++ more) ++ [x] = skipn (length d0 + length more - c) ((d0 ++ more) ++ [x])).
    { rewrite (skipn_app _ (d0 ++ more)). f_equal. rewrite app_length. replace (length d0 + length more - c - (length d0 + length more)) with 0 by lia. reflexivity. }
    rewrite E, skipn_skipn'. f_equal. lia.
  - cbn. now rewrite app_assoc.
Qed.

Lemma optim_mono {A} c (st : al_state A) e : optim_t st <= optim_t (al_step c st e).
Proof.
  destruct e as [x|o|ps| |]; cbn [al_step].
  - unfold poll_step. destruct (poller_failed st); [lia|]. destruct (pb_append _ _ _); cbn; lia.
  - destruct (lphase st); try lia. unfold learn_top. destruct (_ <? _); [lia|]. destruct (n_updates c) as [n|]; [destruct (n <? _); [cbn; lia|]; destruct (_ =? n); [cbn; lia|]|]; destruct (buffer_sample _ _ _) as [[? ?]|?]; cbn; lia.
  - destruct (lphase st); try lia. unfold enter_update. destruct (rbind _ _); cbn; lia.
  - destruct (lphase st) as [| |todo| | |]; try lia. unfold write_step. destruct todo as [|[[i x] p] rest]; [cbn; lia|]. destruct (rbind _ _); cbn; lia.
  - destruct (lphase st); cbn; lia.
Qed.
Lemma optim_mono_run {A} c es : forall st : al_state A, optim_t st <= optim_t (al_run c st es).
Proof. induction es as [|e es IH]; intros st; cbn; [lia|]. specialize (IH (al_step c st e)). pose proof (optim_mono c st e). unfold al_run in IH. lia. Qed.

Lemma iteration {A} cap c (st0 st1 : al_state A) s0 o es2 : cap <> Some 0 -> al_rel cap st0 s0 -> lphase st0 = LTop -> st1 = al_step c st0 (Learn o) -> lphase st1 <> LTop ->
  optim_t (al_run c st1 es2) = optim_t st0 ->
  (exists s, al_rel cap (al_run c st1 es2) s) /\ data (buf (al_run c st1 es2)) = kept cap (data (buf st0)) (polled es2) /\ located (data (buf st0)) (al_run c st1 es2).
Proof.
  intros Hc H0 E0 -> N. assert (C0 : match cap with Some c => length (data (buf st0)) <= c | None => True end).
  { destruct H0 as ((_ & Hd & _ & _ & _ & _ & _ & _ & _ & _ & _ & Hcap) & Ec & _). rewrite Hd. rewrite Ec in Hcap. exact Hcap. }
  induction es2 as [|e es2 IH] using rev_ind; intros OT.
  - cbn [al_run fold_left]. split; [eapply al_rel_step; eauto|]. cbn [al_run fold_left] in *. unfold kept, dropped. cbn [polled flat_map length]. rewrite app_nil_r.
    replace (skipn _ (data (buf st0))) with (data (buf st0)) by (destruct cap; cbn; [replace (length _ + 0 - n) with 0 by lia|]; reflexivity).
    revert N. cbn [al_step] in *. rewrite E0. unfold learn_top. destruct (_ <? _); [congruence|]. intros _.
    assert (G : forall r, r = match buffer_sample (buf st0) (minibatch_size c) o with Ok (b, xs) => with_phase (with_buf st0 b) (LSampled xs) | Err e => with_phase st0 (LFailed e) end -> data (buf r) = data (buf st0) /\ located (data (buf st0)) r).
    { intros r ->. destruct (buffer_sample _ _ _) as [[b xs]|e] eqn:Es; [|split; [reflexivity|exact I]]. destruct H0 as (HR & _ & Hw & _). destruct (sample_any _ _ _ _ _ _ HR Hw Es) as (_ & _ & ixs & _ & F2 & Hd & _ & HR'). split; [exact Hd|].
      cbn. exists ixs. split; [|exact F2]. destruct HR' as (_ & _ & _ & _ & _ & _ & _ & Hsi & _). exact Hsi. }
    destruct (n_updates c) as [n|]; [|apply G; reflexivity]. destruct (n <? _); [split; [reflexivity|exact I]|]. destruct (_ =? n); [split; [reflexivity|exact I]|]. apply G. reflexivity.
  - rewrite al_run_app in *. set (st := al_run c (al_step c st0 (Learn o)) es2) in *. cbn [al_run fold_left] in *.
    assert (OT' : optim_t st = optim_t st0).
    { pose proof (optim_mono c st e). assert (optim_t st0 <= optim_t st); [|lia]. pose proof (optim_mono c st0 (Learn o)). pose proof (optim_mono_run c es2 (al_step c st0 (Learn o))). fold st in H2. lia. }
    destruct (IH OT') as ((s & R) & D & L). split; [eapply al_rel_step; eauto|].
    rewrite polled_app. destruct e as [x|o'|ps| |].
    + destruct (poll_inv cap st s x Hc R) as (b & Eb & (HR' & _)). cbn [polled flat_map app]. split.
      * destruct HR' as (_ & Hd & _). rewrite (step_poll c (mkCfg 0 0 0 0 0 None)). rewrite Hd. unfold appended. cbn [s_vals]. destruct R as ((_ & Hd0 & _) & Ec & _). rewrite <- Hd0, Ec, D. apply kept_snoc; auto.
      * cbn [al_step]. unfold poll_step. destruct R as (_ & _ & _ & _ & -> & _). rewrite Eb. unfold located in *. cbn. destruct (lphase st); auto.
        destruct L as (ixs & Hs & F2). exists ixs. split; [|exact F2]. revert Hs. clear - Eb. intros Hs.
        unfold pb_append in Eb. apply rbind_ok in Eb. destruct Eb as (b1 & E1 & Eb). apply rbind_ok in Eb. destruct Eb as (? & _ & Eb). apply rbind_ok in Eb. destruct Eb as (? & _ & Eb). injection Eb as <-. cbn.
        destruct (capacity (buf st)) as [n|]; [|injection E1 as <-; exact Hs]. destruct (_ =? n); [|injection E1 as <-; exact Hs]. apply rbind_ok in E1. destruct E1 as ([b2 y] & E1 & E2). injection E2 as <-.
        unfold pb_popleft in E1. destruct (data (buf st)); [discriminate|]. apply rbind_ok in E1. destruct E1 as ([? ?] & _ & E1). apply rbind_ok in E1. destruct E1 as ([? ?] & _ & E1). injection E1 as <- _. exact Hs.
    + cbn [polled flat_map]. rewrite app_nil_r. cbn [al_step]. destruct (lphase st) eqn:Eph; unfold located in L |- *; try (rewrite Eph in *; split; [exact D|exact L]). rewrite Eph in L. contradiction.
    + cbn [polled flat_map]. rewrite app_nil_r. cbn [al_step]. unfold located in L |- *. destruct (lphase st) as [|xs| | | |] eqn:Eph; try (rewrite ?Eph; split; [exact D|exact L]).
      destruct L as (ixs & Hs & F2). unfold enter_update. destruct (negb _ || _); cbn [passert rbind]; [|split; [exact D|exact I]]. destruct (forallb _ _); cbn [passert rbind]; [|split; [exact D|exact I]].
      rewrite Hs. destruct (_ =? _); cbn [passert rbind]; [|split; [exact D|exact I]]. split; [exact D|]. cbn. apply located_zip. exact F2.
    + cbn [polled flat_map]. rewrite app_nil_r. cbn [al_step]. unfold located in L |- *. destruct (lphase st) as [| |todo| | |] eqn:Eph; try (rewrite ?Eph; split; [exact D|exact L]).
      destruct todo as [|[[i x] p] rest]; [split; [exact D|exact I]|]. cbn [write_step]. destruct (rbind (tq_set op_sum _ _ _) _) as [b'|e'] eqn:Eb; [|split; [exact D|exact I]].
      apply rbind_ok in Eb. destruct Eb as ([? ?] & _ & Eb). apply rbind_ok in Eb. destruct Eb as ([? ?] & _ & Eb). injection Eb as <-. split; [exact D|]. cbn. inversion L; assumption.
    + cbn [polled flat_map]. rewrite app_nil_r. cbn [al_step] in *. unfold located in L |- *. destruct (lphase st) eqn:Eph; try (rewrite ?Eph; split; [exact D|exact L]). exfalso. cbn in OT. lia.
Qed.

(** Every iteration in progress began with a sampling. *)
Definition in_iteration {A} (ph : phase A) : Prop := match ph with LSampled _ | LWriting _ | LUpdated => True | _ => False end.
Lemma iteration_began {A} c (es : list (event A)) st : in_iteration (lphase (al_run c st es)) -> ~ in_iteration (lphase st) ->
  exists es1 o es2, es = es1 ++ Learn o :: es2 /\ lphase (al_run c st es1) = LTop /\ lphase (al_run c st (es1 ++ [Learn o])) <> LTop /\
    optim_t (al_run c st es) = optim_t (al_run c st es1).
Proof.
  intros H N. induction es as [|e es IH] using rev_ind; [contradiction|].
  rewrite al_run_app in H. cbn [al_run fold_left] in H. fold (al_run c st es) in H.
  assert (D : in_iteration (lphase (al_run c st es)) /\ optim_t (al_step c (al_run c st es) e) = optim_t (al_run c st es) \/
              lphase (al_run c st es) = LTop /\ exists o, e = Learn o).
  { clear IH N. revert H. generalize (al_run c st es). clear st. intros st H. destruct e as [x|o|ps| |]; cbn [al_step] in *.
    - left. revert H. unfold poll_step. destruct (poller_failed st); [auto|]. destruct (pb_append _ _ _); auto.
    - destruct (lphase st) eqn:E; [right; eauto| | | | |]; left; rewrite ?E in H; auto.
    - destruct (lphase st) eqn:E; left; rewrite ?E in H; try (split; [exact H|reflexivity]). split; [exact I|]. unfold enter_update. destruct (rbind _ _); reflexivity.
    - destruct (lphase st) as [| |todo| | |] eqn:E; left; rewrite ?E in H; try (split; [exact H|reflexivity]). split; [exact I|]. unfold write_step. destruct todo as [|[[? ?] ?] ?]; [reflexivity|]. destruct (rbind _ _); reflexivity.
    - destruct (lphase st) eqn:E; rewrite ?E in H; cbn in H; try contradiction; left; split; auto. }
  destruct D as [(D & OT)|(D & o & ->)].
  - destruct (IH D) as (es1 & o & es2 & -> & A1 & A2 & A3). exists es1, o, (es2 ++ [e]). split; [now rewrite <- app_assoc|]. split; [exact A1|]. split; [exact A2|].
    rewrite al_run_app. cbn [al_run fold_left]. fold (al_run c st (es1 ++ Learn o :: es2)). rewrite OT. exact A3.
  - exists es, o, []. split; [reflexivity|]. split; [exact D|]. rewrite al_run_app. cbn [al_run fold_left]. fold (al_run c st es). split.
    + intros X. rewrite X in H. exact H.
    + cbn [al_step]. rewrite D. unfold learn_top. destruct (_ <? _); [reflexivity|]. destruct (n_updates c) as [n|]; [destruct (n <? _); [reflexivity|]; destruct (_ =? n); [reflexivity|]|]; destruct (buffer_sample _ _ _) as [[? ?]|?]; reflexivity.
Qed.

(** *** When nothing is dropped the learner never fails *)
Definition pending {A} (s : sbuf A) (ph : phase A) : list nat :=
  match ph with
  | LSampled _ => match s_sampled s with Some ixs => ixs | None => [] end
  | LWriting todo => map (fun ixp => Z.to_nat (fst (fst ixp))) todo
  | _ => []
  end.
Definition weighted {A} (s : sbuf A) (ph : phase A) : Prop := forall j w, nth_error (s_ws s) j = Some w -> (0 < w)%Q \/ In j (pending s ph).
Definition counted {A} (c : al_cfg) (st : al_state A) : Prop :=
  match n_updates c with
  | Some n => optim_t st <= n /\ (in_iteration (lphase st) -> optim_t st < n)
  | None => True
  end.
Definition alive {A} cap c (st : al_state A) (s : sbuf A) : Prop :=
  al_rel cap st s /\ ~ failed st /\ weighted s (lphase st) /\ counted c st /\
  match lphase st with LSampled xs => length xs = minibatch_size c | _ => True end.

Lemma all_pos_npos ws : (forall j w, nth_error ws j = Some w -> (0 < w)%Q) -> npos ws = length ws.
Proof.
  unfold npos. induction ws as [|w ws IH]; intros H; [reflexivity|]. cbn. rewrite (proj2 (Qltb_lt 0 w)) by (apply (H 0); reflexivity). cbn. f_equal. apply IH. intros j v Hv. apply (H (S j)). exact Hv.
Qed.

Lemma alive_step {A} cap c (st : al_state A) s e : cap <> Some 0 -> 1 <= replay_start_size c -> minibatch_size c <= replay_start_size c ->
  schedule_ok (minibatch_size c) [e] -> match cap, e with Some k, Poll _ => length (data (buf st)) < k | _, _ => True end ->
  alive cap c st s -> exists s', alive cap c (al_step c st e) s'.
Proof.
  intros Hc R1 R2 SO NF AL. pose proof (ex_intro (alive cap c st) s AL) as same. destruct AL as (H & Hnf & HW & HC & HS). pose proof H as (HR & Ec & Hw & Hm & Hp & Hph). inversion SO as [|? ? So _]; subst.
  pose proof HR as (_ & Hd & _ & _ & _ & _ & _ & Hsi & L1 & L2 & Hnn & Hcap).
  destruct e as [x|o|ps| |].
  - destruct (poll_inv (s_cap s) st s x Hc H) as (b & Eb & H'). exists (appended s x). rewrite (step_poll c (mkCfg 0 0 0 0 0 None)). split; [exact H'|].
    cbn [al_step] in *. unfold poll_step in *. rewrite Hp, Eb in *. cbn in *. repeat split; auto.
    + intros j w Hj. cbn in Hj. assert (E : trunc (s_cap s) (s_ws s ++ [s_max s]) = s_ws s ++ [s_max s]).
      { destruct (s_cap s) as [k|]; cbn; [|reflexivity]. apply lastn_all. rewrite app_length. cbn. rewrite Hd in NF. lia. }
      rewrite E in Hj. destruct (Nat.lt_ge_cases j (length (s_ws s))) as [L|L].
      * rewrite nth_error_app1 in Hj by exact L. destruct (HW j w Hj) as [P|P]; [left; exact P|right]. unfold pending in *. cbn. exact P.
      * rewrite nth_error_app2 in Hj by exact L. destruct (j - length (s_ws s)) as [|[|k]]; cbn in Hj; try discriminate. injection Hj as <-. left. exact Hm.
  - cbn [al_step]. destruct (lphase st) eqn:Eph; try exact same. unfold learn_top.
    destruct (length (data (buf st)) <? replay_start_size c) eqn:El; [exact same|].
    assert (All : forall j w, nth_error (s_ws s) j = Some w -> (0 < w)%Q) by (intros j w Hj; destruct (HW j w Hj) as [P|P]; [exact P|destruct P]).
    pose proof (all_pos_npos _ All) as NP.
    assert (G : (match n_updates c with Some n => optim_t st < n | None => True end) -> exists s', alive (s_cap s) c (match buffer_sample (buf st) (minibatch_size c) o with Ok (b, xs) => with_phase (with_buf st b) (LSampled xs) | Err e => with_phase st (LFailed e) end) s').
    { intros LT. destruct So as [So1 So2]. set (o' := mkSo [] (firstn (minibatch_size c) (so_fracs o))).
      assert (Lf : length (so_fracs o') = minibatch_size c) by (cbn; rewrite firstn_length; lia).
      destruct (sample_in_contract (buf st) s o' 0%Q HR) as (ds & probs & m & Ed & Hdl & Est).
      - split; [constructor|]. split; [constructor|]. cbn. apply Forall_forall. intros f Hf. rewrite Forall_forall in So2. apply So2. rewrite <- (firstn_skipn (minibatch_size c)). apply in_or_app. auto.
      - unfold enough. rewrite (weights_rel _ _ HR), NP, L1, <- Hd, Lf. replace (Qltb 0 0) with false by reflexivity. lia.
      - cbn in Hph. rewrite Hph. destruct (s_wait s); reflexivity.
      - destruct (pb_step_refines _ _ _ _ _ HR Est) as [Ho HR']. replace (Qltb 0 0) with false in * by reflexivity. cbn [app pb_step] in *.
        destruct (pb_sample (buf st) o' 0) as [[b [[xs pr] mm]]|e] eqn:Es; cbn in Ho; [|contradiction || discriminate]. destruct Ho as (-> & _).
        assert (Eb : buffer_sample (buf st) (minibatch_size c) o = Ok (b, at_ixs (s_vals s) ds)).
        { unfold buffer_sample. replace (minibatch_size c <=? length (data (buf st))) with true by lia. cbn [passert rbind]. fold o'. rewrite Es. reflexivity. }
        rewrite Eb. destruct (sample_any _ _ _ _ _ _ HR Hw Eb) as (_ & _ & ixs & Hb & F2 & _ & _ & HRix).
        assert (Eix : ixs = ds).
        { destruct HRix as (_ & _ & _ & _ & _ & _ & _ & S1 & _). destruct HR' as (_ & _ & _ & _ & _ & _ & _ & S2 & _). cbn in S1, S2. rewrite S1 in S2. injection S2 as S2.
          clear - S2. revert ds S2. induction ixs as [|a ixs IH]; intros [|d ds] E; try discriminate; [reflexivity|]. cbn in E. injection E as E1 E2. f_equal; [lia|]. auto. }
        subst ixs. pose proof (f2_length _ _ _ F2) as FL. exists (mkSb (s_cap s) (s_vals s) (zero_at (s_ws s) ds) (s_ps s) (s_max s) true true (Some ds)).
        split; [split; [exact HRix|]; cbn; repeat split; auto; exists ds; repeat split; auto|]. split; [intros []|]. split; [|split].
        + intros j w Hj. cbn [s_ws] in Hj. rewrite zero_at_nth in Hj. cbn [pending with_phase lphase s_sampled]. destruct (existsb (Nat.eqb j) ds) eqn:Ex.
          * right. apply existsb_exists in Ex. destruct Ex as (k & Hk & Ek). apply Nat.eqb_eq in Ek. subst. exact Hk.
          * left. cbn [andb] in Hj. apply (All j). exact Hj.
        + unfold counted in *. cbn. destruct (n_updates c); [|exact I]. split; [lia|intros _; exact LT].
        + cbn. lia. }
    unfold counted in HC. destruct (n_updates c) as [n|] eqn:En; [|apply G; exact I]. destruct HC as [HC1 _]. replace (n <? optim_t st) with false by lia.
    destruct (optim_t st =? n) eqn:Eo; [|apply G; lia]. exists s. split; [split; [exact HR|repeat split; auto]|]. split; [intros []|]. split; [|split; [|exact I]].
    + intros j w Hj. left. apply (All j). exact Hj.
    + unfold counted. rewrite En. cbn. split; [lia|intros []].
  - cbn [al_step]. destruct (lphase st) as [|xs| | | |] eqn:Eph; try exact same.
    destruct So as [So1 So2]. cbn in Hph. destruct Hph as (Hfl & ixs & Esm & El & Hb). exists s.
    assert (Hso : sampled_indices (buf st) = Some (map Z.of_nat ixs)) by (rewrite Hsi, Esm; reflexivity).
    assert (Hfw : flag_wait (buf st) = true) by (destruct HR as (_ & _ & _ & _ & _ & _ & Hf & _); congruence).
    assert (Hpos : forallb (fun p => Qltb 0 p) ps = true) by (apply forallb_forall; intros p Hin; rewrite Forall_forall in So2; apply Qltb_lt; auto).
    assert (E : enter_update st xs ps = with_phase st (LWriting (combine (combine (map Z.of_nat ixs) xs) ps))).
    { unfold enter_update. rewrite Hfw, orb_true_r. cbn [passert rbind]. rewrite Hpos. cbn [passert rbind]. rewrite Hso, map_length. replace (length ixs =? length ps) with true by lia. reflexivity. }
    rewrite E. split; [split; [exact HR|]; repeat split; auto; apply zip_ok; auto|]. split; [intros []|]. split; [|split; [|exact I]].
    + intros j w Hj. destruct (HW j w Hj) as [P|P]; [left; exact P|right]. cbn in P |- *. rewrite Esm in P.
      assert (EM : map (fun ixp : Z * A * Q => Z.to_nat (fst (fst ixp))) (combine (combine (map Z.of_nat ixs) xs) ps) = ixs); [|rewrite EM; exact P].
      assert (L' : length ps = length ixs) by lia. revert El L'. clear. revert xs ps. induction ixs as [|i ixs IH]; intros [|x xs] [|p ps] E1 E2; try discriminate; cbn; try reflexivity. f_equal; [lia|]. apply IH; cbn in *; lia.
    + unfold counted in *. cbn. destruct (n_updates c); [|exact I]. destruct HC as [HC1 HC2]. split; [lia|]. intros _. apply HC2. rewrite Eph. exact I.
  - cbn [al_step]. destruct (lphase st) as [| |todo| | |] eqn:Eph; try exact same. destruct todo as [|[[i x] p] rest].
    + exists (mkSb (s_cap s) (s_vals s) (s_ws s) (s_ps s) (s_max s) (s_wait s) false (Some [])). split; [split; [|repeat split; auto]|].
      * destruct HR as (A1 & A2 & A3 & A4 & A5 & A6 & A7 & A8 & A9 & A10 & A11 & A12). unfold pb_rel; cbn. splits; auto.
      * split; [intros []|]. split; [|split; [|exact I]].
        -- intros j w Hj. destruct (HW j w Hj) as [P|P]; [left; exact P|destruct P].
        -- unfold counted in *. cbn in *. destruct (n_updates c); [|exact I]. destruct HC as [HC1 HC2]. split; [lia|]. intros _. apply HC2. rewrite Eph. exact I.
    + destruct (write_rel (s_cap s) st s i x p rest c H Eph) as (j & -> & Hj & Hpp & Eph' & H'). assert (ST : al_step c st Write = write_step st ((Z.of_nat j, x, p) :: rest)) by (cbn [al_step]; rewrite Eph; reflexivity). rewrite ST in *.
      exists (written s j p). split; [exact H'|]. rewrite Eph'. split; [unfold failed; rewrite Eph'; intros []|]. split; [|split; [|exact I]].
      * intros k w Hk. cbn in Hk. rewrite nth_error_list_set in Hk. destruct (Nat.eq_dec k j) as [->|Nk].
        { rewrite Nat.eqb_refl in Hk. replace (j <? length (s_ws s)) with true in Hk by lia. cbn in Hk. injection Hk as <-. left. exact Hpp. }
        assert (Hk' : nth_error (s_ws s) k = Some w).
        { destruct (k =? j) eqn:Ekj; [lia|]. exact Hk. }
        destruct (HW k w Hk') as [P|P]; [left; exact P|right]. cbn in P |- *. destruct P as [P|P]; [lia|exact P].
      * unfold counted in *. rewrite Eph in HC. rewrite Eph'. pose proof (optim_mono c st Write) as M. assert (OT : optim_t (write_step st ((Z.of_nat j, x, p) :: rest)) = optim_t st) by (unfold write_step; destruct (rbind _ _); reflexivity). rewrite OT. exact HC.
  - cbn [al_step]. destruct (lphase st) eqn:Eph; try exact same. exists s. split; [split; [exact HR|repeat split; auto]|]. split; [intros []|]. split; [|split; [|exact I]].
    + intros j w Hj. destruct (HW j w Hj) as [P|P]; [left; exact P|destruct P].
    + unfold counted in *. rewrite Eph in HC. cbn. destruct (n_updates c); [|exact I]. destruct HC as [_ HC]. specialize (HC I). split; [lia|intros []].
Qed.

Lemma len_polled {A} cap c (es : list (event A)) : cap <> Some 0 -> length (data (buf (al_run c (al_init cap) es))) = length (polled es) - dropped cap 0 (length (polled es)).
Proof.
  intros Hc. induction es as [|e es IH] using rev_ind; [destruct cap; reflexivity|].
  destruct (al_run_rel cap c es Hc) as (s & R). rewrite al_run_app, polled_app, app_length. cbn [al_run fold_left]. fold (al_run c (al_init cap) es). set (st := al_run c (al_init cap) es) in *.
  assert (same : forall ph b, data b = data (buf st) -> polled [e] = [] -> length (data (buf (with_phase (with_buf st b) ph))) = length (polled es) + length (polled [e]) - dropped cap 0 (length (polled es) + length (polled [e]))).
  { intros ph b Eb ->. cbn [with_phase with_buf buf length]. rewrite Eb, IH. f_equal; [lia|]. f_equal. lia. }
  assert (same0 : polled [e] = [] -> length (data (buf st)) = length (polled es) + length (polled [e]) - dropped cap 0 (length (polled es) + length (polled [e]))).
  { intros ->. rewrite IH. cbn. f_equal; [lia|]. f_equal. lia. }
  destruct e as [x|o|ps| |]; cbn [polled flat_map app length] in *.
  - destruct (poll_inv cap st s x Hc R) as (b & _ & (HR' & _)). rewrite (step_poll c (mkCfg 0 0 0 0 0 None)). destruct HR' as (_ & -> & _). unfold appended. cbn [s_vals].
    destruct R as ((_ & Hd & _ & _ & _ & _ & _ & _ & _ & _ & _ & Hcap) & Ec & _). rewrite trunc_len by congruence. rewrite <- Hd, Ec, IH. unfold dropped. destruct cap as [k|]; [|lia].
    assert (k <> 0) by congruence. lia.
  - cbn [al_step]. destruct (lphase st) eqn:Eph; try (apply same0; reflexivity). unfold learn_top. destruct (_ <? _); [apply same0; reflexivity|].
    assert (G : length (data (buf (match buffer_sample (buf st) (minibatch_size c) o with Ok (b, xs) => with_phase (with_buf st b) (LSampled xs) | Err e => with_phase st (LFailed e) end))) = length (polled es) + 0 - dropped cap 0 (length (polled es) + 0)).
    { destruct (buffer_sample _ _ _) as [[b xs]|e] eqn:Es; [|apply same0; reflexivity]. apply same; [|reflexivity]. destruct R as (HR & _ & Hw & _). destruct (sample_any _ _ _ _ _ _ HR Hw Es) as (_ & _ & ixs & _ & _ & Hd & _). exact Hd. }
    destruct (n_updates c) as [n|]; [|exact G]. destruct (n <? _); [apply same0; reflexivity|]. destruct (_ =? n); [apply same0; reflexivity|exact G].
  - cbn [al_step]. destruct (lphase st); try (apply same0; reflexivity). unfold enter_update. destruct (rbind _ _); apply same0; reflexivity.
  - cbn [al_step]. destruct (lphase st) as [| |todo| | |]; try (apply same0; reflexivity). unfold write_step. destruct todo as [|[[i x] p] rest]; [apply same; reflexivity|].
    destruct (rbind _ _) eqn:E; [|apply same0; reflexivity]. apply same; [|reflexivity]. apply rbind_ok in E. destruct E as ([? ?] & _ & E). apply rbind_ok in E. destruct E as ([? ?] & _ & E). injection E as <-. reflexivity.
  - cbn [al_step]. destruct (lphase st); apply same0; reflexivity.
Qed.

Lemma never_full_prefix {A} cap (es es' : list (event A)) : never_full cap (es ++ es') -> never_full cap es.
Proof. unfold never_full, dropped. rewrite polled_app, app_length. destruct cap; lia. Qed.

Lemma never_fails {A} cap c (es : list (event A)) : cap <> Some 0 -> 1 <= replay_start_size c -> minibatch_size c <= replay_start_size c ->
  schedule_ok (minibatch_size c) es -> never_full cap es -> exists s, alive cap c (al_run c (al_init cap) es) s.
Proof.
  intros Hc R1 R2. induction es as [|e es IH] using rev_ind; intros SO NF.
  - exists (sb_init cap true 1%Q). split; [split; [apply pb_init_rel|repeat split]|]. split; [intros []|]. split; [intros [|j] w Hj; discriminate|]. split; [|exact I]. unfold counted. cbn. destruct (n_updates c); [|exact I]. split; [lia|intros []].
  - apply Forall_app in SO. destruct SO as [SO SE]. destruct (IH SO (never_full_prefix _ _ _ NF)) as (s & AL). rewrite al_run_app. cbn [al_run fold_left].
    apply (alive_step cap c _ s e Hc R1 R2 SE); [|exact AL]. destruct cap as [k|]; [|exact I]. destruct e; try exact I.
    rewrite (len_polled (Some k) c es Hc). unfold never_full, dropped in *. rewrite polled_app, app_length in NF. cbn in NF. lia.
Qed.
