(** Lemmas for C143. *)
From Coq Require Import Reals Qreals Lra.
From Verif Require Import Base P_Base M_Prioritized S_Prioritized P_Prioritized P_PrioritizedProps M_PriorityWeights S_PriorityWeights P_PriorityWeights S_Importance.
Local Open Scope R_scope.

Lemma npos_all ws : Forall (Qlt 0) ws -> npos ws = length ws.
Proof.
  unfold npos. induction 1 as [|w ws H F IH]; [reflexivity|]. cbn. assert (E : Qltb 0 w = true) by now apply Qltb_lt. rewrite E. cbn. now rewrite IH.
Qed.
Lemma ready_pos {A} (b : pbuf A) : ready b -> length (weights b) = length (data b) /\ (0 < length (data b))%nat /\ (0 < Qsum (weights b))%Q.
Proof.
  intros (Rb & _ & Ne & Pw). destruct (reachable_rel b Rb) as (s & HR). pose proof (weights_length b s HR) as L. split; [exact L|]. assert (Ld : (0 < length (data b))%nat) by (destruct (data b); [congruence|cbn; lia]). split; [exact Ld|].
  assert (Le : weights b <> []) by (intros E; rewrite E in L; cbn in L; lia). destruct Pw as [|w ws Hw F]; [congruence|]. cbn. assert (0 <= Qsum ws)%Q by (apply Qsum_nonneg; clear - F; induction F; constructor; auto; Lqa.lra). Lqa.lra.
Qed.

(** What a sample of a ready buffer is. *)
Lemma sample_form {A} (b : pbuf A) fs : ready b -> (length fs <= length (data b))%nat -> Forall (fun f => 0 <= f < 1)%Q fs ->
  exists b1 ds ps m, draws (weights b) fs = Some ds /\ pb_sample b (mkSo [] fs) 0 = Ok (b1, (at_ixs (data b) ds, ps, m)) /\ sampled_indices b1 = Some (map Z.of_nat ds) /\
    Forall2 Qeq ps (map (fun v => v / Qsum (weights b))%Q (at_ixs (weights b) ds)) /\ (m == Qminl 0 (priorities b) / Qsum (weights b))%Q /\ (0 < m)%Q /\ Forall (fun p => m <= p)%Q ps /\ length ds = length fs.
Proof.
  intros Rd Lf Ff. destruct (ready_pos b Rd) as (Lw & Ld & Sp). pose proof Rd as (Rb & Wf & Ne & Pw).
  assert (Ho : oracle_ok (length (data b)) (mkSo [] fs)) by (split; [constructor|split; [constructor|exact Ff]]).
  assert (He : enough b (mkSo [] fs) 0). { unfold enough. change (Qltb 0 0) with false. cbn [so_fracs so_uniform]. rewrite (npos_all _ Pw), Lw. split; [exact Ld|exact Lf]. }
  destruct (sample_probs b (mkSo [] fs) Rb Ho He Wf) as (b1 & xs & ps & m & Es & Lx & Lp & Hm & HF).
  destruct (reachable_rel b Rb) as (s & HR). pose proof HR as (Hc & Hd & Hs & Hmn & Hx & Hw & Hf & Hsi & L1 & L2 & Hnn & Hcap). pose proof Wf as Wf'. rewrite Hw, Hf in Wf'.
  destruct (sample_in_contract b s (mkSo [] fs) 0 HR Ho He Wf') as (ds & probs' & m' & Ed & Hdl & Est). change (Qltb 0 0) with false in Ed, Est. cbv iota in Ed, Est. cbn [so_fracs app] in *.
  assert (Ews : (if s_wait s then zero_at (s_ws s) [] else s_ws s) = s_ws s) by (destruct (s_wait s); reflexivity).
  destruct (pb_step_refines b s (PSample (mkSo [] fs) 0) _ _ HR Est) as [Hout HR1]. cbn [pb_step] in Hout, HR1. rewrite Es in Hout, HR1. cbn [fst snd out_eq] in Hout, HR1. destruct Hout as (-> & Hpr & Hmm).
  destruct HR1 as (_ & _ & _ & _ & _ & _ & _ & Si & _). cbn [s_sampled option_map] in Si.
  cbn [sb_step so_fracs so_uniform] in Est. rewrite Wf' in Est. destruct ((length (s_vals s) =? 0)%nat || Qeq_bool (Qsum (s_ws s)) 0); [discriminate|]. destruct (negb _); [discriminate|]. change (Qltb 0 0) with false in Est. cbv iota in Est. rewrite Ed in Est.
  injection Est. intros Em Ep. clear Est. rewrite (weights_rel b s HR), (priorities_rel b s HR), Hd. exists b1, ds, ps, m. rewrite Ews in Ed. split; [exact Ed|]. split; [exact Es|]. split; [exact Si|].
  assert (Ep' : map (fun w => (0 / inject_Z (Z.of_nat (length (s_vals s))) + (1 - 0) * w / Qsum (s_ws s))%Q) (at_ixs (s_ws s) ds) = probs').
  { rewrite <- Ep. destruct (s_wait s); reflexivity. }
  split.
  - rewrite <- Ep' in Hpr. clear - Hpr Sp HR. rewrite (weights_rel b s HR) in Sp. remember (at_ixs (s_ws s) ds) as vs eqn:E. clear E. revert ps Hpr. induction vs as [|v vs IH]; intros ps Hpr; inversion Hpr as [|p ? ps' ? Hp Hps]; subst; cbn [map]; [constructor|].
    constructor; [|now apply IH]. rewrite Hp. unfold Qdiv. rewrite Qmult_0_l, Qplus_0_l. ring.
  - split; [now rewrite Hmm, <- Em|]. split; [exact Hm|]. split; [exact HF|exact Hdl].
Qed.

(** Drawing once more. *)
Lemma draws_snoc fs : forall ws ds f, draws ws fs = Some ds -> draws ws (fs ++ [f]) = match cdf_find (zero_at ws ds) (Qsum (zero_at ws ds) * f)%Q with Some j => Some (ds ++ [j]) | None => None end.
Proof.
  induction fs as [|f0 fs IH]; intros ws ds f E; cbn [draws app] in *; [injection E as <-; cbn; destruct (cdf_find _ _); reflexivity|].
  destruct (cdf_find ws (Qsum ws * f0)) as [i|]; [|discriminate]. destruct (draws (list_set ws i 0%Q) fs) as [ds'|] eqn:Ed; [|discriminate]. injection E as <-. rewrite (IH _ _ f Ed). unfold zero_at. cbn [fold_left]. destruct (cdf_find _ _); reflexivity.
Qed.

(** The mean of a function that depends on the element found. *)
Lemma steps_find (ws : list Q) (g : Q -> R) (val : nat -> R) : Forall (Qle 0) ws -> (0 < Qsum ws)%Q ->
  (forall j f, cdf_find ws (Qsum ws * f)%Q = Some j -> (0 <= f < 1)%Q -> g f = val j) ->
  forall pre rest start, ws = pre ++ rest -> (start == Qsum pre / Qsum ws)%Q -> steps start (map (fun jw => ((snd jw / Qsum ws)%Q, val (fst jw))) (combine (seq (length pre) (length rest)) rest)) g.
Proof.
  intros Hn Sp Hg pre rest. revert pre. induction rest as [|w rest IH]; intros pre start E Es; cbn [length seq combine map steps fst snd].
  - rewrite Es, E, app_nil_r. rewrite app_nil_r in E. subst pre. field. intros C. rewrite C in Sp. Lqa.lra.
  - assert (Hw : (0 <= w)%Q) by (rewrite E in Hn; apply Forall_app in Hn; destruct Hn as [_ Hn]; now inversion Hn). split; [apply Qle_shift_div_l; [exact Sp|]; now rewrite Qmult_0_l|]. split.
    + intros f [Hf1 Hf2]. assert (Ne : ~ (Qsum ws == 0)%Q) by (intros C; rewrite C in Sp; Lqa.lra).
      assert (B1 : (Qsum pre <= Qsum ws * f)%Q). { rewrite Es in Hf1. apply Qmult_le_compat_r with (z := Qsum ws) in Hf1; [|Lqa.lra]. assert (Qsum pre / Qsum ws * Qsum ws == Qsum pre)%Q by (field; exact Ne). Lqa.lra. }
      assert (B2 : (Qsum ws * f < Qsum pre + w)%Q). { rewrite Es in Hf2. apply Qmult_lt_compat_r with (z := Qsum ws) in Hf2; [|exact Sp]. assert ((Qsum pre / Qsum ws + w / Qsum ws) * Qsum ws == Qsum pre + w)%Q by (field; exact Ne). Lqa.lra. }
      assert (Pp : (0 <= Qsum pre)%Q) by (apply Qsum_nonneg; rewrite E in Hn; now apply Forall_app in Hn). assert (Pr : (0 <= Qsum rest)%Q) by (apply Qsum_nonneg; rewrite E in Hn; apply Forall_app in Hn; destruct Hn as [_ Hn]; now inversion Hn).
      apply Hg.
      * apply cdf_find_complete; [exact Hn|rewrite E, app_length; cbn; lia| |].
        -- rewrite E at 1. rewrite firstn_app, firstn_all, Nat.sub_diag, app_nil_r. exact B1.
        -- rewrite E at 2. change (S (length pre)) with (1 + length pre)%nat. rewrite Nat.add_comm, firstn_app_2, Qsum_app. cbn [firstn Qsum]. Lqa.lra.
      * assert (Sum : (Qsum ws == Qsum pre + w + Qsum rest)%Q) by (rewrite E, Qsum_app; cbn [Qsum]; ring). split.
        -- rewrite Es in Hf1. eapply Qle_trans; [|exact Hf1]. apply Qle_shift_div_l; [exact Sp|]. now rewrite Qmult_0_l.
        -- destruct (Qlt_le_dec f 1) as [H|H]; [exact H|]. exfalso. assert (Qsum ws * 1 <= Qsum ws * f)%Q by (rewrite !(Qmult_comm (Qsum ws)); apply Qmult_le_compat_r; [exact H|Lqa.lra]). Lqa.lra.
    + specialize (IH (pre ++ [w]) (start + w / Qsum ws)%Q). rewrite <- app_assoc in IH. specialize (IH E). rewrite app_length in IH. cbn [length] in IH. rewrite Nat.add_1_r in IH. apply IH. rewrite Es, Qsum_app. cbn [Qsum]. field. intros C. rewrite C in Sp. Lqa.lra.
Qed.
Lemma mean_find ws g val : Forall (Qle 0) ws -> (0 < Qsum ws)%Q -> (forall j f, cdf_find ws (Qsum ws * f)%Q = Some j -> (0 <= f < 1)%Q -> g f = val j) ->
  mean g (Rsum (map (fun jw => Q2R (snd jw / Qsum ws) * val (fst jw)) (combine (seq 0 (length ws)) ws))).
Proof.
  intros Hn Sp Hg. exists (map (fun jw => ((snd jw / Qsum ws)%Q, val (fst jw))) (combine (seq 0 (length ws)) ws)). split; [|now rewrite map_map].
  apply (steps_find ws g val Hn Sp Hg [] ws 0%Q eq_refl). cbn. field. intros C. rewrite C in Sp. Lqa.lra.
Qed.

(** ** Weights *)
Lemma weights_form w n ps m : norm w <> NormBatch -> beta w = 1 -> (0 < n)%nat -> (0 < m)%Q -> Forall (fun p => m <= p)%Q ps ->
  exists w' ws, weights_from_probabilities w n (map Q2R ps) (Q2R m) = Ok (w', ws) /\
    Forall2 (fun p v => v = (match norm w with NoNorm => 1 | _ => INR n * Q2R m end) / (INR n * Q2R p)) ps ws.
Proof.
  intros Nn B Hn Hm HF. assert (Pm : 0 < Q2R m) by (replace 0 with (Q2R 0) by (unfold Q2R; cbn; field); now apply Qlt_Rlt). assert (Pn : 0 < INR n) by now apply lt_0_INR.
  assert (Pp : Forall (fun p => 0 < Q2R p) ps) by (eapply Forall_impl; [|exact HF]; intros p Hp; cbn in Hp; apply Qle_Rle in Hp; lra).
  unfold weights_from_probabilities. rewrite B. destruct (norm w); [|congruence|].
  - cbn [rbind]. assert (G : exists ws, mapR (fun p => pypow (INR n * p) (- (1))) (map Q2R ps) = Ok ws /\ Forall2 (fun p v => v = 1 / (INR n * Q2R p)) ps ws).
    { clear - Pp Pn. induction Pp as [|p ps Hp F IH]; cbn [map mapR]; [exists []; split; [reflexivity|constructor]|]. assert (0 < INR n * Q2R p) by now apply Rmult_lt_0_compat. rewrite pypow_pos by assumption. cbn [rbind]. destruct IH as (ws & -> & F2). cbn [rbind].
      eexists. split; [reflexivity|]. constructor; [|exact F2]. rewrite Rpower_Ropp, Rpower_1 by assumption. unfold Rdiv. now rewrite Rmult_1_l. }
    destruct G as (ws & -> & F2). cbn [rbind]. eauto.
  - cbn [rbind]. assert (G : exists ws, mapR (fun p => pypow (p / Q2R m) (- (1))) (map Q2R ps) = Ok ws /\ Forall2 (fun p v => v = INR n * Q2R m / (INR n * Q2R p)) ps ws).
    { clear - Pp Pn Pm. induction Pp as [|p ps Hp F IH]; cbn [map mapR]; [exists []; split; [reflexivity|constructor]|]. assert (0 < Q2R p / Q2R m) by (apply Rdiv_lt_0_compat; assumption). rewrite pypow_pos by assumption. cbn [rbind]. destruct IH as (ws & -> & F2). cbn [rbind].
      eexists. split; [reflexivity|]. constructor; [|exact F2]. rewrite Rpower_Ropp, Rpower_1 by assumption. field. split; lra. }
    destruct G as (ws & -> & F2). cbn [rbind]. eauto.
Qed.
Lemma F2_nth {A B} (P : A -> B -> Prop) l l' : Forall2 P l l' -> forall i x, nth_error l i = Some x -> exists y, nth_error l' i = Some y /\ P x y.
Proof. induction 1 as [|a b l l' H F IH]; intros [|i] x E; cbn in E; try discriminate; [injection E as <-; exists b; now split|]. now apply (IH i). Qed.
Lemma combine_nth_error {X Y} (l : list X) : forall (l' : list Y) k x y, nth_error l k = Some x -> nth_error l' k = Some y -> nth_error (combine l l') k = Some (x, y).
Proof. induction l as [|a l IH]; intros [|c l'] [|k] x y E1 E2; cbn in *; try discriminate; [congruence|]. now apply IH. Qed.
Lemma at_ixs_nth {B} (l : list B) ixs : Forall (fun i => i < length l)%nat ixs -> forall k i, nth_error ixs k = Some i -> nth_error (at_ixs l ixs) k = nth_error l i.
Proof.
  induction 1 as [|i0 ixs H F IH]; intros [|k] i E; cbn in E; try discriminate; (destruct (nth_error l i0) as [v|] eqn:V; [|apply nth_error_None in V; lia]); rewrite (at_ixs_cons _ _ _ _ V); cbn; [injection E as <-; now rewrite V|now apply IH].
Qed.

Section Mean.
Context {A : Type} (w : pwe) (b : pbuf A) (loss : A -> R).
Context (Rd : ready b) (Nn : norm w <> NormBatch) (B1 : beta w = 1).
Notation ws := (weights b). Notation S_ := (Qsum (weights b)). Notation n := (length (data b)).

Lemma weighted_value fs ds f j : (length fs < n)%nat -> Forall (fun f => 0 <= f < 1)%Q fs -> (0 <= f < 1)%Q -> draws ws fs = Some ds -> cdf_find (zero_at ws ds) (Qsum (zero_at ws ds) * f)%Q = Some j ->
  exists v x, nth_error ws j = Some v /\ nth_error (data b) j = Some x /\ weighted w b loss fs f = scale w b * Q2R S_ / (INR n * Q2R v) * loss x.
Proof.
  intros Lf Ff Hf Ed Ej. destruct (ready_pos b Rd) as (Lw & Ld & Sp). assert (F1 : Forall (fun f => 0 <= f < 1)%Q (fs ++ [f])) by (apply Forall_app; split; [exact Ff|now constructor]).
  destruct (sample_form b (fs ++ [f]) Rd ltac:(rewrite app_length; cbn; lia) F1) as (b1 & ds1 & ps & m & Ed1 & Es & _ & Hps & Em & Pm & HF & Ll). rewrite (draws_snoc fs ws ds f Ed), Ej in Ed1. injection Ed1 as <-.
  rewrite app_length in Ll. cbn [length] in Ll. assert (Bd : Forall (fun i => i < length ws)%nat (ds ++ [j])) by (apply (draws_bounds (fs ++ [f])); rewrite (draws_snoc fs ws ds f Ed); now rewrite Ej).
  assert (Lds : length ds = length fs) by (rewrite !app_length in Ll; cbn in Ll; lia).
  assert (Nj : nth_error (ds ++ [j]) (length fs) = Some j) by (rewrite nth_error_app2 by lia; now replace (length fs - length ds)%nat with 0%nat by lia).
  assert (Hj : (j < length ws)%nat) by (rewrite Forall_forall in Bd; apply Bd, in_or_app; right; now left).
  destruct (nth_error ws j) as [v|] eqn:Nv; [|apply nth_error_None in Nv; lia]. destruct (nth_error (data b) j) as [x|] eqn:Nx; [|apply nth_error_None in Nx; lia]. exists v, x. split; [reflexivity|]. split; [reflexivity|].
  destruct (weights_form w n ps m Nn B1 Ld Pm HF) as (w' & vs & Ew & Fv).
  unfold weighted, prb_sample. replace (S (length fs) <=? n)%nat with true by (symmetry; apply Nat.leb_le; lia). cbn [passert rbind]. rewrite Es. cbn [rbind]. rewrite Ew. cbn [rbind].
  assert (Np : exists p, nth_error ps (length fs) = Some p /\ (p == v / S_)%Q).
  { assert (Nm : nth_error (map (fun v => v / S_)%Q (at_ixs ws (ds ++ [j]))) (length fs) = Some (v / S_)%Q) by (rewrite nth_error_map, (at_ixs_nth ws _ Bd _ _ Nj), Nv; reflexivity).
    assert (Hl : (length fs < length ps)%nat) by (rewrite (Forall2_len _ _ _ Hps); apply nth_error_Some; congruence). destruct (nth_error ps (length fs)) as [p|] eqn:Np; [|apply nth_error_None in Np; lia].
    destruct (F2_nth _ _ _ Hps _ _ Np) as (q & Nq & Hq). rewrite Nm in Nq. injection Nq as <-. now exists p. }
  destruct Np as (p & Np & Ep). destruct (F2_nth _ _ _ Fv _ _ Np) as (u & Nu & Hu).
  rewrite (combine_nth_error _ _ _ x u); [|rewrite (at_ixs_nth (data b) (ds ++ [j]) (eq_rect _ (fun k => Forall (fun i => i < k)%nat (ds ++ [j])) Bd _ Lw) _ _ Nj); exact Nx|exact Nu]. f_equal. rewrite Hu.
  assert (Ne : ~ (S_ == 0)%Q) by (intros C; rewrite C in Sp; Lqa.lra). assert (Pv : (0 < v)%Q) by (destruct Rd as (_ & _ & _ & Pw); rewrite Forall_forall in Pw; exact (Pw v (nth_error_In _ _ Nv))).
  apply Qeq_eqR in Ep. rewrite Ep. apply Qeq_eqR in Em. unfold scale. rewrite Em. unfold Qdiv. rewrite !Q2R_mult, !Q2R_inv by exact Ne.
  assert (0 < Q2R v) by (replace 0 with (Q2R 0) by (unfold Q2R; cbn; field); now apply Qlt_Rlt). assert (0 < Q2R S_) by (replace 0 with (Q2R 0) by (unfold Q2R; cbn; field); now apply Qlt_Rlt). assert (0 < INR n) by now apply lt_0_INR.
  destruct (norm w); [|congruence|]; field; repeat split; lra.
Qed.

Lemma Qsum_list_set l : forall i v, nth_error l i = Some v -> (Qsum (list_set l i 0%Q) == Qsum l - v)%Q.
Proof. induction l as [|a l IH]; intros [|i] v E; cbn in E; try discriminate; cbn [list_set Qsum]; [injection E as ->; ring|]. rewrite (IH i v E). ring. Qed.
Lemma Qsum_zero_at ds : forall l, NoDup ds -> Forall (fun i => i < length l)%nat ds -> (Qsum (zero_at l ds) == Qsum l - Qsum (at_ixs l ds))%Q.
Proof.
  induction ds as [|i ds IH]; intros l N F; [cbn; ring|]. inversion N as [|? ? Hi N']; subst. inversion F as [|? ? Hl F']; subst. unfold zero_at. cbn [fold_left]. change (fold_left (fun w i => list_set w i 0%Q) ds (list_set l i 0%Q)) with (zero_at (list_set l i 0%Q) ds).
  destruct (nth_error l i) as [v|] eqn:V; [|apply nth_error_None in V; lia]. rewrite (at_ixs_cons _ _ _ _ V). rewrite IH; [|exact N'|rewrite list_set_length; exact F'].
  rewrite (Qsum_list_set _ _ _ V). rewrite (at_ixs_ext (list_set l i 0%Q) l ds); [cbn [Qsum]; ring|]. intros k Hk. rewrite nth_error_list_set. destruct (Nat.eqb_spec k i) as [->|]; [contradiction|reflexivity].
Qed.
Lemma Rsum_scale c l l' : Forall2 (fun x y => x = c * y) l l' -> Rsum l = c * Rsum l'.
Proof. induction 1 as [|x y l l' H F IH]; cbn; [ring|]. rewrite H, IH. ring. Qed.
Lemma F2_of_nths {X Y} (P : X -> Y -> Prop) l : forall l', length l = length l' -> (forall i x y, nth_error l i = Some x -> nth_error l' i = Some y -> P x y) -> Forall2 P l l'.
Proof. induction l as [|x l IH]; intros [|y l'] L H; cbn in L; try lia; constructor; [exact (H 0%nat x y eq_refl eq_refl)|]. apply IH; [lia|]. intros i. exact (H (S i)). Qed.
Lemma Q2R_pos q : (0 < q)%Q -> 0 < Q2R q.
Proof. intros H. replace 0 with (Q2R 0) by (unfold Q2R; cbn; field). now apply Qlt_Rlt. Qed.

Lemma rest_positive fs ds : (length fs < n)%nat -> Forall (fun f => 0 <= f < 1)%Q fs -> draws ws fs = Some ds -> (0 < Qsum (zero_at ws ds))%Q.
Proof.
  intros Lf Ff Ed. assert (F1 : Forall (fun f => 0 <= f < 1)%Q (fs ++ [0%Q])) by (apply Forall_app; split; [exact Ff|constructor; [Lqa.lra|constructor]]).
  destruct (sample_form b (fs ++ [0%Q]) Rd ltac:(rewrite app_length; cbn; lia) F1) as (b1 & ds1 & ps & m & Ed1 & _). rewrite (draws_snoc fs ws ds 0 Ed) in Ed1. destruct (cdf_find (zero_at ws ds) (Qsum (zero_at ws ds) * 0)) as [j|] eqn:Ej; [|discriminate].
  assert (Hn : Forall (Qle 0) (zero_at ws ds)). { apply zero_at_nonneg. destruct Rd as (_ & _ & _ & Pw). eapply Forall_impl; [|exact Pw]. intros q Hq. now apply Qlt_le_weak. }
  destruct (cdf_find_bounds _ _ _ Ej) as (Hj & H1 & _). assert (H2 : (Qsum (firstn (S j) (zero_at ws ds)) <= Qsum (zero_at ws ds))%Q).
  { rewrite <- (firstn_skipn (S j) (zero_at ws ds)) at 2. rewrite Qsum_app. assert (0 <= Qsum (skipn (S j) (zero_at ws ds)))%Q; [|Lqa.lra]. apply Qsum_nonneg. apply Forall_forall. intros q Hq. rewrite Forall_forall in Hn. apply Hn. rewrite <- (firstn_skipn (S j) (zero_at ws ds)). apply in_or_app. now right. }
  Lqa.lra.
Qed.

Lemma mean_next fs ds : (length fs < n)%nat -> Forall (fun f => 0 <= f < 1)%Q fs -> draws ws fs = Some ds ->
  mean (weighted w b loss fs) (scale w b / (1 - part b ds) * average_without b loss ds) /\ part b ds < 1.
Proof.
  intros Lf Ff Ed. destruct (ready_pos b Rd) as (Lw & Ld & Sp). pose proof (rest_positive fs ds Lf Ff Ed) as Sp'.
  assert (Hw : Forall (Qle 0) ws). { destruct Rd as (_ & _ & _ & Pw). eapply Forall_impl; [|exact Pw]. intros q Hq. now apply Qlt_le_weak. }
  destruct (draws_positive fs ws ds Hw Ff Ed) as [Nd _]. pose proof (draws_bounds _ _ _ Ed) as Bd. pose proof (Qsum_zero_at ds ws Nd Bd) as Es.
  assert (ES : Q2R (Qsum (zero_at ws ds)) = Q2R S_ - Q2R (Qsum (at_ixs ws ds))) by (rewrite (Qeq_eqR _ _ Es); apply Q2R_minus).
  pose proof (Q2R_pos _ Sp) as PS. pose proof (Q2R_pos _ Sp') as PS'. assert (Pn : 0 < INR n) by now apply lt_0_INR.
  set (val := fun j => scale w b * Q2R S_ / (INR n * Q2R (nth j ws 0%Q)) * match nth_error (data b) j with Some x => loss x | None => 0 end).
  assert (M : mean (weighted w b loss fs) (Rsum (map (fun jw => Q2R (snd jw / Qsum (zero_at ws ds)) * val (fst jw)) (combine (seq 0 (length (zero_at ws ds))) (zero_at ws ds))))).
  { apply mean_find; [apply zero_at_nonneg, Hw|exact Sp'|]. intros j f Ej Hf. destruct (weighted_value fs ds f j Lf Ff Hf Ed Ej) as (v & x & Nv & Nx & ->). unfold val. rewrite Nx. now rewrite (nth_error_nth _ _ 0%Q Nv). }
  assert (Pt : 1 - part b ds = Q2R (Qsum (zero_at ws ds)) / Q2R S_) by (unfold part; rewrite ES; field; lra). split.
  - replace (scale w b / (1 - part b ds) * average_without b loss ds) with (Rsum (map (fun jw => Q2R (snd jw / Qsum (zero_at ws ds)) * val (fst jw)) (combine (seq 0 (length (zero_at ws ds))) (zero_at ws ds)))); [exact M|].
    rewrite Pt. unfold average_without. rewrite zero_at_length, Lw.
    transitivity (scale w b * Q2R S_ / (Q2R (Qsum (zero_at ws ds)) * INR n) * Rsum (map (fun ix => if existsb (Nat.eqb (fst ix)) ds then 0 else loss (snd ix)) (combine (seq 0 n) (data b)))); [|field; repeat split; lra].
    apply Rsum_scale. apply F2_of_nths; [rewrite !map_length, !combine_length, zero_at_length, seq_length; lia|]. intros j p q Hp Hq. rewrite nth_error_map in Hp, Hq.
    destruct (nth_error (combine (seq 0 n) (zero_at ws ds)) j) as [[k v]|] eqn:C1; [|discriminate]. destruct (nth_error (combine (seq 0 n) (data b)) j) as [[k' x]|] eqn:C2; [|discriminate]. cbn [option_map fst snd] in Hp, Hq. injection Hp as <-. injection Hq as <-.
    assert (Hj : (j < n)%nat). { assert (j < length (combine (seq 0 n) (data b)))%nat by (apply nth_error_Some; congruence). rewrite combine_length, seq_length in *. lia. }
    assert (Sq : nth_error (seq 0 n) j = Some j) by (rewrite (nth_error_nth' _ 0%nat) by (rewrite seq_length; lia); now rewrite seq_nth).
    destruct (nth_error (data b) j) as [x'|] eqn:Nx; [|apply nth_error_None in Nx; lia]. rewrite (combine_nth_error _ _ j j x' Sq Nx) in C2. injection C2 as <- <-.
    destruct (nth_error (zero_at ws ds) j) as [v'|] eqn:Nv; [|apply nth_error_None in Nv; rewrite zero_at_length in Nv; lia]. rewrite (combine_nth_error _ _ j j v' Sq Nv) in C1. injection C1 as <- <-.
    unfold val. rewrite Nx. destruct (nth_error ws j) as [u|] eqn:Nu; [|apply nth_error_None in Nu; lia]. rewrite (nth_error_nth _ _ 0%Q Nu). assert (Pu : 0 < Q2R u) by (apply Q2R_pos; destruct Rd as (_ & _ & _ & Pw); rewrite Forall_forall in Pw; exact (Pw u (nth_error_In _ _ Nu))).
    unfold Qdiv. rewrite Q2R_mult, Q2R_inv by (intros C; rewrite C in Sp'; Lqa.lra). destruct (existsb (Nat.eqb j) ds) eqn:Ex.
    + assert (v' = 0%Q). { rewrite zero_at_nth, Ex in Nv. replace (j <? length ws)%nat with true in Nv by (symmetry; apply Nat.ltb_lt; lia). cbn in Nv. now injection Nv as <-. }
      subst v'. replace (Q2R 0) with 0 by (unfold Q2R; cbn; field). ring.
    + assert (v' = u). { assert (~ In j ds). { intros H. rewrite <- not_true_iff_false in Ex. apply Ex. apply existsb_exists. exists j. split; [exact H|apply Nat.eqb_refl]. } rewrite (zero_at_other ws ds j H), Nu in Nv. now injection Nv as <-. }
      subst v'. field. repeat split; lra.
  - assert (0 < 1 - part b ds) by (rewrite Pt; now apply Rdiv_lt_0_compat). lra.
Qed.
End Mean.

Lemma average_without_nil {A} (b : pbuf A) loss : average_without b loss [] = average b loss.
Proof.
  unfold average_without, average. f_equal. cbn [existsb]. f_equal. transitivity (map loss (map snd (combine (seq 0 (length (data b))) (data b)))); [rewrite map_map; reflexivity|]. f_equal.
  generalize 0%nat. induction (data b) as [|x l IH]; intros k; cbn; [reflexivity|]. now rewrite IH.
Qed.
Lemma part_nil {A} (b : pbuf A) : part b [] = 0.
Proof. unfold part, at_ixs. cbn [flat_map Qsum]. replace (Q2R 0) with 0 by (unfold Q2R; cbn; field). unfold Rdiv. ring. Qed.
Lemma Rsum_abs B l : 0 <= B -> Forall (fun x => Rabs x <= B) l -> Rabs (Rsum l) <= INR (length l) * B.
Proof.
  intros HB. induction 1 as [|x l H F IH]; cbn [Rsum length]; [rewrite Rabs_R0; cbn; lra|]. rewrite S_INR. pose proof (Rabs_triang x (Rsum l)). lra.
Qed.
Lemma Rsum_split {X} (g : X -> R) (c : X -> bool) l : Rsum (map g l) - Rsum (map (fun x => if c x then 0 else g x) l) = Rsum (map g (filter c l)).
Proof. induction l as [|x l IH]; cbn; [ring|]. destruct (c x); cbn [map Rsum]; rewrite <- IH; ring. Qed.
Lemma average_diff {A} (b : pbuf A) loss ds B : data b <> [] -> (forall x, Rabs (loss x) <= B) -> Rabs (average b loss - average_without b loss ds) <= INR (length ds) * B / INR (length (data b)).
Proof.
  intros Ne HB. assert (B0 : 0 <= B) by (destruct (data b) as [|x l]; [congruence|]; pose proof (HB x); pose proof (Rabs_pos (loss x)); lra).
  assert (Pn : 0 < INR (length (data b))) by (apply lt_0_INR; destruct (data b); [congruence|cbn; lia]).
  rewrite <- (average_without_nil b). unfold average_without. cbn [existsb]. rewrite <- Rdiv_minus_distr. rewrite (Rsum_split (fun ix => loss (snd ix)) (fun ix => existsb (Nat.eqb (fst ix)) ds)).
  unfold Rdiv. rewrite Rabs_mult. rewrite (Rabs_pos_eq (/ INR _)) by (left; now apply Rinv_0_lt_compat). apply Rmult_le_compat_r; [left; now apply Rinv_0_lt_compat|].
  set (l := filter _ _). assert (Ll : (length l <= length ds)%nat).
  { rewrite <- (map_length fst). apply NoDup_incl_length.
    - unfold l. generalize (data b). intros dat. generalize 0%nat. clear. induction dat as [|x dat IH]; intros k; cbn [length seq combine filter map]; [constructor|]. destruct (existsb _ ds); [|apply IH]. cbn [map fst]. constructor; [|apply IH]. intros H. apply in_map_iff in H. destruct H as ([i y] & E & H). cbn in E. subst i. apply filter_In in H. destruct H as [H _]. apply in_combine_l in H. apply in_seq in H. lia.
    - intros i H. apply in_map_iff in H. destruct H as (ix & <- & H). apply filter_In in H. destruct H as [_ H]. apply existsb_exists in H. destruct H as (j & Hj & E). apply Nat.eqb_eq in E. now rewrite E. }
  eapply Rle_trans; [apply (Rsum_abs B _ B0)|].
  - apply Forall_forall. intros x H. apply in_map_iff in H. destruct H as (ix & <- & _). apply HB.
  - rewrite map_length. apply Rmult_le_compat_r; [exact B0|]. now apply le_INR.
Qed.
Lemma average_abs {A} (b : pbuf A) loss B : data b <> [] -> (forall x, Rabs (loss x) <= B) -> Rabs (average b loss) <= B.
Proof.
  intros Ne HB. assert (B0 : 0 <= B) by (destruct (data b) as [|x l]; [congruence|]; pose proof (HB x); pose proof (Rabs_pos (loss x)); lra).
  assert (Pn : 0 < INR (length (data b))) by (apply lt_0_INR; destruct (data b); [congruence|cbn; lia]). unfold average, Rdiv. rewrite Rabs_mult, (Rabs_pos_eq (/ INR _)) by (left; now apply Rinv_0_lt_compat).
  apply (Rmult_le_reg_r (INR (length (data b)))); [exact Pn|]. rewrite Rmult_assoc, Rinv_l by lra. rewrite Rmult_1_r, (Rmult_comm B). replace (length (data b)) with (length (map loss (data b))) by apply map_length. apply Rsum_abs; [exact B0|]. apply Forall_forall. intros x H. apply in_map_iff in H. destruct H as (y & <- & _). apply HB.
Qed.
Lemma scale_pos {A} (w : pwe) (b : pbuf A) : ready b -> 0 < scale w b.
Proof.
  intros Rd. destruct (ready_pos b Rd) as (Lw & Ld & Sp). destruct (sample_form b [] Rd ltac:(cbn; lia) (Forall_nil _)) as (b1 & ds & ps & m & _ & _ & _ & _ & Em & Pm & _).
  unfold scale. assert (P : 0 < Q2R (Qminl 0 (priorities b)) / Q2R (Qsum (weights b))). { unfold Rdiv. rewrite <- Q2R_inv, <- Q2R_mult by (intros C; rewrite C in Sp; Lqa.lra). apply Q2R_pos. unfold Qdiv in Em. now rewrite <- Em. }
  assert (0 < INR (length (data b))) by now apply lt_0_INR. destruct (norm w); try lra; now apply Rmult_lt_0_compat.
Qed.
Lemma bias_bound rho a aw B t : 0 <= rho < 1 -> Rabs a <= B -> Rabs (a - aw) <= t -> Rabs (/ (1 - rho) * aw - a) <= (rho * B + t) / (1 - rho).
Proof.
  intros [H0 H1] Ha Hd. replace (/ (1 - rho) * aw - a) with ((rho * a + - (a - aw)) / (1 - rho)) by (field; lra). unfold Rdiv. rewrite Rabs_mult, (Rabs_pos_eq (/ _)) by (left; apply Rinv_0_lt_compat; lra). apply Rmult_le_compat_r; [left; apply Rinv_0_lt_compat; lra|].
  eapply Rle_trans; [apply Rabs_triang|]. rewrite Rabs_Ropp, Rabs_mult, (Rabs_pos_eq rho H0). assert (rho * Rabs a <= rho * B) by now apply Rmult_le_compat_l. lra.
Qed.
Lemma part_nonneg {A} (b : pbuf A) ds : ready b -> 0 <= part b ds.
Proof.
  intros Rd. destruct (ready_pos b Rd) as (_ & _ & Sp). destruct Rd as (_ & _ & _ & Pw). unfold part. apply Rmult_le_pos; [|left; apply Rinv_0_lt_compat, Q2R_pos, Sp]. replace 0 with (Q2R 0) by (unfold Q2R; cbn; field). apply Qle_Rle, Qsum_nonneg. unfold at_ixs. apply Forall_forall. intros q H. apply in_flat_map in H. destruct H as (i & _ & H). destruct (nth_error (weights b) i) as [v|] eqn:E; [|destruct H]. destruct H as [<-|[]]. rewrite Forall_forall in Pw. apply Qlt_le_weak, Pw. exact (nth_error_In _ _ E).
Qed.

(** With the weights divided by the largest in the batch, the weight in a batch of one is 1. *)
Lemma batch_one {A} (w : pwe) (b : pbuf A) loss : ready b -> norm w = NormBatch ->
  mean (weighted w b loss []) (Rsum (map (fun vx => Q2R (fst vx / Qsum (weights b)) * loss (snd vx)) (combine (weights b) (data b)))).
Proof.
  intros Rd Nm. destruct (ready_pos b Rd) as (Lw & Ld & Sp). assert (Hw : Forall (Qle 0) (weights b)). { destruct Rd as (_ & _ & _ & Pw). eapply Forall_impl; [|exact Pw]. intros q Hq. now apply Qlt_le_weak. }
  set (val := fun j => match nth_error (data b) j with Some x => loss x | None => 0 end).
  replace (Rsum _) with (Rsum (map (fun jw => Q2R (snd jw / Qsum (weights b)) * val (fst jw)) (combine (seq 0 (length (weights b))) (weights b)))).
  - apply mean_find; [exact Hw|exact Sp|]. intros j f Ej Hf. destruct (sample_form b [f] Rd ltac:(cbn; lia) ltac:(now constructor)) as (b1 & ds & ps & m & Ed & Es & _ & Hps & _ & Pm & HF & Ll).
    cbn [draws] in Ed. rewrite Ej in Ed. injection Ed as <-. assert (Hj : (j < length (data b))%nat) by (rewrite <- Lw; destruct (cdf_find_bounds _ _ _ Ej) as [H _]; exact H).
    destruct (nth_error (weights b) j) as [v|] eqn:Nv; [|apply nth_error_None in Nv; lia]. unfold val. destruct (nth_error (data b) j) as [x|] eqn:Nx; [|apply nth_error_None in Nx; lia].
    rewrite (at_ixs_cons _ _ _ _ Nv) in Hps. change (at_ixs (weights b) []) with (@nil Q) in Hps. cbn [map] in Hps. inversion Hps as [|p q ps' l' Ep Hps' E1 E2]; subst. inversion Hps'; subst. inversion HF as [|? ? Hmp _]; subst.
    assert (Pp : 0 < Q2R p) by (apply Q2R_pos; Lqa.lra). unfold weighted, prb_sample. cbn [length app]. replace (1 <=? length (data b))%nat with true by (symmetry; apply Nat.leb_le; lia). cbn [passert rbind]. rewrite Es. cbn [rbind].
    rewrite (at_ixs_cons _ _ _ _ Nx). change (at_ixs (data b) []) with (@nil A). unfold weights_from_probabilities. rewrite Nm. cbn [map np_min rbind mapR]. replace (Q2R p / Q2R p) with 1 by (field; lra). rewrite pypow_pos by lra. cbn [rbind combine nth_error]. unfold Rpower. rewrite ln_1, Rmult_0_r, exp_0. ring.
  - f_equal. rewrite Lw. clear - Lw. transitivity (map (fun vx => Q2R (fst vx / Qsum (weights b)) * loss (snd vx)) (combine (weights b) (data b))); [|reflexivity].
    generalize (Qsum (weights b)). intros q. unfold val. assert (G : forall (ws : list Q) (dat pre : list A), length ws = length dat -> map (fun jw => Q2R (snd jw / q) * match nth_error (pre ++ dat) (fst jw) with Some x => loss x | None => 0 end) (combine (seq (length pre) (length dat)) ws) = map (fun vx => Q2R (fst vx / q) * loss (snd vx)) (combine ws dat)).
    { induction ws as [|v ws IH]; intros [|x dat] pre L; cbn in L; try lia; [reflexivity|]. cbn [length seq combine map fst snd]. rewrite nth_error_app2, Nat.sub_diag by lia. cbn [nth_error]. f_equal. specialize (IH dat (pre ++ [x]) ltac:(lia)). rewrite <- app_assoc in IH. cbn [app] in IH. rewrite app_length in IH. cbn [length] in IH. rewrite Nat.add_1_r in IH. exact IH. }
    exact (G (weights b) (data b) [] Lw).
Qed.

(** A function has at most one mean. *)
Lemma steps_le g ps : forall s, steps s ps g -> (s <= 1)%Q.
Proof. induction ps as [|[l v] ps IH]; intros s H; cbn in H; [rewrite H; Lqa.lra|]. destruct H as (H0 & _ & H). specialize (IH _ H). Lqa.lra. Qed.
Lemma steps_comp g ps : forall s s', (s == s')%Q -> steps s ps g -> steps s' ps g.
Proof.
  induction ps as [|[l v] ps IH]; intros s s' E H; cbn in *; [now rewrite <- E|]. destruct H as (H0 & Hg & H). split; [exact H0|]. split; [|apply (IH (s + l)%Q); [now rewrite E|exact H]]. intros f Hf. apply Hg. rewrite E. exact Hf.
Qed.
Definition weight_of (ps : list (Q * R)) : R := Rsum (map (fun p => Q2R (fst p) * snd p) ps).
Lemma steps_end g ps : forall s, (1 <= s)%Q -> steps s ps g -> weight_of ps = 0.
Proof.
  induction ps as [|[l v] ps IH]; intros s Hs H; [reflexivity|]. cbn in H. destruct H as (H0 & _ & H). pose proof (steps_le _ _ _ H). assert (El : (l == 0)%Q) by Lqa.lra. unfold weight_of. cbn [map Rsum fst snd]. rewrite (Qeq_eqR _ _ El). replace (Q2R 0) with 0 by (unfold Q2R; cbn; field). fold (weight_of ps). rewrite (IH (s + l)%Q); [ring| |exact H]. Lqa.lra.
Qed.
Lemma steps_unique g : forall k ps qs s, (length ps + length qs <= k)%nat -> steps s ps g -> steps s qs g -> weight_of ps = weight_of qs.
Proof.
  assert (Z : forall l v ps, (l == 0)%Q -> weight_of ((l, v) :: ps) = weight_of ps). { intros l v ps E. unfold weight_of. cbn [map Rsum fst snd]. rewrite (Qeq_eqR _ _ E). replace (Q2R 0) with 0 by (unfold Q2R; cbn; field). ring. }
  induction k as [|k IH]; intros ps qs s L Hp Hq.
  - destruct ps; [|cbn in L; lia]. destruct qs; [reflexivity|cbn in L; lia].
  - destruct ps as [|[l v] ps]; [cbn in Hp; rewrite (steps_end g qs s); [reflexivity|rewrite Hp; Lqa.lra|exact Hq]|]. destruct qs as [|[m u] qs]; [cbn in Hq; rewrite (steps_end g ((l, v) :: ps) s); [reflexivity|rewrite Hq; Lqa.lra|exact Hp]|].
    pose proof Hp as Hp0. pose proof Hq as Hq0. cbn in Hp, Hq. destruct Hp as (Pl & Gl & Hp). destruct Hq as (Pm & Gm & Hq). cbn [length] in L.
    destruct (Qlt_le_dec 0 l) as [Ll|Ll]; [|assert (El : (l == 0)%Q) by Lqa.lra; rewrite (Z l v ps El); apply (IH ps ((m, u) :: qs) s); [cbn; lia| |exact Hq0]; apply (steps_comp g ps (s + l)%Q); [rewrite El; ring|exact Hp]].
    destruct (Qlt_le_dec 0 m) as [Lm|Lm]; [|assert (Em : (m == 0)%Q) by Lqa.lra; rewrite (Z m u qs Em); apply (IH ((l, v) :: ps) qs s); [cbn; lia|exact Hp0|]; apply (steps_comp g qs (s + m)%Q); [rewrite Em; ring|exact Hq]].
    assert (E : v = u) by (rewrite <- (Gl s ltac:(split; Lqa.lra)); apply Gm; split; Lqa.lra). subst u.
    destruct (Qlt_le_dec m l) as [Lt|Le].
    + assert (H : weight_of (((l - m)%Q, v) :: ps) = weight_of qs). { apply (IH _ _ (s + m)%Q); [cbn; lia| |exact Hq]. cbn. split; [Lqa.lra|]. split; [intros f Hf; apply Gl; Lqa.lra|]. apply (steps_comp g ps (s + l)%Q); [ring|exact Hp]. }
      unfold weight_of in *. cbn [map Rsum fst snd] in *. rewrite Q2R_minus in H. lra.
    + assert (H : weight_of ps = weight_of (((m - l)%Q, v) :: qs)). { apply (IH _ _ (s + l)%Q); [cbn; lia|exact Hp|]. cbn. split; [Lqa.lra|]. split; [intros f Hf; apply Gm; Lqa.lra|]. apply (steps_comp g qs (s + m)%Q); [ring|exact Hq]. }
      unfold weight_of in *. cbn [map Rsum fst snd] in *. rewrite Q2R_minus in H. lra.
Qed.
Lemma mean_unique g m m' : mean g m -> mean g m' -> m = m'.
Proof. intros (ps & Hp & ->) (qs & Hq & ->). exact (steps_unique g _ ps qs 0%Q (le_n _) Hp Hq). Qed.
