(** Lemmas for C50. *)
From Verif Require Import Base P_Base M_RandomAccessQueue P_RandomAccessQueue M_Prioritized S_Prioritized P_PriorityTree
  P_Prioritized M_ReplayBuffer S_ReplayBuffer P_ReplayBuffer M_Episodic S_Episodic P_Episodic.
From Coq Require Import ZifyBool ZifyNat Lqa.
Open Scope nat_scope.

Lemma rbind_ok {A B} (x : result A) (f : A -> result B) y : rbind x f = Ok y -> exists a, x = Ok a /\ f a = Ok y.
Proof. destruct x; cbn; [eauto|discriminate]. Qed.
Ltac rb H := apply rbind_ok in H; let a := fresh "a" in let E := fresh "E" in destruct H as (a & E & H).

Lemma pb_popleft_data {A} (b b' : pbuf A) x : pb_popleft b = Ok (b', x) ->
  data b = x :: data b' /\ capacity b' = capacity b.
Proof.
  unfold pb_popleft. destruct (data b) as [|y t]; [discriminate|]. intros H. rb H. destruct a as [s ?]. rb H. destruct a as [m ?].
  injection H as <- <-. auto.
Qed.
Lemma pb_append_data {A} (b b' : pbuf A) x p : capacity b = None -> pb_append b x p = Ok b' ->
  data b' = data b ++ [x] /\ capacity b' = None.
Proof.
  intros Hc. unfold pb_append. rewrite Hc. cbn [rbind]. intros H. rb H. rb H. injection H as <-. auto.
Qed.
Lemma pb_sample_data {A} (b b' : pbuf A) o u r : pb_sample b o u = Ok (b', r) -> data b' = data b /\ capacity b' = capacity b.
Proof.
  unfold pb_sample. intros H. rb H. rb H. rb H. destruct a1 as [mn|]; [|discriminate].
  destruct (Qeq_bool a0 0); [discriminate|]. rb H. destruct a1 as [[[s1 ui] up] mp]. repeat (rb H; try (destruct a1 as [[? ?] ?]); try (destruct a1 as [? ?])).
  all: try (injection H as <- _; auto).
Qed.
Lemma pb_set_data {A} (b b' : pbuf A) ps : pb_set_last_priority b ps = Ok b' -> data b' = data b /\ capacity b' = capacity b.
Proof.
  unfold pb_set_last_priority. intros H. rb H. rb H. destruct (sampled_indices b); [|discriminate]. rb H. rb H. destruct a2 as [[s m] mp].
  injection H as <-. auto.
Qed.

Section PE.
Context {T : Type}.
Notation tr := (trans T).

Lemma pe_evict_data cap : forall fuel (em em' : pbuf (list tr)) l l', capacity em = None ->
  l = (Z.of_nat cap - Z.of_nat (total (data em)))%Z ->
  pe_evict fuel l em = Ok (em', l') ->
  capacity em' = None /\ l' = (Z.of_nat cap - Z.of_nat (total (data em')))%Z /\ (0 <= l')%Z /\ kept_within (Some cap) (data em) (data em').
Proof.
  induction fuel as [|f IH]; intros em em' l l' Hc Hl; cbn [pe_evict].
  - destruct (l <? 0)%Z eqn:E; [discriminate|]. intros H. injection H as <- <-. split; [auto|]. split; [auto|]. split; [lia|].
    exists 0. split; [reflexivity|]. split; [lia|]. intros; lia.
  - destruct (l <? 0)%Z eqn:E.
    + intros H. rb H. destruct a as [em1 ep]. apply pb_popleft_data in E0 as [Hd Hc1].
      destruct (IH em1 em' (l + Z.of_nat (length ep))%Z l') as (A1 & A2 & A3 & A4); auto; try congruence.
      { rewrite Hl, Hd. unfold total. cbn. rewrite app_length. lia. }
      split; [auto|]. split; [auto|]. split; [auto|]. destruct A4 as (k & B1 & B2 & B3). exists (S k). rewrite Hd. cbn [skipn].
      split; [exact B1|]. split; [exact B2|]. intros [|j] Hj; cbn [skipn]; [|apply B3; lia].
      rewrite <- Hd. lia.
    + intros H. injection H as <- <-. split; [auto|]. split; [auto|]. split; [lia|]. exists 0. split; [reflexivity|]. split; [lia|]. intros; lia.
Qed.

Definition pe_inv (cap : option nat) (past : list (rb_op T)) (fin : list (list tr)) (b : pebuf T) : Prop :=
  (forall e, pe_current b e = snd (episodes e past)) /\
  capacity (pe_episodic b) = None /\
  capacity_left b = option_map (fun c => Z.of_nat c - Z.of_nat (total (data (pe_episodic b))))%Z cap /\
  maxlen (pe_memory b) = cap /\ raq_iter (pe_memory b) = trunc cap (concat fin) /\
  kept_within cap fin (data (pe_episodic b)).

Lemma pe_stop_full cap prio (b b' : pebuf T) e ep fin : pe_current b e = ep -> ep <> [] ->
  capacity (pe_episodic b) = None ->
  capacity_left b = option_map (fun c => Z.of_nat c - Z.of_nat (total (data (pe_episodic b))))%Z cap ->
  maxlen (pe_memory b) = cap -> raq_iter (pe_memory b) = trunc cap (concat fin) ->
  kept_within cap fin (data (pe_episodic b)) ->
  peb_stop prio b e = Ok b' ->
  pe_current b' = upd (pe_current b) e [] /\ capacity (pe_episodic b') = None /\
  capacity_left b' = option_map (fun c => Z.of_nat c - Z.of_nat (total (data (pe_episodic b'))))%Z cap /\
  maxlen (pe_memory b') = cap /\ raq_iter (pe_memory b') = trunc cap (concat (fin ++ [ep])) /\
  kept_within cap (fin ++ [ep]) (data (pe_episodic b')).
Proof.
  intros Hcur Hne Hc Hl Hm Hi Hk. unfold peb_stop. rewrite Hcur.
  destruct ep as [|t0 ep0] eqn:Eep; [congruence|]. rewrite <- Eep in *. clear Hne Eep t0 ep0.
  destruct (raq_extend_spec (pe_memory b) ep) as (m & E1 & I1 & M1). rewrite E1. cbn [rbind].
  intros H. rb H. apply pb_append_data in E as [Hd Hca]; [|exact Hc].
  rewrite Hl in H. destruct cap as [c|]; cbn [option_map] in H.
  - rb H. destruct a0 as [em lf]. injection H as <-. cbn [pe_current pe_episodic capacity_left pe_memory].
    rb E. destruct a0 as [em2 l2]. injection E as <- <-.
    apply (pe_evict_data c) in E0 as (A1 & A2 & A3 & A4); [|exact Hca|].
    2:{ rewrite Hd, total_app. unfold total. cbn. rewrite app_nil_r. lia. }
    split; [auto|]. split; [auto|]. split; [cbn; now rewrite A2|]. split; [congruence|].
    split.
    + rewrite I1, Hi, Hm, trunc_trunc_app, concat_app. cbn. now rewrite app_nil_r.
    + refine (kept_trans (Some c) _ _ _ _ Hk _). now rewrite <- Hd.
  - injection H as <-. cbn [pe_current pe_episodic capacity_left pe_memory].
    split; [auto|]. split; [auto|]. split; [auto|]. split; [congruence|]. split.
    + rewrite I1, Hi, Hm, concat_app. cbn. now rewrite app_nil_r.
    + cbn in *. congruence.
Qed.

Lemma pe_step_inv cap prio past fin b b' o : pe_inv cap past fin b -> peb_step prio b o = Ok b' ->
  pe_inv cap (past ++ storing [o]) (fin ++ finished_from past (storing [o])) b'.
Proof.
  intros (Hcur & Hc & Hl & Hm & Hi & Hk) Hstep.
  destruct o as [e t|e|o u|ps]; cbn [storing flat_map app finished_from peb_step] in *; rewrite ?app_nil_r.
  3:{ rb Hstep. destruct a as [em r]. apply pb_sample_data in E as [Hd Hca]. injection Hstep as <-.
      split; [exact Hcur|]. cbn. rewrite Hd. split; [congruence|]. auto. }
  3:{ rb Hstep. apply pb_set_data in E as [Hd Hca]. injection Hstep as <-.
      split; [exact Hcur|]. cbn. rewrite Hd. split; [congruence|]. auto. }
  all: cbn [env_of];
    assert (Hother : forall o e', e' <> env_of o -> @episodes T e' (past ++ [o]) = episodes e' past) by
      (intros o e' He'; rewrite episodes_snoc; unfold ep_step; destruct (episodes e' past) as [dn cur];
       destruct o as [e0 t0|e0]; cbn in He'; (destruct (Nat.eqb_spec e0 e') as [->|]; [congruence|reflexivity]));
    pose proof (Hcur e) as Hce; rewrite !episodes_snoc;
    destruct (episodes e past) as [dn cur] eqn:Ee; cbn [fst snd ep_step] in *; rewrite Nat.eqb_refl.
  - unfold peb_append in Hstep. rewrite Hce in Hstep. destruct (terminal t) eqn:Et; cbn [fst].
    + rewrite skipn_app_exact. 
      eapply (pe_stop_full cap prio _ b' e (cur ++ [t]) fin) in Hstep; cbn [pe_current pe_episodic capacity_left pe_memory]; auto.
      2:{ unfold upd. now rewrite Nat.eqb_refl. } 2:{ now destruct cur. }
      destruct Hstep as (A1 & A2 & A3 & A4 & A5 & A6). split; [|auto]. intros e'. rewrite A1. cbn. unfold upd.
      destruct (Nat.eqb_spec e' e) as [->|Hne].
      * rewrite episodes_snoc, Ee. cbn. now rewrite Nat.eqb_refl, Et.
      * now rewrite Hother.
    + rewrite skipn_all, app_nil_r. injection Hstep as <-. split; [|auto]. intros e'. cbn. unfold upd.
      destruct (Nat.eqb_spec e' e) as [->|Hne].
      * rewrite episodes_snoc, Ee. cbn. now rewrite Nat.eqb_refl, Et.
      * now rewrite Hother.
  - destruct cur as [|c0 cur'].
    + unfold peb_stop in Hstep. rewrite Hce in Hstep. injection Hstep as <-. cbn [fst]. rewrite skipn_all, app_nil_r.
      split; [|auto]. intros e'. destruct (Nat.eq_dec e' e) as [->|Hne].
      * rewrite episodes_snoc, Ee. cbn. now rewrite Nat.eqb_refl.
      * now rewrite Hother.
    + cbn [fst]. rewrite skipn_app_exact.
      eapply (pe_stop_full cap prio b b' e (c0 :: cur') fin) in Hstep; auto; try discriminate.
      destruct Hstep as (A1 & A2 & A3 & A4 & A5 & A6). split; [|auto]. intros e'. rewrite A1. unfold upd.
      destruct (Nat.eqb_spec e' e) as [->|Hne].
      * rewrite episodes_snoc, Ee. cbn. now rewrite Nat.eqb_refl.
      * now rewrite Hother.
Qed.

Lemma finished_from_app (a c past : list (rb_op T)) : finished_from past (a ++ c) = finished_from past a ++ finished_from (past ++ a) c.
Proof.
  revert past; induction a as [|o a IH]; intros past; cbn [app finished_from].
  - now rewrite app_nil_r.
  - rewrite IH, <- !app_assoc. reflexivity.
Qed.

Lemma pe_run_inv cap prio ops : forall past fin b b', pe_inv cap past fin b -> peb_run prio b ops = Ok b' ->
  pe_inv cap (past ++ storing ops) (fin ++ finished_from past (storing ops)) b'.
Proof.
  induction ops as [|o ops IH]; intros past fin b b' Hb H; cbn [peb_run] in H.
  - injection H as <-. cbn. now rewrite !app_nil_r.
  - rb H. apply (pe_step_inv cap prio past fin) in E; [|exact Hb]. apply (IH _ _ _ _ E) in H.
    assert (Es : storing (o :: ops) = storing [o] ++ storing ops) by (cbn; now rewrite app_nil_r).
    rewrite Es, finished_from_app, !app_assoc. rewrite <- !app_assoc in *. exact H.
Qed.

Lemma pe_init_inv cap wait b0 : peb_init cap wait = Ok b0 -> pe_inv cap [] [] b0.
Proof.
  unfold peb_init. destruct (raq_init_spec (A := tr) cap []) as (q & E & I & M). rewrite E. cbn [rbind]. intros H. injection H as <-.
  split; [reflexivity|]. cbn [pe_episodic capacity_left pe_memory pb_init capacity data]. split; [reflexivity|].
  split; [destruct cap as [c|]; cbn; [f_equal; lia|reflexivity]|]. split; [exact M|]. split; [exact I|].
  destruct cap; [|reflexivity]. exists 0. cbn. repeat split; lia.
Qed.

Lemma kept_suffix {A} cap (eps kept : list (list A)) : kept_within cap eps kept ->
  exists pre, trunc cap (concat eps) = pre ++ concat kept.
Proof.
  destruct cap as [c|]; cbn; [|intros ->; exists []; reflexivity].
  intros (k & -> & Hle & _). exists (lastn (c - total (skipn k eps)) (concat (firstn k eps))).
  rewrite <- (firstn_skipn k eps) at 1. rewrite concat_app. rewrite lastn_app. f_equal.
  apply lastn_all. exact Hle.
Qed.

Lemma prioritized_episodic_accounting cap wait prio (ops : list (pe_op T)) b0 b :
  peb_init cap wait = Ok b0 -> peb_run prio b0 ops = Ok b ->
  let fin := finished (storing ops) in
  kept_within cap fin (data (pe_episodic b)) /\
  raq_iter (pe_memory b) = trunc cap (concat fin) /\
  (exists pre, raq_iter (pe_memory b) = pre ++ concat (data (pe_episodic b))) /\
  capacity_left b = option_map (fun c => Z.of_nat c - Z.of_nat (total (data (pe_episodic b))))%Z cap.
Proof.
  intros H0 H. apply pe_init_inv in H0. apply (pe_run_inv cap prio ops [] [] _ _ H0) in H. cbn [app] in H.
  destruct H as (_ & _ & Hl & _ & Hi & Hk). cbn zeta. unfold finished. split; [exact Hk|]. split; [exact Hi|]. split; [|exact Hl].
  rewrite Hi. now apply kept_suffix.
Qed.

(** Appending never fails (for positive default priorities). *)
Lemma pe_evict_total : forall fuel (em : pbuf (list tr)) s l, pb_rel em s -> capacity em = None ->
  length (data em) < fuel -> (- Z.of_nat (total (data em)) <= l)%Z ->
  exists em' l' s', pe_evict fuel l em = Ok (em', l') /\ pb_rel em' s' /\ capacity em' = None /\ max_priority em' = max_priority em.
Proof.
  induction fuel as [|f IH]; intros em s l HR Hc Hf Hl; [lia|]. cbn [pe_evict]. destruct (l <? 0)%Z eqn:E; [|eauto 10].
  destruct (data em) as [|ep r] eqn:Ed; [unfold total in Hl; cbn in Hl; lia|].
  pose proof HR as (Hc' & Hd & Hs & Hm & Hx & _).
  assert (Est : exists s1, sb_step s PPopleft = Some (s1, PVal ep) /\ s_cap s1 = s_cap s /\ s_max s1 = s_max s).
  { cbn. rewrite <- Hd, Ed. eexists. split; [reflexivity|]. auto. }
  destruct Est as (s1 & Est & Hcs & Hms). destruct (pb_step_refines em s PPopleft _ _ HR Est) as [Hout HR1]. cbn [pb_step] in Hout, HR1.
  destruct (pb_popleft em) as [[em1 ep1]|x] eqn:Ep; cbn in Hout; [|discriminate]. cbn in HR1. injection Hout as ->. cbn [rbind].
  apply pb_popleft_data in Ep as [Hd1 Hc1]. rewrite Ed in Hd1. injection Hd1 as ->.
  pose proof HR1 as (_ & _ & _ & _ & Hx1 & _).
  destruct (IH em1 s1 (l + Z.of_nat (length ep))%Z HR1) as (em2 & l2 & s2 & E2 & HR2 & Hc2 & Hm2).
  - congruence.
  - cbn in Hf. lia.
  - unfold total in *. cbn in Hl. rewrite app_length in Hl. lia.
  - exists em2, l2, s2. split; [exact E2|]. split; [exact HR2|]. split; [exact Hc2|]. congruence.
Qed.

Definition pe_good (cap : option nat) (past : list (rb_op T)) (fin : list (list tr)) (b : pebuf T) : Prop :=
  pe_inv cap past fin b /\ (exists s, pb_rel (pe_episodic b) s) /\ (0 < max_priority (pe_episodic b))%Q.

Lemma pe_stop_total cap prio (b : pebuf T) e ep s : pe_current b e = ep ->
  (forall f ep, prio = Some f -> (0 < f ep)%Q) ->
  capacity (pe_episodic b) = None ->
  capacity_left b = option_map (fun c => Z.of_nat c - Z.of_nat (total (data (pe_episodic b))))%Z cap ->
  pb_rel (pe_episodic b) s -> (0 < max_priority (pe_episodic b))%Q ->
  exists b' s', peb_stop prio b e = Ok b' /\ pb_rel (pe_episodic b') s' /\ (0 < max_priority (pe_episodic b'))%Q.
Proof.
  intros Hcur Hp Hc Hl HR Hmp. unfold peb_stop. rewrite Hcur. destruct ep as [|t0 ep0] eqn:Eep; [eauto|]. rewrite <- Eep in *. clear Eep t0 ep0.
  destruct (raq_extend_spec (pe_memory b) ep) as (m & E1 & I1 & M1). rewrite E1. cbn [rbind].
  pose proof HR as (Hc' & Hd & _ & _ & Hx & _). rewrite Hc in Hc'.
  set (p := match option_map (fun f => f ep) prio with None => s_max s | Some p => p end).
  assert (Hpp : (0 < p)%Q).
  { unfold p. destruct prio as [f|]; cbn; [now apply (Hp f)|]. now rewrite <- Hx. }
  assert (Est : sb_step s (PAppend ep (option_map (fun f => f ep) prio)) =
     Some (mkSb (s_cap s) (trunc (s_cap s) (s_vals s ++ [ep])) (trunc (s_cap s) (s_ws s ++ [p])) (trunc (s_cap s) (s_ps s ++ [p]))
            (s_max s) (s_wait s) (s_flag s) (s_sampled s), PNone)).
  { cbn [sb_step]. fold p. replace (Qltb 0 p) with true by (symmetry; now apply Qltb_lt). cbn [negb]. now rewrite <- Hc'. }
  destruct (pb_step_refines (pe_episodic b) s _ _ _ HR Est) as [Hout HR1]. cbn [pb_step] in Hout, HR1.
  destruct (pb_append (pe_episodic b) ep (option_map (fun f => f ep) prio)) as [em|x] eqn:Ea; cbn in Hout; [|discriminate]. cbn in HR1. cbn [rbind].
  apply pb_append_data in Ea as [Hd2 Hc2]; [|exact Hc].
  pose proof HR1 as (_ & _ & _ & _ & Hx1 & _). cbn in Hx1.
  rewrite Hl. destruct cap as [c|]; cbn [option_map].
  - destruct (pe_evict_total (S (length (data em))) em _ (Z.of_nat c - Z.of_nat (total (data (pe_episodic b))) - Z.of_nat (length ep))%Z HR1 Hc2) as (em2 & l2 & s2 & E2 & HR2 & _ & Hm2).
    + lia.
    + rewrite Hd2, total_app. unfold total. cbn. rewrite app_nil_r. lia.
    + rewrite E2. cbn [rbind]. eexists _, s2. split; [reflexivity|]. cbn. split; [exact HR2|]. now rewrite Hm2, Hx1, <- Hx.
  - cbn [rbind]. eexists _, _. split; [reflexivity|]. cbn. split; [exact HR1|]. now rewrite Hx1, <- Hx.
Qed.

Lemma pe_run_total cap prio (ops : list (rb_op T)) : (forall f ep, prio = Some f -> (0 < f ep)%Q) ->
  forall past fin b, pe_good cap past fin b ->
  exists b', peb_run prio b (map (fun o => match o with RAppend e t => PEAppend e t | RStop e => PEStop e end) ops) = Ok b'.
Proof.
  intros Hp. induction ops as [|o ops IH]; intros past fin b Hb; cbn [map peb_run]; [eauto|].
  assert (Hs : exists b1, peb_step prio b (match o with RAppend e t => PEAppend e t | RStop e => PEStop e end) = Ok b1 /\
              (exists s, pb_rel (pe_episodic b1) s) /\ (0 < max_priority (pe_episodic b1))%Q).
  { destruct Hb as ((Hcur & Hc & Hl & _) & (s & HR) & Hmp). destruct o as [e t|e]; cbn [peb_step].
    - unfold peb_append. destruct (terminal t).
      + match goal with |- context [peb_stop prio ?b0 e] => destruct (pe_stop_total cap prio b0 e _ s eq_refl Hp Hc Hl HR Hmp) as (b1 & s1 & E1 & A & B) end.
        exists b1. eauto.
      + eexists. split; [reflexivity|]. cbn. eauto.
    - destruct (pe_stop_total cap prio b e _ s eq_refl Hp Hc Hl HR Hmp) as (b1 & s1 & E1 & A & B). eauto. }
  destruct Hs as (b1 & E1 & HR1 & Hm1). rewrite E1. cbn [rbind].
  eapply IH. split; [eapply pe_step_inv; [apply Hb|exact E1]|]. auto.
Qed.

Lemma prioritized_episodic_never_fails cap wait prio (ops : list (rb_op T)) :
  (forall f ep, prio = Some f -> (0 < f ep)%Q) ->
  exists b0 b, peb_init cap wait = Ok b0 /\
    peb_run prio b0 (map (fun o => match o with RAppend e t => PEAppend e t | RStop e => PEStop e end) ops) = Ok b.
Proof.
  intros Hp. destruct (raq_init_spec (A := tr) cap []) as (q & E & I & M).
  assert (E0 : exists b0, peb_init (T := T) cap wait = Ok b0 /\ pe_episodic b0 = pb_init None wait 1%Q).
  { unfold peb_init. rewrite E. cbn [rbind]. eexists. split; [reflexivity|]. reflexivity. }
  destruct E0 as (b0 & E0 & Ee). destruct (pe_run_total cap prio ops Hp [] [] b0) as (b & Eb).
  { split; [eapply pe_init_inv; exact E0|]. rewrite Ee. split; [eexists; apply pb_init_rel|]. cbn. lra. }
  exists b0, b. auto.
Qed.
End PE.

Definition pe_witness : list (pe_op nat) :=
  [PEAppend 0 (mkTrans 1 false); PEAppend 0 (mkTrans 2 true); PEAppend 0 (mkTrans 3 false); PEAppend 0 (mkTrans 4 true)].
Lemma flat_memory_differs :
  (forall cap wait (ops : list (pe_op nat)) b0 b, peb_init cap wait = Ok b0 -> peb_run None b0 ops = Ok b ->
    raq_iter (pe_memory b) = concat (data (pe_episodic b))) -> False.
Proof.
  intros H.
  assert (E : (b0 <- peb_init (Some 3) true ;; b <- peb_run None b0 pe_witness ;;
               Ok (map payload (raq_iter (pe_memory b)), map payload (concat (data (pe_episodic b))))) = Ok ([2; 3; 4], [3; 4]))
    by (vm_compute; reflexivity).
  destruct (peb_init (Some 3) true) as [b0|x] eqn:E0; cbn [rbind] in E; [|discriminate].
  destruct (peb_run None b0 pe_witness) as [b|x] eqn:E1; cbn [rbind] in E; [|discriminate].
  injection E as Ea Eb. rewrite (H _ _ _ _ _ E0 E1), Eb in Ea. discriminate.
Qed.
