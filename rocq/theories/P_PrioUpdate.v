(** Lemmas for C124. *)
From Coq Require Import QArith Qminmax ZifyBool ZifyNat Lqa.
From Verif Require Import Base P_Base M_RandomAccessQueue M_Prioritized S_Prioritized P_PriorityTree P_Prioritized P_PrioritizedProps
  M_ReplayBuffer S_ReplayBuffer P_ReplayBuffer P_ActorLearner M_PriorityWeights M_PrioUpdate S_PrioUpdate.
Open Scope nat_scope.

(** *** Every experience has its own name *)
Definition trans_of (e : nat) (past : list (rb_op nat)) : list (trans nat) :=
  flat_map (fun o => match o with RAppend e' t => if e' =? e then [t] else [] | RStop _ => [] end) past.
Definition payloads (past : list (rb_op nat)) : list nat :=
  flat_map (fun o => match o with RAppend _ t => [payload t] | RStop _ => [] end) past.

Lemma episodes_all e past : concat (fst (episodes e past)) ++ snd (episodes e past) = trans_of e past.
Proof.
  induction past as [|o past IH] using rev_ind; [reflexivity|]. unfold trans_of in *. rewrite episodes_snoc, flat_map_app. cbn [flat_map].
  rewrite app_nil_r, <- IH. destruct (episodes e past) as [dn cur]. destruct o as [e' t|e']; cbn [ep_step fst snd].
  - destruct (e' =? e); cbn [fst snd]; [|now rewrite app_nil_r]. destruct (terminal t); cbn [fst snd].
    + rewrite concat_app. cbn [concat]. now rewrite !app_nil_r, app_assoc.
    + now rewrite app_assoc.
  - destruct (e' =? e); cbn [fst snd]; [|now rewrite app_nil_r]. destruct cur as [|c cur]; cbn [fst snd]; [now rewrite !app_nil_r|].
    rewrite concat_app. cbn [concat]. now rewrite !app_nil_r.
Qed.

Lemma windows_cons n (x : trans nat) ep : windows n (x :: ep) = firstn n (x :: ep) :: windows n ep.
Proof.
  unfold windows. cbn [length seq map]. f_equal. rewrite <- seq_shift, map_map. reflexivity.
Qed.
Lemma names_windows n ep : 0 < n -> map name (windows n ep) = map payload ep.
Proof.
  intros Hn. induction ep as [|x ep IH]; [reflexivity|]. rewrite windows_cons. cbn [map]. rewrite IH. destruct n; [lia|]. reflexivity.
Qed.
Lemma windows_ne n ep : 0 < n -> Forall (fun w : nwindow => w <> []) (windows n ep).
Proof.
  intros Hn. induction ep as [|x ep IH]; [constructor|]. rewrite windows_cons. constructor; [|exact IH]. destruct n; [lia|]. discriminate.
Qed.

Lemma names_stored n e past : 0 < n -> exists rest, map name (stored n e past) ++ rest = map payload (trans_of e past).
Proof.
  intros Hn. unfold stored. rewrite map_app, <- (episodes_all e past), map_app, concat_map.
  exists (map name (sufs (skipn (length (snd (episodes e past)) + 1 - n) (snd (episodes e past))))).
  rewrite <- app_assoc, <- map_app, <- windows_split, names_windows by exact Hn. f_equal.
  induction (fst (episodes e past)) as [|ep eps IH]; [reflexivity|]. cbn [flat_map map concat]. rewrite map_app, names_windows by exact Hn. now rewrite IH.
Qed.
Lemma stored_ne n e past : 0 < n -> Forall (fun w : nwindow => w <> []) (stored n e past).
Proof.
  intros Hn. unfold stored. apply Forall_app. split.
  - induction (fst (episodes e past)) as [|ep eps IH]; [constructor|]. cbn [flat_map]. apply Forall_app. split; [now apply windows_ne|exact IH].
  - pose proof (windows_ne n (snd (episodes e past)) Hn) as H. rewrite windows_split in H by exact Hn. now apply Forall_app in H.
Qed.

Lemma log_entry n e (w : nwindow) past : 0 < n -> In (e, w) (log n past) -> w <> [] /\ exists t, In (RAppend e t) past /\ payload t = name w.
Proof.
  intros Hn Hin. assert (Hs : In w (stored n e past)).
  { rewrite <- (log_env nat n e past Hn). apply in_map_iff. exists (e, w). split; [reflexivity|]. apply filter_In. split; [exact Hin|]. cbn. apply Nat.eqb_refl. }
  split. { pose proof (stored_ne n e past Hn) as F. rewrite Forall_forall in F. now apply F. }
  destruct (names_stored n e past Hn) as (rest & E). assert (Hi : In (name w) (map payload (trans_of e past))).
  { rewrite <- E. apply in_or_app. left. apply in_map. exact Hs. }
  apply in_map_iff in Hi. destruct Hi as (t & Et & Ht). exists t. split; [|exact Et]. apply in_flat_map in Ht. destruct Ht as ([e' t'|e'] & Ho & Ht); [|destruct Ht].
  destruct (Nat.eqb_spec e' e); [|destruct Ht]. destruct Ht as [<-|[]]. subst. exact Ho.
Qed.

Lemma payloads_env past e e' t t' : NoDup (payloads past) -> In (RAppend e t) past -> In (RAppend e' t') past -> payload t = payload t' -> e = e'.
Proof.
  induction past as [|o past IH]; intros Hnd H1 H2 E; [destruct H1|]. unfold payloads in Hnd. cbn [flat_map] in Hnd. fold (payloads past) in Hnd.
  assert (Hin : forall e t, In (RAppend e t) past -> In (payload t) (payloads past)).
  { intros e0 t0 H. apply in_flat_map. exists (RAppend e0 t0). split; [exact H|]. left. reflexivity. }
  destruct H1 as [->|H1], H2 as [H2|H2].
  - congruence.
  - cbn in Hnd. inversion Hnd; subst. exfalso. match goal with H : ~ _ |- _ => apply H end. rewrite E. eauto.
  - subst o. cbn in Hnd. inversion Hnd; subst. exfalso. match goal with H : ~ _ |- _ => apply H end. rewrite <- E. eauto.
  - apply IH; auto. destruct o; cbn in Hnd; [inversion Hnd; assumption|exact Hnd].
Qed.

Lemma trans_payloads e past : NoDup (payloads past) -> NoDup (map payload (trans_of e past)).
Proof.
  induction past as [|o past IH]; intros H; [constructor|]. unfold payloads in H. cbn [flat_map] in H. fold (payloads past) in H.
  unfold trans_of. cbn [flat_map]. fold (trans_of e past). destruct o as [e' t|e']; cbn [app] in *; [|auto].
  inversion H as [|? ? Hn Hnd]; subst. destruct (e' =? e); cbn [app]; [|auto]. cbn [map]. constructor; [|auto]. intros Hin. apply Hn.
  apply in_map_iff in Hin. destruct Hin as (t' & Et & Ht). apply in_flat_map in Ht. destruct Ht as ([e0 t0|e0] & Ho & Ht); [|destruct Ht].
  destruct (e0 =? e); [|destruct Ht]. destruct Ht as [<-|[]]. apply in_flat_map. exists (RAppend e0 t0). split; [exact Ho|]. left. exact Et.
Qed.

Lemma NoDup_by_class {X} (f : nat * X -> nat) (L : list (nat * X)) :
  (forall e, NoDup (map f (filter (fun p => fst p =? e) L))) -> (forall p q, In p L -> In q L -> f p = f q -> fst p = fst q) -> NoDup (map f L).
Proof.
  induction L as [|p L IH]; intros H1 H2; [constructor|]. cbn [map]. constructor.
  - intros Hin. apply in_map_iff in Hin. destruct Hin as (q & E & Hq). assert (Ef : fst q = fst p) by (apply H2; [right|left|]; auto).
    specialize (H1 (fst p)). cbn [filter] in H1. rewrite Nat.eqb_refl in H1. cbn [map] in H1. inversion H1 as [|? ? Hn _]; subst. apply Hn.
    rewrite <- E. apply in_map. apply filter_In. split; [exact Hq|]. rewrite Ef. apply Nat.eqb_refl.
  - apply IH; [|intros; apply H2; auto; right; assumption]. intros e. specialize (H1 e). cbn [filter] in H1. destruct (fst p =? e); [|exact H1].
    cbn [map] in H1. inversion H1; assumption.
Qed.

Lemma NoDup_prefix {X} (a b : list X) : NoDup (a ++ b) -> NoDup a.
Proof. induction a as [|x a IH]; intros H; [constructor|]. cbn in H. inversion H; subst. constructor; [|auto]. intros C. apply H2. apply in_or_app. auto. Qed.
Lemma NoDup_suffix {X} (a b : list X) : NoDup (a ++ b) -> NoDup b.
Proof. induction a as [|x a IH]; intros H; [exact H|]. cbn in H. inversion H; subst. auto. Qed.

Lemma names_log n past : 0 < n -> NoDup (payloads past) ->
  NoDup (map name (map snd (log n past))) /\ Forall (fun w : nwindow => w <> []) (map snd (log n past)).
Proof.
  intros Hn Hp. split.
  - rewrite map_map. apply NoDup_by_class.
    + intros e. rewrite <- (map_map snd name), (log_env nat n e past Hn). destruct (names_stored n e past Hn) as (rest & E).
      apply NoDup_prefix with rest. rewrite E. now apply trans_payloads.
    + intros [e w] [e' w'] H H' E. cbn in *. destruct (log_entry n e w past Hn H) as (_ & t & Ht & Et). destruct (log_entry n e' w' past Hn H') as (_ & t' & Ht' & Et').
      apply (payloads_env past e e' t t' Hp Ht Ht'). congruence.
  - apply Forall_forall. intros w Hw. apply in_map_iff in Hw. destruct Hw as ([e w'] & <- & Hw). apply (log_entry n e w' past Hn Hw).
Qed.

Lemma log_snoc n past o : log n (past ++ [o]) = log n past ++ map (pair (env_of o)) (newly n past o).
Proof.
  unfold log. assert (H : forall p, log_from n p (past ++ [o]) = log_from n p past ++ map (pair (env_of o)) (newly n (p ++ past) o)); [|exact (H [])].
  induction past as [|a past IH]; intros p.
  - cbn [app log_from]. rewrite !app_nil_r. reflexivity.
  - cbn [app log_from]. rewrite IH, <- !app_assoc. reflexivity.
Qed.
Lemma log_snoc_windows n past o : map snd (log n (past ++ [o])) = map snd (log n past) ++ newly n past o.
Proof. now rewrite log_snoc, map_app, map_snd_pair. Qed.

Lemma payloads_snoc past o : payloads (past ++ [o]) = payloads past ++ match o with RAppend _ t => [payload t] | RStop _ => [] end.
Proof. unfold payloads. rewrite flat_map_app. cbn [flat_map]. now rewrite app_nil_r. Qed.

(** *** Truncation *)
Lemma trunc_map {X Y} (f : X -> Y) c l : map f (trunc c l) = trunc c (map f l).
Proof. destruct c as [c|]; [|reflexivity]. cbn [trunc]. unfold lastn. now rewrite skipn_map, map_length. Qed.
Lemma trunc_suffix {X} c (l : list X) : exists a, l = a ++ trunc c l.
Proof. destruct c as [c|]; [|exists []; reflexivity]. cbn [trunc]. unfold lastn. exists (firstn (length l - c) l). now rewrite firstn_skipn. Qed.
Lemma trunc_Forall {X} (P : X -> Prop) c l : Forall P l -> Forall P (trunc c l).
Proof. intros H. destruct (trunc_suffix c l) as (a & E). rewrite E in H. now apply Forall_app in H. Qed.
Lemma trunc_NoDup {X} c (l : list X) : NoDup l -> NoDup (trunc c l).
Proof. intros H. destruct (trunc_suffix c l) as (a & E). rewrite E in H. exact (NoDup_suffix _ _ H). Qed.

(** *** The buffer follows the history *)
Section Good.
Variable cap : option nat.
Variable pr : Q -> Q.
Hypothesis pr_pos : forall e, (0 <= e)%Q -> (0 < pr e)%Q.

Definition good (h : list event) (s : sbuf nwindow) : Prop :=
  s_cap s = cap /\ s_wait s = true /\ s_flag s = false /\ s_ws s = s_ps s /\ s_max s = highest pr h /\ (0 < s_max s)%Q /\ Forall (Qlt 0) (s_ps s) /\
  map (fun x => priority pr h (name x)) (s_vals s) = map Some (s_ps s) /\ NoDup (map name (s_vals s)) /\ Forall (fun w : nwindow => w <> []) (s_vals s).

Lemma good_append h s x : good h s -> x <> [] -> NoDup (map name (s_vals s ++ [x])) -> good (Stored (name x) :: h) (appended s x).
Proof.
  intros (Hc & Hw & Hf & Hs & Hm & Hm0 & Hp & Hv & Hnd & Hne) Hx Hn. unfold good, appended. cbn.
  rewrite Hs. splits; auto.
  - apply trunc_Forall. apply Forall_app. split; [exact Hp|]. constructor; [exact Hm0|constructor].
  - rewrite !trunc_map. f_equal. rewrite !map_app. cbn [map]. rewrite Nat.eqb_refl, Hm. f_equal. rewrite <- Hv. apply map_ext_in. intros y Hy.
    destruct (Nat.eqb_spec (name x) (name y)) as [E|E]; [|reflexivity]. exfalso. rewrite map_app in Hn. cbn in Hn. apply NoDup_remove_2 in Hn. apply Hn.
    rewrite app_nil_r, E. now apply in_map.
  - rewrite trunc_map. now apply trunc_NoDup.
  - apply trunc_Forall. apply Forall_app. auto.
Qed.

Hypothesis cap0 : cap <> Some 0.

Lemma good_appends ws : forall h b s, pb_rel b s -> good h s -> Forall (fun w : nwindow => w <> []) ws -> NoDup (map name (s_vals s ++ ws)) ->
  exists b' s', mem_appends pb_append_default b ws = Ok b' /\ pb_rel b' s' /\ good (rev (map (fun w => Stored (name w)) ws) ++ h) s' /\ s_vals s' = trunc cap (s_vals s ++ ws).
Proof.
  induction ws as [|w ws IH]; intros h b s HR HG Hne Hnd; cbn [mem_appends].
  - exists b, s. split; [reflexivity|]. split; [exact HR|]. split; [exact HG|]. rewrite app_nil_r.
    destruct HR as (_ & _ & _ & _ & _ & _ & _ & _ & _ & _ & _ & Hcap). destruct HG as (Hc & _). rewrite Hc in Hcap. destruct cap; [|reflexivity]. cbn [trunc]. now rewrite lastn_all.
  - inversion Hne as [|? ? Hw Hws]; subst. pose proof HG as (Hc & Hwt & Hf & Hs & Hm & Hm0 & Hp & Hv & Hndv & Hnev).
    destruct (append_rel b s w HR Hm0 ltac:(congruence)) as (b1 & E1 & HR1). unfold pb_append_default at 1. rewrite E1. cbn [rbind].
    replace (s_vals s ++ w :: ws) with ((s_vals s ++ [w]) ++ ws) in Hnd by now rewrite <- app_assoc.
    assert (Hnd1 : NoDup (map name (s_vals s ++ [w]))) by (rewrite map_app in Hnd; exact (NoDup_prefix _ _ Hnd)).
    pose proof (good_append h s w HG Hw Hnd1) as HG1.
    destruct (IH _ b1 (appended s w) HR1 HG1 Hws) as (b2 & s2 & E2 & HR2 & HG2 & V2).
    { unfold appended. cbn [s_vals]. destruct (trunc_suffix (s_cap s) (s_vals s ++ [w])) as (a & Ea). rewrite Ea, <- app_assoc, map_app in Hnd. exact (NoDup_suffix _ _ Hnd). }
    exists b2, s2. split; [exact E2|]. split; [exact HR2|]. split.
    + cbn [map rev]. rewrite <- app_assoc. exact HG2.
    + rewrite V2. unfold appended. cbn [s_vals]. rewrite Hc, trunc_trunc_app, <- app_assoc. reflexivity.
Qed.
End Good.

(** *** Weights are read back as they were written *)
Lemma write_other : forall xs ws h h' i, write_weights h xs ws = Ok h' -> ~ In i (map name xs) -> h' i = h i.
Proof.
  induction xs as [|x xs IH]; intros [|w ws] h h' i E Hi; cbn in E.
  - now injection E as <-.
  - now injection E as <-.
  - destruct x as [|t x]; now injection E as <-.
  - destruct x as [|t x]; [discriminate|]. rewrite (IH _ _ _ _ E) by (intros C; apply Hi; right; exact C). unfold upd. cbn in Hi.
    destruct (Nat.eqb_spec i (payload t)); [|reflexivity]. exfalso. apply Hi. left. congruence.
Qed.

Lemma write_read xs : forall ws h, Forall (fun w : nwindow => w <> []) xs -> length ws = length xs -> NoDup (map name xs) ->
  exists h', write_weights h xs ws = Ok h' /\ read_weights h' xs = Ok ws.
Proof.
  induction xs as [|x xs IH]; intros [|w ws] h Hne Hl Hnd; try discriminate.
  - exists h. auto.
  - inversion Hne as [|? ? Hx Hxs]; subst. destruct x as [|t x]; [congruence|]. cbn [map name] in Hnd. inversion Hnd as [|? ? Hni Hnd']; subst. cbn [write_weights].
    destruct (IH ws (upd h (payload t) (Some w)) Hxs ltac:(cbn in Hl; lia) Hnd') as (h' & E & R). exists h'. split; [exact E|].
    cbn [read_weights read_weight]. rewrite (write_other _ _ _ _ _ E Hni). unfold upd at 1. rewrite Nat.eqb_refl. cbn [rbind]. rewrite R. reflexivity.
Qed.

(** *** An update *)
Lemma Qltb_dec m p : (if Qltb m p then p else m) = (if Qlt_le_dec m p then p else m).
Proof.
  destruct (Qltb m p) eqn:E; destruct (Qlt_le_dec m p) as [L|L]; auto.
  - apply Qltb_lt in E. lra.
  - apply not_true_iff_false in E. exfalso. apply E. now apply Qltb_lt.
Qed.
Lemma highest_learned pr (f : nwindow -> nat) err xs : forall h,
  highest pr (rev (map (fun x => Learned (f x) (err x)) xs) ++ h) = Qmaxl (highest pr h) (map (fun x => pr (err x)) xs).
Proof.
  induction xs as [|x xs IH]; intros h; [reflexivity|]. cbn [map rev]. rewrite <- app_assoc. cbn [app]. rewrite IH. unfold Qmaxl. cbn [fold_left highest].
  now rewrite Qltb_dec.
Qed.
Lemma priority_other pr (f : nwindow -> nat) err xs i : forall h, ~ In i (map f xs) -> priority pr (rev (map (fun x => Learned (f x) (err x)) xs) ++ h) i = priority pr h i.
Proof.
  induction xs as [|x xs IH]; intros h H; [reflexivity|]. cbn [map rev]. rewrite <- app_assoc. cbn [app]. rewrite IH by (intros C; apply H; right; exact C).
  cbn [priority]. destruct (Nat.eqb_spec (f x) i); [|reflexivity]. exfalso. apply H. left. assumption.
Qed.
Lemma priority_learned pr (f : nwindow -> nat) err xs : forall h x, NoDup (map f xs) -> In x xs ->
  priority pr (rev (map (fun x => Learned (f x) (err x)) xs) ++ h) (f x) = Some (pr (err x)).
Proof.
  induction xs as [|y xs IH]; intros h x Hnd Hin; [destruct Hin|]. cbn [map] in Hnd. inversion Hnd as [|? ? Hni Hnd']; subst.
  cbn [map rev]. rewrite <- app_assoc. cbn [app]. destruct Hin as [->|Hin]; [|now apply IH].
  rewrite priority_other by exact Hni. cbn [priority]. now rewrite Nat.eqb_refl.
Qed.

Lemma npos_all ws : Forall (Qlt 0) ws -> npos ws = length ws.
Proof. unfold npos. induction 1 as [|w ws H F IH]; [reflexivity|]. cbn [filter]. apply Qltb_lt in H. rewrite H. cbn. congruence. Qed.

Lemma nth_error_map' {X Y} (f : X -> Y) l i : nth_error (map f l) i = option_map f (nth_error l i).
Proof. revert i. induction l as [|x l IH]; intros [|i]; cbn; auto. Qed.

Lemma assign_zero ixs ps l : NoDup ixs -> Forall (fun i => i < length l) ixs -> length ixs = length ps -> assign (zero_at l ixs) ixs ps = assign l ixs ps.
Proof.
  intros Hn Hb Hl. 
  pose proof (assign_updated ixs (zero_at l ixs) l ps Hn Hb Hl (zero_at_length _ _) (fun i H => zero_at_other l ixs i H)) as (L1 & A1 & B1).
  pose proof (assign_updated ixs l l ps Hn Hb Hl eq_refl (fun i _ => eq_refl)) as (L2 & A2 & B2).
  apply list_ext. intros j. destruct (in_dec Nat.eq_dec j ixs) as [Hin|Hni].
  - apply In_nth_error in Hin. destruct Hin as (k & Ek). assert (Hk : k < length ps) by (rewrite <- Hl; apply nth_error_Some; congruence).
    destruct (nth_error ps k) as [p|] eqn:Ep; [|apply nth_error_None in Ep; lia]. rewrite (A1 k j p Ek Ep), (A2 k j p Ek Ep). reflexivity.
  - now rewrite B1, B2.
Qed.

Lemma qnp_min_least l : l <> [] -> exists m, qnp_min l = Ok m /\ (exists x, In x l /\ m == x)%Q /\ forall x, In x l -> (m <= x)%Q.
Proof.
  induction l as [|x l IH]; intros H; [congruence|]. destruct l as [|y l].
  - exists x. split; [reflexivity|]. split; [exists x; split; [left; reflexivity|reflexivity]|]. intros z [<-|[]]. lra.
  - destruct (IH ltac:(discriminate)) as (m & E & (z & Hz & Ez) & Hle). change (qnp_min (x :: y :: l)) with (rbind (qnp_min (y :: l)) (fun m => Ok (Qmin x m))).
    rewrite E. exists (Qmin x m). split; [reflexivity|]. split.
    + destruct (Q.min_spec x m) as [[L Em]|[L Em]]; [exists x; split; [left; reflexivity|exact Em]|exists z; split; [right; exact Hz|rewrite Em; exact Ez]].
    + intros u [<-|Hu]; [apply Q.le_min_l|]. eapply Qle_trans; [apply Q.le_min_r|]. now apply Hle.
Qed.

Lemma weights_spec pow w (len : nat) ds (ps : list Q) P m : pow_ok pow -> ds <> [] -> length ps = len -> 0 < len -> Forall (Qlt 0) ps ->
  let prob i := (nth i ps 0 / Qsum ps)%Q in
  Forall2 (fun i p => p == prob i)%Q ds P -> (m == Qminl 0 ps / Qsum ps)%Q ->
  exists w' ws, qweights pow w len P m = Ok (w', ws) /\
    w' = mkQw (qalpha w) (Qmin 1 (qbeta w + qbeta_add w)) (qbeta_add w) (qeps w) (qnorm w) (qerror_min w) (qerror_max w) /\
    exists base, baseline (qnorm w) (map prob ds) (map (fun p => p / Qsum ps)%Q ps) base /\
      Forall2 (fun i wt => wt == pow (prob i / base) (- qbeta w))%Q ds ws.
Proof.
  intros (Hp0 & Hpe) Hds Hlen Hl0 Hps prob F Hm.
  assert (Htot : (0 < Qsum ps)%Q).
  { apply npos_sum; [eapply Forall_impl; [|exact Hps]; intros; cbn in *; lra|]. rewrite npos_all by exact Hps. lia. }
  assert (Hdiv : forall a b, (a <= b)%Q -> (a / Qsum ps <= b / Qsum ps)%Q).
  { intros a b H. unfold Qdiv. apply Qmult_le_compat_r; [exact H|]. apply Qlt_le_weak. now apply Qinv_lt_0_compat. }
  assert (Hmap : forall base, Forall2 (fun i wt => wt == pow (prob i / base) (- qbeta w))%Q ds (map (fun p => pow (p / base) (- qbeta w))%Q P)).
  { intros base. clear -F Hpe. induction F as [|i p ds P E F IH]; cbn [map]; constructor; [|exact IH]. apply Hpe; [|reflexivity]. now rewrite E. }
  unfold qweights. destruct (qnorm w) eqn:En; cbn [rbind].
  - eexists _, _. split; [reflexivity|]. split; [reflexivity|]. exists (1 / inject_Z (Z.of_nat len))%Q. split.
    + cbn [baseline]. rewrite map_length, Hlen. reflexivity.
    + assert (Hi : ~ (inject_Z (Z.of_nat len) == 0)%Q) by (unfold inject_Z, Qeq; cbn; lia).
      clear -F Hpe Hi. induction F as [|i p ds P E F IH]; cbn [map]; constructor; [|exact IH]. apply Hpe; [|reflexivity]. rewrite E. field. exact Hi.
  - destruct (qnp_min_least P) as (mp & E & (x & Hx & Ex) & Hle). { intros ->. inversion F; subst; congruence. }
    rewrite E. cbn [rbind]. eexists _, _. split; [reflexivity|]. split; [reflexivity|]. exists mp. split; [|apply Hmap].
    cbn [baseline]. split.
    + clear -F Hx Ex. induction F as [|i p ds P E F IH]; [destruct Hx|]. destruct Hx as [<-|Hx].
      * exists (prob i). split; [left; reflexivity|]. now rewrite Ex.
      * destruct (IH Hx) as (y & Hy & Ey). exists y. split; [right; exact Hy|exact Ey].
    + intros y Hy. clear -F Hle Hy. induction F as [|i p ds P E F IH]; [destruct Hy|]. destruct Hy as [<-|Hy].
      * rewrite <- E. apply Hle. now left.
      * apply IH; [|exact Hy]. intros z Hz. apply Hle. now right.
  - eexists _, _. split; [reflexivity|]. split; [reflexivity|]. exists m. split; [|apply Hmap].
    cbn [baseline]. destruct ps as [|p0 pt]; [cbn in Hlen; lia|]. destruct (Qminl_is_min 0 p0 pt) as [(pm & Hpm & Hpme) Hmin]. split.
    + exists (pm / Qsum (p0 :: pt))%Q. split; [apply in_map_iff; exists pm; auto|]. rewrite Hm, Hpme. reflexivity.
    + intros y Hy. apply in_map_iff in Hy. destruct Hy as (p & <- & Hp). rewrite Hm. apply Hdiv. now apply Hmin.
Qed.

Section Upd.
Variable pow : Q -> Q -> Q.
Variable w0 : qpwe.
Variable cap : option nat.
Hypothesis powok : pow_ok pow.
Hypothesis cfg : config_ok w0.

Definition same_config (w : qpwe) : Prop :=
  qalpha w = qalpha w0 /\ qbeta_add w = qbeta_add w0 /\ qeps w = qeps w0 /\ qnorm w = qnorm w0 /\ qerror_min w = qerror_min w0 /\ qerror_max w = qerror_max w0.
Definition pr : Q -> Q := priority_of_error pow w0.

Lemma qpriority_pr w : same_config w -> forall e, qpriority pow w e = pr e.
Proof. intros (A & B & C & D & E & F) e. unfold qpriority, pr, priority_of_error, qclip, clipped. now rewrite A, C, E, F. Qed.

Lemma pr_pos e : (0 <= e)%Q -> (0 < pr e)%Q.
Proof.
  intros He. unfold pr, priority_of_error. apply (proj1 powok). destruct cfg as (H1 & H2). enough (0 <= clipped (qerror_min w0) (qerror_max w0) e)%Q by lra.
  unfold clipped. set (d := match qerror_min w0 with Some m => Qmax m e | None => e end).
  assert (Hd : (0 <= d)%Q) by (unfold d; destruct (qerror_min w0); [eapply Qle_trans; [exact He|apply Q.le_max_r]|exact He]).
  destruct (qerror_max w0); [|exact Hd]. now apply Q.min_glb.
Qed.

Lemma update_ok st s h k o err : pb_rel (memory (pl_rb st)) s -> good cap pr h s -> same_config (pl_w st) ->
  pop_ok (PlUpdate k o err) -> k <= length (s_vals s) ->
  exists ds ws b2 s2 h' w', pl_step pow st (PlUpdate k o err) =
      Ok (mkPl (set_memory (pl_rb st) b2) h' (pl_next st) w', combine (combine (at_ixs (s_vals s) ds) ws) (map err (at_ixs (s_vals s) ds))) /\
    draws (s_ps s) (so_fracs o) = Some ds /\ length ds = k /\ NoDup ds /\ Forall (fun i => i < length (s_vals s)) ds /\ length ws = length ds /\
    pb_rel b2 s2 /\ s_vals s2 = s_vals s /\ same_config w' /\ qbeta w' = Qmin 1 (qbeta (pl_w st) + qbeta_add (pl_w st)) /\
    good cap pr (rev (map (fun x => Learned (name x) (err x)) (at_ixs (s_vals s) ds)) ++ h) s2 /\
    exists base, baseline (qnorm w0) (map (fun i => nth i (s_ps s) 0 / Qsum (s_ps s))%Q ds) (map (fun p => p / Qsum (s_ps s))%Q (s_ps s)) base /\
      Forall2 (fun i wt => wt == pow (nth i (s_ps s) 0 / Qsum (s_ps s) / base) (- qbeta (pl_w st)))%Q ds ws.
Proof.
  intros HR HG HS (Hk & Hl & Hu & Hfr & Herr) Hlen.
  pose proof HR as (Hc & Hd & Hs & Hm & Hx & Hw & Hf & Hsi & L1 & L2 & Hnn & Hcap).
  pose proof HG as (Gc & Gw & Gf & Gs & Gm & Gm0 & Gp & Gv & Gnd & Gne).
  set (b := memory (pl_rb st)) in *.
  destruct (sample_in_contract b s o 0%Q HR) as (ds & probs & m & Ed & Hdl & Est).
  { rewrite Hd. split; [rewrite Hu; constructor|]. split; [rewrite Hu; constructor|exact Hfr]. }
  { unfold enough. rewrite (weights_rel b s HR), Gs, (npos_all _ Gp), L2. change (Qltb 0 0) with false. cbv iota. lia. }
  { rewrite Gf. now rewrite andb_false_r. }
  change (Qltb 0 0) with false in Ed, Est. cbv iota in Ed, Est. rewrite Gw in Ed, Est. change (zero_at (s_ws s) []) with (s_ws s) in Ed, Est. cbn [app] in Est.
  assert (Ep : probs = map (fun w => (0 / inject_Z (Z.of_nat (length (s_vals s))) + (1 - 0) * w / Qsum (s_ws s))%Q) (at_ixs (s_ws s) ds) /\ m = (Qminl 0 (s_ps s) / Qsum (s_ws s))%Q).
  { revert Est. cbn [sb_step]. rewrite Gw, Gf. change (Qltb 0 0) with false. cbv iota. cbn [andb]. change (zero_at (s_ws s) []) with (s_ws s). rewrite Ed.
    destruct ((length (s_vals s) =? 0) || Qeq_bool (Qsum (s_ws s)) 0); [discriminate|]. destruct (negb _); [discriminate|]. intros [= <- <-]. split; reflexivity. }
  destruct Ep as [-> ->].
  destruct (pb_step_refines b s (PSample o 0%Q) _ _ HR Est) as [Hout HR1]. cbn [pb_step] in Hout, HR1.
  destruct (pb_sample b o 0) as [[b1 [[xs P] m1]]|x] eqn:Es; [|cbn in Hout; discriminate]. cbn [fst snd] in Hout, HR1. cbn [out_eq] in Hout. destruct Hout as (Exs & FP & Em1).
  rewrite Gs in *.
  destruct (draws_positive (so_fracs o) (s_ps s) ds) as [Hdn Hdp]; [eapply Forall_impl; [|exact Gp]; intros; cbn in *; lra|exact Hfr|exact Ed|].
  pose proof (draws_bounds _ _ _ Ed) as Hdb. rewrite L2 in Hdb.
  pose proof (at_ixs_Forall2 (s_vals s) ds Hdb) as Fx. rewrite <- Exs in Fx.
  assert (Lxs : length xs = length ds) by (symmetry; exact (f2_length _ _ _ Fx)).
  (* names of the sampled windows are different *)
  assert (Hnx : NoDup (map name xs)).
  { clear -Fx Hdn Gnd. induction Fx as [|i x ds xs E F IH]; [constructor|]. inversion Hdn as [|? ? Hni Hdn']; subst. cbn [map]. constructor; [|auto].
    intros Hin. apply in_map_iff in Hin. destruct Hin as (y & Ey & Hy). apply In_nth_error in Hy. destruct Hy as (j & Ej).
    destruct (nth_error ds j) as [i'|] eqn:Ei'; [|apply nth_error_None in Ei'; assert (j < length xs) by (apply nth_error_Some; congruence); pose proof (f2_length _ _ _ F); lia].
    assert (Exy : nth_error (s_vals s) i' = Some y).
    { clear -F Ej Ei'. revert j Ej Ei'. induction F as [|a c ds xs E F IH]; intros [|j] Ej Ei'; cbn in *; try discriminate; [congruence|eauto]. }
    apply Hni. replace i with i'; [eapply nth_error_In; exact Ei'|].
    apply (NoDup_nth_error (map name (s_vals s))); [exact Gnd|rewrite map_length; apply nth_error_Some; congruence|]. rewrite !nth_error_map', E, Exy. cbn. congruence. }
  assert (Hxne : Forall (fun w : nwindow => w <> []) xs).
  { clear -Fx Gne. rewrite Forall_forall in Gne. induction Fx as [|i x ds xs E F IH]; constructor; [|exact IH]. apply Gne. eapply nth_error_In; exact E. }
  assert (Hds0 : ds <> []) by (intros ->; cbn in Hdl; lia).
  (* probabilities *)
  assert (FP' : Forall2 (fun i p => p == nth i (s_ps s) 0 / Qsum (s_ps s))%Q ds P).
  { assert (Fw : Forall2 (fun i x => nth_error (s_ps s) i = Some x) ds (at_ixs (s_ps s) ds)) by (apply at_ixs_Forall2; rewrite L2; exact Hdb).
    revert FP Fw. generalize (at_ixs (s_ps s) ds). generalize (Qsum (s_ps s)) (inject_Z (Z.of_nat (length (s_vals s)))). clear. intros tot n l FP Fw.
    revert P FP. induction Fw as [|i x ds l E F IH]; intros P FP; cbn [map] in FP; inversion FP as [|? ? ? ? E1 F1]; subst; constructor; [|apply IH; exact F1].
    rewrite (nth_error_nth _ _ _ E). rewrite E1. unfold Qdiv. ring. }
  destruct (weights_spec pow (pl_w st) (length (s_vals s)) ds (s_ps s) P m1 powok Hds0 L2 ltac:(lia) Gp FP' Em1) as (w' & ws & Ew & Ew' & base & Hbase & Fws).
  assert (Lws : length ws = length ds) by (symmetry; exact (f2_length _ _ _ Fws)).
  destruct (write_read xs ws (pl_heap st) Hxne ltac:(lia) Hnx) as (h' & Eh & Er).
  assert (HS' : same_config w') by (rewrite Ew'; unfold same_config in *; cbn; tauto).
  (* set_last_priority *)
  assert (Hpp : map (qpriority pow w') (map err xs) = map (fun x => pr (err x)) xs).
  { rewrite map_map. apply map_ext. intros x. apply qpriority_pr. exact HS'. }
  assert (Fpr : Forall (Qlt 0) (map (fun x => pr (err x)) xs)).
  { apply Forall_forall. intros q Hq. apply in_map_iff in Hq. destruct Hq as (x & <- & _). apply pr_pos, Herr. }
  assert (Est2 : sb_step (mkSb (s_cap s) (s_vals s) (zero_at (s_ps s) ds) (s_ps s) (s_max s) true true (Some ds)) (PSetLast (map (fun x => pr (err x)) xs)) =
     Some (mkSb (s_cap s) (s_vals s) (assign (zero_at (s_ps s) ds) ds (map (fun x => pr (err x)) xs)) (assign (s_ps s) ds (map (fun x => pr (err x)) xs)) (Qmaxl (s_max s) (map (fun x => pr (err x)) xs)) true false (Some []), PNone)).
  { cbn [sb_step s_wait s_flag s_sampled s_vals s_cap s_ws s_ps s_max]. cbn [andb negb].
    replace (forallb (Qltb 0) (map (fun x => pr (err x)) xs)) with true by (symmetry; apply forallb_forall; intros p Hp; rewrite Forall_forall in Fpr; apply Qltb_lt; auto).
    cbn [negb]. rewrite map_length. replace (length ds =? length xs) with true by lia. cbn [negb].
    replace (forallb (fun i => i <? length (s_vals s)) ds) with true; [reflexivity|]. symmetry. apply forallb_forall. intros i Hi. rewrite Forall_forall in Hdb. specialize (Hdb i Hi). cbn in Hdb. lia. }
  destruct (pb_step_refines b1 _ _ _ _ HR1 Est2) as [Hout2 HR2]. cbn [pb_step] in Hout2, HR2.
  destruct (pb_set_last_priority b1 (map (fun x => pr (err x)) xs)) as [b2|x] eqn:E2; [|cbn in Hout2; discriminate]. cbn [fst] in HR2.
  exists ds, ws, b2. eexists. exists h', w'. rewrite <- Exs. split.
  { cbn [pl_step]. unfold pl_sample. fold b. rewrite Hd. replace (k <=? length (s_vals s)) with true by lia. cbn [passert rbind]. rewrite Es. cbn [rbind]. rewrite Ew. cbn [rbind]. rewrite Eh. cbn [rbind].
    unfold pl_learn. cbn [pl_heap]. destruct xs as [|x0 xs0]; [destruct ds; [congruence|discriminate]|]. inversion Hxne as [|? ? Hx0 _]; subst. destruct x0 as [|t0 x0]; [congruence|].
    assert (Hh : exists v, h' (payload t0) = Some v). { cbn [read_weights read_weight] in Er. destruct (h' (payload t0)) as [v|]; [eauto|discriminate]. }
    destruct Hh as (v & ->). rewrite Er. cbn [rbind]. unfold pl_update_errors. cbn [pl_rb pl_w memory set_memory]. rewrite Hpp, E2. reflexivity. }
  split; [exact Ed|]. split; [lia|]. split; [exact Hdn|]. split; [exact Hdb|]. split; [exact Lws|]. split; [exact HR2|]. split; [reflexivity|]. split; [exact HS'|].
  split; [rewrite Ew'; reflexivity|]. split.
  2:{ exists base. split; [|exact Fws]. destruct HS as (_ & _ & _ & En & _). now rewrite <- En. }
  (* the history *)
  assert (Hb' : Forall (fun i => i < length (s_ps s)) ds) by (rewrite L2; exact Hdb).
  assert (Hlp : length ds = length (map (fun x => pr (err x)) xs)) by (rewrite map_length; lia).
  pose proof (assign_updated ds (s_ps s) (s_ps s) _ Hdn Hb' Hlp eq_refl (fun i _ => eq_refl)) as (LA & A & B).
  unfold good. cbn [s_cap s_wait s_flag s_ws s_ps s_max s_vals].
  rewrite assign_zero by assumption. splits; auto.
  - rewrite Gm. symmetry. apply highest_learned.
  - eapply Qlt_le_trans; [exact Gm0|apply (proj1 (Qmaxl_ge _ _))].
  - apply Forall_forall. intros q Hq. apply In_nth_error in Hq. destruct Hq as (j & Ej). destruct (in_dec Nat.eq_dec j ds) as [Hin|Hni].
    + apply In_nth_error in Hin. destruct Hin as (k' & Ek). destruct (nth_error (map (fun x => pr (err x)) xs) k') as [p|] eqn:Epk.
      * rewrite (A _ _ _ Ek Epk) in Ej. injection Ej as <-. rewrite Forall_forall in Fpr. apply Fpr. eapply nth_error_In; exact Epk.
      * apply nth_error_None in Epk. assert (k' < length ds) by (apply nth_error_Some; congruence). lia.
    + rewrite B in Ej by exact Hni. rewrite Forall_forall in Gp. apply Gp. eapply nth_error_In; exact Ej.
  - apply list_ext. intros j. rewrite !nth_error_map'. destruct (in_dec Nat.eq_dec j ds) as [Hin|Hni].
    + apply In_nth_error in Hin. destruct Hin as (k' & Ek). assert (Hkx : k' < length xs) by (rewrite Lxs; apply nth_error_Some; congruence).
      destruct (nth_error xs k') as [x|] eqn:Exk; [|apply nth_error_None in Exk; lia].
      assert (Evx : nth_error (s_vals s) j = Some x).
      { clear -Fx Ek Exk. revert k' Ek Exk. induction Fx as [|a c ds xs E F IH]; intros [|k'] Ek Exk; cbn in *; try discriminate; [congruence|eauto]. }
      rewrite Evx, (A k' j (pr (err x)) Ek) by (rewrite nth_error_map', Exk; reflexivity). cbn [option_map]. f_equal.
      apply (priority_learned pr name err xs h x Hnx). eapply nth_error_In; exact Exk.
    + rewrite B by exact Hni. pose proof (f_equal (fun l => nth_error l j) Gv) as Gj. cbn beta in Gj. rewrite !nth_error_map' in Gj. rewrite <- Gj.
      destruct (nth_error (s_vals s) j) as [y|] eqn:Ey; [|reflexivity]. cbn [option_map]. f_equal. apply (priority_other pr name err xs (name y) h).
      intros Hin. apply in_map_iff in Hin. destruct Hin as (x & Enx & Hx'). apply In_nth_error in Hx'. destruct Hx' as (k' & Exk).
      assert (Hkx : k' < length ds) by (rewrite <- Lxs; apply nth_error_Some; congruence). destruct (nth_error ds k') as [i|] eqn:Eik; [|apply nth_error_None in Eik; lia].
      assert (Evx : nth_error (s_vals s) i = Some x).
      { clear -Fx Eik Exk. revert k' Eik Exk. induction Fx as [|a c ds xs E F IH]; intros [|k'] Ek Exk; cbn in *; try discriminate; [congruence|eauto]. }
      apply Hni. replace j with i; [eapply nth_error_In; exact Eik|].
      apply (NoDup_nth_error (map name (s_vals s))); [exact Gnd|rewrite map_length; apply nth_error_Some; congruence|]. rewrite !nth_error_map', Ey, Evx. cbn. congruence.
Qed.
End Upd.

(** *** Whole runs *)
Section Runs.
Variable pow : Q -> Q -> Q.
Variable w0 : qpwe.
Variable cap : option nat.
Variable n : nat.
Hypothesis powok : pow_ok pow.
Hypothesis cfg : config_ok w0.
Hypothesis n0 : 0 < n.
Hypothesis cap0 : cap <> Some 0.

Definition inv (past : list (rb_op nat)) (h : list event) (st : plearn) (s : sbuf nwindow) : Prop :=
  pb_rel (memory (pl_rb st)) s /\ good cap (pr pow w0) h s /\ rb_inv past (pl_rb st) /\ num_steps (pl_rb st) = n /\
  s_vals s = trunc cap (map snd (log n past)) /\ payloads past = seq 0 (pl_next st) /\ same_config w0 (pl_w st).

Lemma inv_init : exists st s, pl_init cap n w0 = Ok st /\ inv [] [] st s /\ pl_next st = 0 /\ pl_w st = w0.
Proof.
  unfold pl_init, prioritized_replay_buffer, rb_init. replace (0 <? n) with true by lia. cbn [passert rbind]. eexists. exists (sb_init cap true 1%Q). split; [reflexivity|].
  split; [|split; reflexivity]. unfold inv. cbn [pl_rb memory num_steps pl_next pl_w]. split; [apply pb_init_rel|]. split.
  { unfold good, sb_init. cbn. splits; auto; try constructor. }
  split; [apply rb_inv_init; exact n0|]. split; [reflexivity|]. split; [destruct cap; reflexivity|]. split; [reflexivity|]. repeat split.
Qed.

(** Observations: [o] is the operation on the replay buffer. *)
Lemma inv_observe past h st s o next' : inv past h st s -> payloads (past ++ [o]) = seq 0 next' ->
  exists b s', rb_step pb_append_default (pl_rb st) o = Ok b /\
    forall hp, inv (past ++ [o]) (rev (map (fun w => Stored (name w)) (newly n past o)) ++ h) (mkPl b hp next' (pl_w st)) s'.
Proof.
  intros (HR & HG & HB & Hn & HV & HP & HC) HP'.
  assert (Hnd : NoDup (payloads (past ++ [o]))) by (rewrite HP'; apply seq_NoDup).
  destruct (names_log n (past ++ [o]) n0 Hnd) as [N1 N2]. rewrite log_snoc_windows in N1, N2. apply Forall_app in N2. destruct N2 as [_ N2].
  pose proof (rb_step_log pb_append_default past (pl_rb st) o HB) as H. cbv zeta in H. rewrite Hn in H. fold (newly n past o) in H.
  destruct (good_appends cap (pr pow w0) cap0 (newly n past o) h _ s HR HG N2) as (m & s' & Em & HR' & HG' & HV').
  { rewrite HV. destruct (trunc_suffix cap (map snd (log n past))) as (a & Ea). rewrite Ea, <- app_assoc, map_app in N1. exact (NoDup_suffix _ _ N1). }
  rewrite Em in H. destruct H as (b' & Eb & Emb & Enb & HB'). exists b', s'. split; [exact Eb|]. intros hp. unfold inv. cbn [pl_rb pl_next pl_w]. rewrite Emb. splits; auto.
  - rewrite HV', HV, trunc_trunc_app, <- log_snoc_windows. reflexivity.
Qed.

Lemma lesson_events (err : nwindow -> Q) (xs : list nwindow) (ws : list Q) : length ws = length xs ->
  map (fun x : nwindow * Q * Q => Learned (name (fst (fst x))) (snd x)) (combine (combine xs ws) (map err xs)) = map (fun x => Learned (name x) (err x)) xs.
Proof. revert ws. induction xs as [|x xs IH]; intros [|w ws] H; try discriminate; [reflexivity|]. cbn. f_equal. apply IH. cbn in H. lia. Qed.

Lemma inv_update past h st s k o err : inv past h st s -> pop_ok (PlUpdate k o err) -> k <= length (s_vals s) ->
  exists ds ws st' s', pl_step pow st (PlUpdate k o err) = Ok (st', combine (combine (at_ixs (s_vals s) ds) ws) (map err (at_ixs (s_vals s) ds))) /\
    draws (s_ps s) (so_fracs o) = Some ds /\ length ds = k /\ NoDup ds /\ Forall (fun i => i < length (s_vals s)) ds /\ length ws = length ds /\
    inv past (rev (map (fun x => Learned (name x) (err x)) (at_ixs (s_vals s) ds)) ++ h) st' s' /\ pl_next st' = pl_next st /\
    qbeta (pl_w st') = Qmin 1 (qbeta (pl_w st) + qbeta_add (pl_w st)) /\
    exists base, baseline (qnorm w0) (map (fun i => nth i (s_ps s) 0 / Qsum (s_ps s))%Q ds) (map (fun p => p / Qsum (s_ps s))%Q (s_ps s)) base /\
      Forall2 (fun i wt => wt == pow (nth i (s_ps s) 0 / Qsum (s_ps s) / base) (- qbeta (pl_w st)))%Q ds ws.
Proof.
  intros (HR & HG & HB & Hn & HV & HP & HC) Hok Hk.
  destruct (update_ok pow w0 cap powok cfg st s h k o err HR HG HC Hok Hk) as (ds & ws & b2 & s2 & h' & w' & E & Ed & El & Hnd & Hb & Hl & HR2 & HV2 & HC2 & Hbeta & HG2 & Hbase).
  exists ds, ws. eexists. exists s2. split; [exact E|]. splits; auto. unfold inv. cbn [pl_rb memory set_memory num_steps pl_next pl_w]. splits; auto. congruence.
Qed.

(** The number of updates. *)
Definition updates (ops : list pop) : nat := length (filter (fun op => match op with PlUpdate _ _ _ => true | _ => false end) ops).

Lemma iter_comm {X} (f : X -> X) k x : Nat.iter k f (f x) = f (Nat.iter k f x).
Proof. induction k as [|k IH]; [reflexivity|]. change (f (Nat.iter k f (f x)) = f (f (Nat.iter k f x))). now rewrite IH. Qed.

Lemma run_inv ops : forall past h st s st' lessons, inv past h st s -> Forall pop_ok ops -> pl_run pow st ops = Ok (st', lessons) ->
  exists s', inv (past ++ observed (pl_next st) ops) (history_from n (pl_next st) past h ops lessons) st' s' /\
    qbeta (pl_w st') = Nat.iter (updates ops) (fun b => Qmin 1 (b + qbeta_add w0)) (qbeta (pl_w st)).
Proof.
  induction ops as [|op ops IH]; intros past h st s st' lessons HI Hok E; cbn [pl_run] in E.
  - injection E as <- <-. exists s. cbn. rewrite app_nil_r. auto.
  - inversion Hok as [|? ? Hop Hops]; subst. apply rbind_ok in E. destruct E as ([s1 r] & E1 & E). apply rbind_ok in E. destruct E as ([s2 rs] & E2 & E). injection E as <- <-.
    pose proof HI as (HR & HG & HB & Hn & HV & HP & HC).
    destruct op as [e term|e|k o err].
    + destruct (inv_observe past h st s (RAppend e (mkTrans (pl_next st) term)) (S (pl_next st)) HI) as (b & s' & Eb & HI').
      { rewrite payloads_snoc, HP. cbn [payload]. rewrite seq_S. reflexivity. }
      cbn [pl_step rb_step] in *. rewrite Eb in E1. cbn [rbind] in E1. injection E1 as <- <-.
      destruct (IH _ _ _ _ _ _ (HI' _) Hops E2) as (s3 & HI3 & Hb3). exists s3. cbn [pl_next pl_w] in *. split; [|exact Hb3].
      cbn [observed history_from]. cbv zeta. rewrite <- app_assoc in HI3. exact HI3.
    + destruct (inv_observe past h st s (RStop e) (pl_next st) HI) as (b & s' & Eb & HI').
      { rewrite payloads_snoc, HP. now rewrite app_nil_r. }
      cbn [pl_step rb_step] in *. rewrite Eb in E1. cbn [rbind] in E1. injection E1 as <- <-.
      destruct (IH _ _ _ _ _ _ (HI' _) Hops E2) as (s3 & HI3 & Hb3). exists s3. cbn [pl_next pl_w] in *. split; [|exact Hb3].
      cbn [observed history_from]. cbv zeta. rewrite <- app_assoc in HI3. exact HI3.
    + assert (Hk : k <= length (s_vals s)).
      { cbn [pl_step] in E1. unfold pl_sample in E1. destruct HR as (_ & Hd & _). rewrite Hd in E1. destruct (k <=? length (s_vals s)) eqn:Ek; [lia|]. discriminate. }
      destruct (inv_update past h st s k o err HI Hop Hk) as (ds & ws & st1 & s1' & Es & Ed & El & Hnd & Hb & Hl & HI1 & Hnx & Hbeta & _).
      rewrite Es in E1. injection E1 as <- <-. destruct (IH _ _ _ _ _ _ HI1 Hops E2) as (s3 & HI3 & Hb3). exists s3. rewrite Hnx in HI3. cbn [observed history_from].
      rewrite lesson_events by (rewrite at_ixs_length by exact Hb; exact Hl). split; [exact HI3|]. rewrite Hb3, Hbeta.
      destruct HC as (_ & -> & _). unfold updates. cbn [filter length]. cbn [Nat.iter nat_rect]. apply (iter_comm (fun b => Qmin 1 (b + qbeta_add w0))%Q).
Qed.
End Runs.
