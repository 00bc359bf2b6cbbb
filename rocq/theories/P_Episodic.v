(** Lemmas for C10, C11, C12, C15. *)
From Verif Require Import Base P_Base M_RandomAccessQueue P_RandomAccessQueue M_SampleNK S_SampleNK P_SampleNK M_ReplayBuffer S_ReplayBuffer P_ReplayBuffer
  M_Episodic S_Episodic.
From Coq Require Import ZifyBool ZifyNat.

Section Ep.
Context {T : Type}.
Notation tr := (trans T).

Lemma append_each_spec (ts : list tr) : forall q l, raq_iter q = trunc (maxlen q) l ->
  exists q', append_each q ts = Ok q' /\ raq_iter q' = trunc (maxlen q) (l ++ map (fun t => [t]) ts) /\ maxlen q' = maxlen q.
Proof.
  induction ts as [|t ts IH]; intros q l Hq; cbn [append_each map].
  - exists q. rewrite app_nil_r. auto.
  - destruct (raq_append_spec q [t]) as (q1 & E & Hi & Hm).
    { rewrite Hq. now rewrite trunc_idem. }
    rewrite E. cbn [rbind]. destruct (IH q1 (l ++ [[t]])) as (q2 & E2 & Hi2 & Hm2).
    { rewrite Hi, Hm, Hq. apply trunc_trunc_app. }
    exists q2. rewrite Hm in *. split; [exact E2|]. split; [|exact Hm2]. now rewrite Hi2, <- app_assoc.
Qed.

Lemma popleft_n_spec k : forall (q : raq (list tr)), k <= length (raq_iter q) ->
  exists q', popleft_n k q = Ok q' /\ raq_iter q' = skipn k (raq_iter q) /\ maxlen q' = maxlen q.
Proof.
  induction k as [|k IH]; intros q Hk; cbn [popleft_n].
  - exists q. auto.
  - pose proof (raq_popleft_spec q) as H. destruct (raq_iter q) as [|x r] eqn:Eq; [cbn in Hk; lia|].
    destruct H as (q1 & E & Hi & Hm). rewrite E. cbn [rbind].
    destruct (IH q1) as (q2 & E2 & Hi2 & Hm2); [rewrite Hi; cbn in Hk; lia|].
    exists q2. split; [exact E2|]. split; [rewrite Hi2, Hi; reflexivity|congruence].
Qed.

Definition flat (eps : list (list tr)) : list (list tr) := map (fun t => [t]) (concat eps).
Lemma flat_length eps : length (flat eps) = total eps.
Proof. unfold flat. now rewrite map_length. Qed.

Lemma evict_spec cap : forall fuel (em m : raq (list tr)) , length (raq_iter em) < fuel ->
  maxlen em = None -> maxlen m = None ->
  raq_iter m = flat (raq_iter em) ->
  exists em' m', evict fuel cap false em m = Ok (em', m') /\ maxlen em' = None /\ maxlen m' = None /\
    raq_iter m' = flat (raq_iter em') /\ kept_within (Some cap) (raq_iter em) (raq_iter em').
Proof.
  induction fuel as [|f IH]; intros em m Hf He Hm Hs; [lia|].
  cbn [evict]. rewrite raq_len_iter, Hs, flat_length. destruct (cap <? total (raq_iter em)) eqn:Ec.
  - pose proof (raq_popleft_spec em) as H. destruct (raq_iter em) as [|ep r] eqn:Eq; [cbn in Ec; lia|].
    destruct H as (em1 & E & Hi & Hm1). rewrite E. cbn [rbind].
    destruct (popleft_n_spec (length ep) m) as (m1 & E1 & Hi1 & Hmm1).
    { rewrite Hs. unfold flat. cbn. rewrite map_length, app_length. lia. }
    rewrite E1. cbn [rbind].
    destruct (IH em1 m1) as (em2 & m2 & E2 & A1 & A2 & A3 & A4).
    { rewrite Hi. cbn in Hf. lia. } { congruence. } { congruence. }
    { rewrite Hi1, Hs, Hi. unfold flat. cbn [concat]. rewrite map_app, skipn_app, map_length, Nat.sub_diag.
      rewrite skipn_all2 by (rewrite map_length; lia). reflexivity. }
    exists em2, m2. split; [exact E2|]. split; [exact A1|]. split; [exact A2|]. split; [exact A3|].
    destruct A4 as (k & B1 & B2 & B3). exists (S k). rewrite Hi in B1, B3. split; [exact B1|]. split; [exact B2|].
    intros [|j] Hj; cbn [skipn]; [lia|]. apply B3. lia.
  - exists em, m. split; [reflexivity|]. split; [auto|]. split; [auto|]. split; [auto|].
    exists 0. split; [reflexivity|]. split; [lia|]. intros j Hj. lia.
Qed.

Lemma total_skipn {A} j (eps : list (list A)) : total (skipn j eps) <= total eps.
Proof.
  rewrite <- (firstn_skipn j eps) at 2. unfold total. rewrite concat_app, app_length. lia.
Qed.
Lemma total_app {A} (a b : list (list A)) : total (a ++ b) = total a + total b.
Proof. unfold total. now rewrite concat_app, app_length. Qed.

Lemma kept_trans {A} cap (eps kept kept' : list (list A)) ep :
  kept_within cap eps kept -> kept_within cap (kept ++ [ep]) kept' -> kept_within cap (eps ++ [ep]) kept'.
Proof.
  destruct cap as [c|]; [|cbn; congruence].
  intros (k & E1 & H1 & M1) (k' & E2 & H2 & M2). subst kept.
  destruct (Nat.le_gt_cases k (length eps)) as [Hk|Hk].
  - exists (k + k'). 
    assert (Esk : skipn k eps ++ [ep] = skipn k (eps ++ [ep])).
    { rewrite skipn_app. replace (k - length eps) with 0 by lia. reflexivity. }
    split; [|split].
    + rewrite E2, Esk, skipn_skipn'. f_equal. lia.
    + exact H2.
    + intros j Hj. destruct (Nat.lt_ge_cases j k) as [Hlt|Hge].
      * specialize (M1 j Hlt). rewrite skipn_app, total_app. lia.
      * specialize (M2 (j - k) ltac:(lia)). rewrite Esk, skipn_skipn' in M2.
        replace (j - k + k) with j in M2 by lia. exact M2.
  - (* k beyond the end: total of a suffix shorter than eps is 0 > c impossible *)
    exfalso. specialize (M1 (length eps) Hk). rewrite skipn_all in M1. cbn in M1. lia.
Qed.

(** The state that corresponds to a history. *)
Definition eb_inv (cap : option nat) (past : list (rb_op T)) (fin : list (list tr)) (b : ebuf T) : Prop :=
  persistent b = false /\ e_cap b = cap /\ (forall e, current b e = snd (episodes e past)) /\
  maxlen (episodic_memory b) = None /\ maxlen (e_memory b) = None /\
  raq_iter (e_memory b) = flat (raq_iter (episodic_memory b)) /\
  kept_within cap fin (raq_iter (episodic_memory b)).

Lemma flat_app a b : flat (a ++ b) = flat a ++ flat b.
Proof. unfold flat. now rewrite concat_app, map_app. Qed.

Lemma eb_stop_full cap b e ep fin : current b e = ep -> ep <> [] -> persistent b = false -> e_cap b = cap ->
  maxlen (episodic_memory b) = None -> maxlen (e_memory b) = None ->
  raq_iter (e_memory b) = flat (raq_iter (episodic_memory b)) ->
  kept_within cap fin (raq_iter (episodic_memory b)) ->
  exists b', eb_stop b e = Ok b' /\ persistent b' = false /\ e_cap b' = cap /\ current b' = upd (current b) e [] /\
    maxlen (episodic_memory b') = None /\ maxlen (e_memory b') = None /\
    raq_iter (e_memory b') = flat (raq_iter (episodic_memory b')) /\
    kept_within cap (fin ++ [ep]) (raq_iter (episodic_memory b')).
Proof.
  intros Hc Hne Hp Hcap Hm1 Hm2 Hs Hk. unfold eb_stop. rewrite Hc.
  destruct ep as [|t0 ep0] eqn:Eep; [congruence|]. rewrite <- Eep in *. clear Hne Eep t0 ep0.
  destruct (raq_append_spec (episodic_memory b) ep) as (em & E1 & Hi1 & Hmm1); [now rewrite Hm1|].
  rewrite E1. cbn [rbind]. rewrite Hm1 in Hi1, Hmm1. cbn [trunc] in Hi1.
  destruct (append_each_spec ep (e_memory b) (raq_iter (e_memory b))) as (m & E2 & Hi2 & Hmm2); [now rewrite Hm2|].
  rewrite E2. cbn [rbind]. rewrite Hm2 in Hi2, Hmm2. cbn [trunc] in Hi2.
  assert (Hs' : raq_iter m = flat (raq_iter em)).
  { rewrite Hi2, Hi1, Hs, flat_app. f_equal. unfold flat. cbn. now rewrite app_nil_r. }
  rewrite Hcap, Hp. destruct cap as [c|].
  - destruct (evict_spec c (S (raq_len em)) em m) as (em' & m' & E3 & A1 & A2 & A3 & A4); auto.
    { rewrite raq_len_iter. lia. }
    rewrite E3. cbn [rbind]. eexists. split; [reflexivity|]. cbn. repeat (split; [now auto|]).
    refine (kept_trans (Some c) _ _ _ _ Hk _). now rewrite <- Hi1.
  - cbn [rbind]. eexists. split; [reflexivity|]. cbn. repeat (split; [now auto|]). rewrite Hi1. cbn in Hk. now rewrite Hk.
Qed.

Lemma eb_step_inv cap past fin b o : eb_inv cap past fin b ->
  exists b', eb_step b o = Ok b' /\
    eb_inv cap (past ++ [o])
      (fin ++ skipn (length (fst (episodes (env_of o) past))) (fst (episodes (env_of o) (past ++ [o])))) b'.
Proof.
  intros (Hp & Hcap & Hcur & Hm1 & Hm2 & Hs & Hk).
  assert (Hother : forall e', e' <> env_of o -> episodes e' (past ++ [o]) = episodes e' past).
  { intros e' He'. rewrite episodes_snoc. unfold ep_step. destruct (episodes e' past) as [dn cur].
    destruct o as [e0 t|e0]; cbn in He'; (destruct (Nat.eqb_spec e0 e') as [->|]; [congruence|reflexivity]). }
  assert (Hmk : forall b' fin', persistent b' = false -> e_cap b' = cap -> current b' = upd (current b) (env_of o) (snd (episodes (env_of o) (past ++ [o]))) ->
      maxlen (episodic_memory b') = None -> maxlen (e_memory b') = None ->
      raq_iter (e_memory b') = flat (raq_iter (episodic_memory b')) ->
      kept_within cap fin' (raq_iter (episodic_memory b')) -> eb_inv cap (past ++ [o]) fin' b').
  { intros b' fin' A1 A2 A3 A4 A5 A6 A7. split; [auto|]. split; [auto|]. split; [|auto].
    intros e'. rewrite A3. unfold upd. destruct (Nat.eqb_spec e' (env_of o)) as [->|Hne]; [reflexivity|].
    now rewrite Hother. }
  pose proof (Hcur (env_of o)) as Hce. rewrite episodes_snoc in *.
  destruct (episodes (env_of o) past) as [dn cur] eqn:Ee. cbn [fst snd] in *.
  destruct o as [e t|e]; cbn [env_of ep_step eb_step] in *; rewrite Nat.eqb_refl in *.
  - unfold eb_append. rewrite Hce. destruct (terminal t) eqn:Et; cbn [fst snd] in *.
    + match goal with |- context [eb_stop ?b0 e] => destruct (eb_stop_full cap b0 e (cur ++ [t]) fin) as (b' & E & A) end; cbn; auto.
      { unfold upd. now rewrite Nat.eqb_refl. } { now destruct cur. }
      exists b'. split; [exact E|]. destruct A as (A1 & A2 & A3 & A4 & A5 & A6 & A7).
      rewrite skipn_app, skipn_all, Nat.sub_diag. cbn [skipn app].
      destruct b' as [p' c' cu' em' m']. cbn in *. subst.
      split; [reflexivity|]. split; [reflexivity|]. split; [|auto]. intros e'. cbn. unfold upd.
      destruct (Nat.eqb_spec e' e) as [->|Hne]; [rewrite episodes_snoc, Ee; cbn; now rewrite Nat.eqb_refl, Et|].
      rewrite Hcur. now rewrite Hother.
    + eexists. split; [reflexivity|]. apply Hmk; cbn; auto. rewrite skipn_all, app_nil_r. exact Hk.
  - destruct cur as [|c0 cur'].
    + unfold eb_stop. rewrite Hce. eexists. split; [reflexivity|]. cbn [fst]. rewrite skipn_all, app_nil_r.
      split; [auto|]. split; [auto|]. split; [|auto]. intros e'. destruct (Nat.eq_dec e' e) as [->|Hne].
      * rewrite episodes_snoc, Ee. cbn. now rewrite Nat.eqb_refl.
      * now rewrite Hother.
    + destruct (eb_stop_full cap b e (c0 :: cur') fin) as (b' & E & A1 & A2 & A3 & A4 & A5 & A6 & A7); auto; try discriminate.
      exists b'. split; [exact E|]. cbn [fst]. rewrite skipn_app, skipn_all, Nat.sub_diag. cbn [skipn app].
      apply Hmk; auto.
Qed.

Lemma eb_run_inv cap ops : forall past fin b, eb_inv cap past fin b ->
  exists b', eb_run b ops = Ok b' /\ eb_inv cap (past ++ ops) (fin ++ finished_from past ops) b'.
Proof.
  induction ops as [|o ops IH]; intros past fin b Hb; cbn [eb_run finished_from].
  - rewrite !app_nil_r. eauto.
  - destruct (eb_step_inv cap past fin b o Hb) as (b1 & E1 & H1). rewrite E1. cbn [rbind].
    destruct (IH _ _ _ H1) as (b2 & E2 & H2). exists b2. split; [exact E2|]. rewrite <- !app_assoc in H2. exact H2.
Qed.

Lemma episodic_in_step cap (ops : list (rb_op T)) :
  exists b0 b, eb_init false cap = Ok b0 /\ eb_run b0 ops = Ok b /\
    raq_iter (e_memory b) = map (fun t => [t]) (concat (raq_iter (episodic_memory b))) /\
    kept_within cap (finished ops) (raq_iter (episodic_memory b)) /\
    (forall e, current b e = snd (episodes e ops)).
Proof.
  unfold eb_init. destruct (raq_init_spec (A := list tr) None []) as (q & E & Hi & Hm). rewrite E. cbn [rbind].
  eexists.
  destruct (eb_run_inv cap ops [] [] (mkEb false cap (fun _ => []) q q)) as (b & Eb & Hb).
  { split; [reflexivity|]. split; [reflexivity|]. split; [reflexivity|]. cbn. rewrite Hi. cbn.
    split; [auto|]. split; [auto|]. split; [auto|]. destruct cap; [|reflexivity]. exists 0. cbn. repeat split; lia. }
  exists b. split; [reflexivity|]. split; [exact Eb|]. destruct Hb as (_ & _ & Hc & _ & _ & Hs & Hk). auto.
Qed.
End Ep.

(** ** C11 *)
Lemma evict_small {T} fuel cap pers (em m : raq (list (trans T))) : length (raq_iter m) <= cap ->
  evict fuel cap pers em m = Ok (em, m).
Proof. intros H. destruct fuel; cbn [evict]; rewrite raq_len_iter; replace (cap <? length (raq_iter m)) with false by lia; reflexivity. Qed.

Section Pers.
Context {T : Type}.
Notation tr := (trans T).

Definition pp_inv (cap : option nat) (past : list (rb_op T)) (fin : list (list tr)) (b : ebuf T) : Prop :=
  persistent b = true /\ e_cap b = cap /\ (forall e, current b e = snd (episodes e past)) /\
  maxlen (episodic_memory b) = cap /\ maxlen (e_memory b) = cap /\
  raq_iter (e_memory b) = trunc cap (flat fin) /\ raq_iter (episodic_memory b) = trunc cap fin.

Lemma pp_stop_full cap (b : ebuf T) e ep fin : current b e = ep -> ep <> [] -> persistent b = true -> e_cap b = cap ->
  maxlen (episodic_memory b) = cap -> maxlen (e_memory b) = cap ->
  raq_iter (e_memory b) = trunc cap (flat fin) -> raq_iter (episodic_memory b) = trunc cap fin ->
  exists b', eb_stop b e = Ok b' /\ persistent b' = true /\ e_cap b' = cap /\ current b' = upd (current b) e [] /\
    maxlen (episodic_memory b') = cap /\ maxlen (e_memory b') = cap /\
    raq_iter (e_memory b') = trunc cap (flat (fin ++ [ep])) /\
    raq_iter (episodic_memory b') = trunc cap (fin ++ [ep]).
Proof.
  intros Hc Hne Hp Hcap Hm1 Hm2 Hs Hk. unfold eb_stop. rewrite Hc.
  destruct ep as [|t0 ep0] eqn:Eep; [congruence|]. rewrite <- Eep in *. clear Hne Eep t0 ep0.
  destruct (raq_append_spec (episodic_memory b) ep) as (em & E1 & Hi1 & Hmm1); [now rewrite Hm1, Hk, trunc_idem|].
  rewrite E1. cbn [rbind]. rewrite Hm1 in Hi1, Hmm1. rewrite Hk, trunc_trunc_app in Hi1.
  destruct (append_each_spec ep (e_memory b) (flat fin)) as (m & E2 & Hi2 & Hmm2); [now rewrite Hm2|].
  rewrite E2. cbn [rbind]. rewrite Hm2 in Hi2, Hmm2.
  assert (Hs' : raq_iter m = trunc cap (flat (fin ++ [ep]))).
  { rewrite Hi2, flat_app. do 2 f_equal. unfold flat. cbn. now rewrite app_nil_r. }
  rewrite Hcap. destruct cap as [c|].
  - rewrite evict_small by (rewrite Hs'; cbn; rewrite lastn_length; lia). cbn [rbind].
    eexists. split; [reflexivity|]. cbn [persistent e_cap current episodic_memory e_memory]. repeat (split; [now auto|]). exact Hi1.
  - cbn [rbind]. eexists. split; [reflexivity|]. cbn [persistent e_cap current episodic_memory e_memory]. repeat (split; [now auto|]). exact Hi1.
Qed.

Lemma pp_step_inv cap past fin b o : pp_inv cap past fin b ->
  exists b', eb_step b o = Ok b' /\
    pp_inv cap (past ++ [o])
      (fin ++ skipn (length (fst (episodes (env_of o) past))) (fst (episodes (env_of o) (past ++ [o])))) b'.
Proof.
  intros (Hp & Hcap & Hcur & Hm1 & Hm2 & Hs & Hk).
  assert (Hother : forall e', e' <> env_of o -> episodes e' (past ++ [o]) = episodes e' past).
  { intros e' He'. rewrite episodes_snoc. unfold ep_step. destruct (episodes e' past) as [dn cur].
    destruct o as [e0 t|e0]; cbn in He'; (destruct (Nat.eqb_spec e0 e') as [->|]; [congruence|reflexivity]). }
  assert (Hmk : forall b' fin', persistent b' = true -> e_cap b' = cap -> (forall e', current b' e' = upd (current b) (env_of o) (snd (episodes (env_of o) (past ++ [o]))) e') ->
      maxlen (episodic_memory b') = cap -> maxlen (e_memory b') = cap ->
      raq_iter (e_memory b') = trunc cap (flat fin') -> raq_iter (episodic_memory b') = trunc cap fin' ->
      pp_inv cap (past ++ [o]) fin' b').
  { intros b' fin' A1 A2 A3 A4 A5 A6 A7. split; [auto|]. split; [auto|]. split; [|auto].
    intros e'. rewrite A3. unfold upd. destruct (Nat.eqb_spec e' (env_of o)) as [->|Hne]; [reflexivity|].
    now rewrite Hother. }
  pose proof (Hcur (env_of o)) as Hce. rewrite episodes_snoc in *.
  destruct (episodes (env_of o) past) as [dn cur] eqn:Ee. cbn [fst snd] in *.
  destruct o as [e t|e]; cbn [env_of ep_step eb_step] in *; rewrite Nat.eqb_refl in *.
  - unfold eb_append. rewrite Hce. destruct (terminal t) eqn:Et; cbn [fst snd] in *.
    + match goal with |- context [eb_stop ?b0 e] => destruct (pp_stop_full cap b0 e (cur ++ [t]) fin) as (b' & E & A) end;
        cbn [persistent e_cap current episodic_memory e_memory]; auto.
      { unfold upd. now rewrite Nat.eqb_refl. } { now destruct cur. }
      exists b'. split; [exact E|]. destruct A as (A1 & A2 & A3 & A4 & A5 & A6 & A7).
      rewrite skipn_app, skipn_all, Nat.sub_diag. cbn [skipn app].
      apply Hmk; auto. intros e'. rewrite A3. cbn. unfold upd. now destruct (e' =? e).
    + eexists. split; [reflexivity|]. rewrite skipn_all, app_nil_r. apply Hmk; cbn; auto.
  - destruct cur as [|c0 cur'].
    + unfold eb_stop. rewrite Hce. eexists. split; [reflexivity|]. cbn [fst snd] in *. rewrite skipn_all, app_nil_r.
      apply Hmk; auto. intros e'. unfold upd. destruct (Nat.eqb_spec e' e) as [->|Hne]; auto.
    + destruct (pp_stop_full cap b e (c0 :: cur') fin) as (b' & E & A1 & A2 & A3 & A4 & A5 & A6 & A7); auto; try discriminate.
      exists b'. split; [exact E|]. cbn [fst]. rewrite skipn_app, skipn_all, Nat.sub_diag. cbn [skipn app].
      apply Hmk; auto. intros e'. now rewrite A3.
Qed.

Lemma pp_run_inv cap ops : forall past fin b, pp_inv cap past fin b ->
  exists b', eb_run b ops = Ok b' /\ pp_inv cap (past ++ ops) (fin ++ finished_from past ops) b'.
Proof.
  induction ops as [|o ops IH]; intros past fin b Hb; cbn [eb_run finished_from].
  - rewrite !app_nil_r. eauto.
  - destruct (pp_step_inv cap past fin b o Hb) as (b1 & E1 & H1). rewrite E1. cbn [rbind].
    destruct (IH _ _ _ H1) as (b2 & E2 & H2). exists b2. split; [exact E2|]. rewrite <- !app_assoc in H2. exact H2.
Qed.

Lemma persistent_episodic_contents cap (ops : list (rb_op T)) :
  exists b0 b, eb_init true cap = Ok b0 /\ eb_run b0 ops = Ok b /\
    raq_iter (e_memory b) = trunc cap (map (fun t => [t]) (concat (finished ops))) /\
    raq_iter (episodic_memory b) = trunc cap (finished ops).
Proof.
  unfold eb_init. destruct (raq_init_spec (A := list tr) cap []) as (q & E & Hi & Hm). rewrite E. cbn [rbind].
  eexists.
  destruct (pp_run_inv cap ops [] [] (mkEb true cap (fun _ => []) q q)) as (b & Eb & Hb).
  { split; [reflexivity|]. split; [reflexivity|]. split; [reflexivity|]. cbn [episodic_memory e_memory]. rewrite Hi, Hm. auto. }
  exists b. split; [reflexivity|]. split; [exact Eb|]. destruct Hb as (_ & _ & Hc & _ & _ & Hs & Hk). auto.
Qed.

Lemma persistent_episodic_in_step cap (ops : list (rb_op T)) :
  match cap with None => True | Some c => total (finished ops) <= c end ->
  exists b0 b, eb_init true cap = Ok b0 /\ eb_run b0 ops = Ok b /\
    raq_iter (e_memory b) = map (fun t => [t]) (concat (raq_iter (episodic_memory b))) /\
    kept_within cap (finished ops) (raq_iter (episodic_memory b)).
Proof.
  intros Hc. destruct (persistent_episodic_contents cap ops) as (b0 & b & E0 & E & Hm & He).
  exists b0, b. split; [exact E0|]. split; [exact E|]. rewrite Hm, He. destruct cap as [c|]; cbn [trunc kept_within]; [|auto].
  assert (Hne : length (finished ops) <= total (finished ops)).
  { assert (Hall : Forall (fun ep => ep <> []) (finished ops)).
    { unfold finished. generalize (@nil (rb_op T)). clear. induction ops as [|o ops IH]; intros past; cbn; [constructor|].
      apply Forall_app. split; [|apply IH]. rewrite episodes_snoc. destruct (episodes (env_of o) past) as [dn cur]. cbn [fst].
      destruct o as [e t|e]; cbn; rewrite Nat.eqb_refl.
      - destruct (terminal t); cbn [fst].
        + rewrite skipn_app, skipn_all, Nat.sub_diag. cbn. constructor; auto. now destruct cur.
        + rewrite skipn_all. constructor.
      - destruct cur; cbn [fst].
        + rewrite skipn_all. constructor.
        + rewrite skipn_app, skipn_all, Nat.sub_diag. cbn. constructor; auto. discriminate. }
    revert Hall. generalize (finished ops). clear. intros l H. induction H as [|x l Hx H IH]; cbn; [lia|].
    unfold total in *. cbn. rewrite app_length. destruct x; [congruence|]. cbn. lia. }
  rewrite (lastn_all c (finished ops)) by lia. rewrite lastn_all by (rewrite map_length; exact Hc).
  split; [reflexivity|]. exists 0. split; [reflexivity|]. split; [exact Hc|]. intros; lia.
Qed.
End Pers.

(** ** C12 *)
Section Load.
Context {T : Type}.
Notation tr := (trans T).

Lemma rb_load_restores (a b : rbuf T (raq (list tr))) :
  exists b', rb_load b (rb_save a) = Ok b' /\ raq_iter (memory b') = raq_iter (memory a) /\
    num_steps b' = num_steps b /\ last_n b' = last_n b.
Proof. eexists. cbn. split; [reflexivity|]. cbn. auto. Qed.

Lemma rb_load_then_run capA capB nA nB (opsA opsB ops : list (rb_op T)) : 0 < nA -> 0 < nB ->
  exists a0 a b0 b b1 b2, replay_buffer capA nA = Ok a0 /\ rb_run raq_append a0 opsA = Ok a /\
    replay_buffer capB nB = Ok b0 /\ rb_run raq_append b0 opsB = Ok b /\
    rb_load b (rb_save a) = Ok b1 /\ rb_run raq_append b1 ops = Ok b2 /\
    raq_iter (memory b2) = trunc capA (raq_iter (memory a) ++ map snd (log_from nB opsB ops)).
Proof.
  intros HA HB. unfold replay_buffer.
  destruct (raq_init_spec (A := list tr) capA []) as (qa & Ea & Hia & Hma).
  destruct (raq_init_spec (A := list tr) capB []) as (qb & Eb & Hib & Hmb).
  rewrite Ea, Eb. cbn [rbind]. unfold rb_init. replace (0 <? nA) with true by lia. replace (0 <? nB) with true by lia.
  cbn [passert rbind].
  pose proof (rb_run_log raq_append opsA [] (mkRb nA qa (fun _ => [])) (rb_inv_init nA qa HA)) as H1. cbn [memory num_steps] in H1.
  destruct (raq_appends (map snd (log_from nA [] opsA)) qa []) as (qa' & E1 & I1 & M1).
  { rewrite Hia, Hma. reflexivity. }
  rewrite E1 in H1. destruct H1 as (a & R1 & Em1 & _).
  pose proof (rb_run_log raq_append opsB [] (mkRb nB qb (fun _ => [])) (rb_inv_init nB qb HB)) as H2. cbn [memory num_steps app] in H2.
  destruct (raq_appends (map snd (log_from nB [] opsB)) qb []) as (qb' & E2 & _).
  { rewrite Hib, Hmb. reflexivity. }
  rewrite E2 in H2. destruct H2 as (b & R2 & _ & N2 & Inv).
  cbn [num_steps] in N2.
  set (b1 := mkRb (num_steps b) (memory a) (last_n b)).
  assert (Inv1 : rb_inv opsB b1) by exact Inv.
  pose proof (rb_run_log raq_append ops opsB b1 Inv1) as H3. cbn [b1 memory num_steps] in H3. rewrite N2 in H3.
  destruct (raq_appends (map snd (log_from nB opsB ops)) (memory a) (raq_iter (memory a))) as (q3 & E3 & I3 & M3).
  { rewrite Em1, I1, M1. now rewrite trunc_idem. }
  rewrite E3 in H3. destruct H3 as (b2 & R3 & Em3 & _).
  exists (mkRb nA qa (fun _ => [])), a, (mkRb nB qb (fun _ => [])), b, b1, b2.
  split; [reflexivity|]. split; [exact R1|]. split; [reflexivity|]. split; [exact R2|]. split; [reflexivity|].
  split; [exact R3|]. rewrite Em3, I3, Em1, M1, Hma. reflexivity.
Qed.

Lemma eb_load_enforces cap (a b : ebuf T) e :
  persistent b = false -> e_cap b = cap -> current b e <> [] ->
  maxlen (episodic_memory a) = None -> maxlen (e_memory a) = None ->
  raq_iter (e_memory a) = flat (raq_iter (episodic_memory a)) ->
  exists b', eb_stop (eb_load b (eb_save a)) e = Ok b' /\
    raq_iter (e_memory b') = flat (raq_iter (episodic_memory b')) /\
    kept_within cap (raq_iter (episodic_memory a) ++ [current b e]) (raq_iter (episodic_memory b')).
Proof.
  intros Hp Hc Hne M1 M2 Hs. unfold eb_stop. cbn [eb_load eb_save current episodic_memory e_memory persistent e_cap fst snd].
  destruct (current b e) as [|t0 ep0] eqn:Ee; [congruence|]. set (ep := t0 :: ep0) in *. clearbody ep.
  destruct (raq_append_spec (episodic_memory a) ep) as (em & E1 & Hi1 & Hmm1); [now rewrite M1|].
  rewrite E1. cbn [rbind]. rewrite M1 in Hi1, Hmm1. cbn [trunc] in Hi1.
  destruct (append_each_spec ep (e_memory a) (raq_iter (e_memory a))) as (m & E2 & Hi2 & Hmm2); [now rewrite M2|].
  rewrite E2. cbn [rbind]. rewrite M2 in Hi2, Hmm2. cbn [trunc] in Hi2.
  assert (Hs' : raq_iter m = flat (raq_iter em)).
  { rewrite Hi2, Hi1, Hs, flat_app. f_equal. unfold flat. cbn. now rewrite app_nil_r. }
  rewrite Hc, Hp. destruct cap as [c|].
  - destruct (evict_spec c (S (raq_len em)) em m) as (em' & m' & E3 & A1 & A2 & A3 & A4); auto.
    { rewrite raq_len_iter. lia. }
    rewrite E3. cbn [rbind]. eexists. split; [reflexivity|]. split; [exact A3|]. cbn [episodic_memory]. now rewrite <- Hi1.
  - cbn [rbind]. eexists. split; [reflexivity|]. split; [exact Hs'|]. exact Hi1.
Qed.

(** ** v0.2 files *)
Lemma recover_concat (items : list tr) : forall ep z, terminal z = true ->
  concat (recover ep (items ++ [z])) = ep ++ items ++ [z].
Proof.
  induction items as [|t r IH]; intros ep z Hz; cbn [app recover].
  - rewrite Hz. cbn. now rewrite app_nil_r.
  - destruct (terminal t).
    + cbn [concat]. rewrite IH by auto. rewrite <- app_assoc. reflexivity.
    + rewrite IH by auto. rewrite <- app_assoc. reflexivity.
Qed.

Lemma load_v02_in_step cap (b : ebuf T) items z :
  persistent b = false -> e_cap b = cap -> terminal z = true ->
  exists b', eb_load_v02 b (items ++ [z]) = Ok b' /\
    raq_iter (e_memory b') = map (fun t => [t]) (items ++ [z]) /\
    raq_iter (e_memory b') = flat (raq_iter (episodic_memory b')) /\
    maxlen (e_memory b') = None /\ maxlen (episodic_memory b') = None /\ persistent b' = false /\ e_cap b' = cap.
Proof.
  intros Hp Hc Hz. unfold eb_load_v02.
  destruct (raq_init_spec None (map (fun t => [t]) (items ++ [z]))) as (m & E1 & I1 & M1).
  destruct (raq_init_spec None (recover [] (items ++ [z]))) as (em & E2 & I2 & M2).
  rewrite E1. cbn [rbind]. rewrite E2. cbn [rbind]. eexists. split; [reflexivity|].
  cbn [e_memory episodic_memory persistent e_cap]. rewrite I1, I2. cbn [trunc]. unfold flat. rewrite recover_concat by auto. auto 10.
Qed.
End Load.

(** ** C15 *)
Lemma random_subseq_ok {A} rnd (l : list A) L : randint_ok rnd ->
  block (random_subseq rnd l L) l /\ length (random_subseq rnd l L) = Nat.min L (length l).
Proof.
  intros Hr. unfold random_subseq. destruct (length l <=? L) eqn:E.
  - split; [|lia]. exists [], []. now rewrite app_nil_r.
  - specialize (Hr (length l - L + 1) ltac:(lia)). set (i := rnd _) in *. split.
    + exists (firstn i l), (skipn L (skipn i l)). now rewrite firstn_skipn, firstn_skipn.
    + rewrite firstn_length, skipn_length. lia.
Qed.
Lemma random_subseq_short {A} rnd (l : list A) L : length l <= L -> random_subseq rnd l L = l.
Proof. intros H. unfold random_subseq. now replace (length l <=? L) with true by lia. Qed.
Lemma random_subseq_all_offsets {A} (a sub c : list A) L : length sub = L -> 
  exists rnd, randint_ok rnd /\ random_subseq rnd (a ++ sub ++ c) L = sub.
Proof.
  intros HL. exists (fun k => if length a <? k then length a else 0). split.
  - intros k Hk. destruct (length a <? k) eqn:E; lia.
  - unfold random_subseq. rewrite !app_length. destruct (length a + (length sub + length c) <=? L) eqn:E.
    + destruct a; [|cbn [length] in E; lia]. destruct c; [|cbn [length] in E; lia]. cbn. now rewrite app_nil_r.
    + replace (length a <? length a + (length sub + length c) - L + 1) with true by lia.
      rewrite skipn_app, skipn_all, Nat.sub_diag. cbn [skipn app]. rewrite firstn_app, HL, Nat.sub_diag. cbn [firstn].
      rewrite app_nil_r. apply firstn_all2. lia.
Qed.

Lemma subseqs_ok {A} offs L : (forall j, randint_ok (offs j)) -> forall (l : list (list A)) eps ixs j,
  Forall2 (fun i ep => nth_error l i = Some ep) ixs eps ->
  Forall2 (fun i x => exists ep, nth_error l i = Some ep /\ block x ep /\ length x = Nat.min L (length ep)) ixs (subseqs j offs eps L).
Proof.
  intros Ho l eps ixs j H. revert j. induction H as [|i ep ixs eps Hi H IH]; intros j; cbn; constructor; auto.
  exists ep. split; [exact Hi|]. now apply random_subseq_ok.
Qed.

Lemma sample_episodes_ok {T} fuel o offs (b : ebuf T) n max_len :
  n <= length (raq_iter (episodic_memory b)) -> numpy_contract (length (raq_iter (episodic_memory b))) n o ->
  (forall j, randint_ok (offs j)) ->
  match eb_sample_episodes fuel o offs b n max_len with
  | Ok xs => exists ixs, distinct_sample (length (raq_iter (episodic_memory b))) n ixs /\
      Forall2 (fun i x => exists ep, nth_error (raq_iter (episodic_memory b)) i = Some ep /\ block x ep /\
                 length x = match max_len with None => length ep | Some L => Nat.min L (length ep) end) ixs xs
  | Err e => e = OutOfFuel
  end.
Proof.
  intros Hn Hc Ho. unfold eb_sample_episodes. rewrite raq_len_iter. replace (n <=? _) with true by lia. cbn [passert rbind].
  pose proof (raq_sample_ok fuel o (episodic_memory b) n Hn Hc) as H.
  destruct (raq_sample fuel o (episodic_memory b) (Z.of_nat n)) as [eps|e]; cbn [rbind]; [|exact H].
  destruct H as (ixs & Hd & HF). exists ixs. split; [exact Hd|]. destruct max_len as [L|].
  - now apply subseqs_ok.
  - clear -HF. induction HF; constructor; auto. eexists. split; [eassumption|]. split; [|reflexivity]. exists [], []. now rewrite app_nil_r.
Qed.

Lemma rb_load_capacity {T} capA capB nA nB (opsA opsB ops : list (rb_op T)) :
  match capA with Some a => a <= capB | None => False end -> 0 < nA -> 0 < nB ->
  forall a0 a b0 b b1 b2, replay_buffer capA nA = Ok a0 -> rb_run raq_append a0 opsA = Ok a ->
    replay_buffer (Some capB) nB = Ok b0 -> rb_run raq_append b0 opsB = Ok b ->
    rb_load b (rb_save a) = Ok b1 -> rb_run raq_append b1 ops = Ok b2 ->
    raq_len (memory b2) <= capB.
Proof.
  intros Hle HA HB a0 a b0 b b1 b2 E1 E2 E3 E4 E5 E6.
  destruct (rb_load_then_run capA (Some capB) nA nB opsA opsB ops HA HB) as (a0' & a' & b0' & b' & b1' & b2' & F1 & F2 & F3 & F4 & F5 & F6 & F7).
  rewrite F1 in E1; injection E1 as ->. rewrite F2 in E2; injection E2 as ->. rewrite F3 in E3; injection E3 as ->.
  rewrite F4 in E4; injection E4 as ->. rewrite F5 in E5; injection E5 as ->. rewrite F6 in E6; injection E6 as ->.
  rewrite raq_len_iter, F7. destruct capA as [c|]; [|contradiction]. cbn. rewrite lastn_length. lia.
Qed.

Lemma eb_load_restores_enforces {T} cap (a b : ebuf T) e :
  persistent b = false -> e_cap b = cap -> current b e <> [] ->
  maxlen (episodic_memory a) = None -> maxlen (e_memory a) = None ->
  raq_iter (e_memory a) = flat (raq_iter (episodic_memory a)) ->
  (raq_iter (e_memory (eb_load b (eb_save a))) = raq_iter (e_memory a) /\
   raq_iter (episodic_memory (eb_load b (eb_save a))) = raq_iter (episodic_memory a)) /\
  exists b', eb_stop (eb_load b (eb_save a)) e = Ok b' /\
    raq_iter (e_memory b') = flat (raq_iter (episodic_memory b')) /\
    kept_within cap (raq_iter (episodic_memory a) ++ [current b e]) (raq_iter (episodic_memory b')).
Proof. intros. split; [split; reflexivity|]. now apply eb_load_enforces. Qed.
