(** C45: synchronising target networks. *)
From Coq Require Import QArith Lqa.
From Verif Require Import Base P_Base Vec M_CopyParam S_CopyParam.
Open Scope nat_scope.

Lemma set_eq {X} (l : list X) i y : i < length l -> nth_error (list_set l i y) i = Some y.
Proof. revert i. induction l as [|x l IH]; intros [|i] H; cbn in *; try lia; [reflexivity|]. apply IH. lia. Qed.
Lemma set_neq {X} (l : list X) i j y : i <> j -> nth_error (list_set l i y) j = nth_error l j.
Proof. revert i j. induction l as [|x l IH]; intros [|i] [|j] H; cbn in *; try reflexivity; try congruence. apply IH. congruence. Qed.
Lemma lookup_in d k r : NoDup (keys d) -> In (k, r) d -> lookup d k = Some r.
Proof.
  unfold lookup. induction d as [|[k' r'] d IH]; intros ND H; [destruct H|]. cbn [find fst]. apply NoDup_cons_iff in ND. destruct ND as [NI ND]. destruct H as [E|H].
  - injection E as -> ->. rewrite Nat.eqb_refl. reflexivity.
  - destruct (Nat.eqb_spec k' k) as [->|N]; [destruct NI; apply in_map_iff; exists (k, r); auto|]. apply IH; assumption.
Qed.
Lemma in_keys d k : In k (keys d) -> exists r, In (k, r) d.
Proof. intros H. apply in_map_iff in H. destruct H as ([k' r] & <- & H). eauto. Qed.
Lemma keys_fun d k r r' : NoDup (keys d) -> In (k, r) d -> In (k, r') d -> r = r'.
Proof. intros ND H H'. pose proof (lookup_in _ _ _ ND H). pose proof (lookup_in _ _ _ ND H'). congruence. Qed.
Lemma shape_eqb_refl s : shape_eqb s s = true.
Proof. unfold shape_eqb. destruct (list_eq_dec Nat.eq_dec s s); congruence. Qed.
Lemma in_refs d k r : In (k, r) d -> In r (refs d).
Proof. intros H. apply in_map_iff. exists (k, r). auto. Qed.

Section C45.
  Context (cast : dtype -> dtype -> Q -> Q) (cast_id : forall d x, cast d d x = x).
  Lemma map_cast d l : map (cast d d) l = l.
  Proof. rewrite (map_ext _ (fun x => x)) by (intros; apply cast_id). apply map_id. Qed.

  Context (h : heap) (src dst : dict) (AL : alike h src dst).
  (** partner of an entry of dst *)
  Lemma partner k r : In (k, r) dst -> exists s ts t, In (k, s) src /\ nth_error h s = Some ts /\ nth_error h r = Some t /\ dt ts = dt t /\ shape ts = shape t /\ length (data ts) = length (data t) /\ s <> r.
  Proof.
    destruct AL as (N1 & N2 & K & E1 & E2 & T & D). intros H. assert (Hk : In k (keys dst)) by (apply in_map_iff; exists (k, r); auto). pose proof (proj2 (K k) Hk) as Hs.
    destruct (E1 k Hs) as (ts & s & Is & Es). destruct (E2 k Hk) as (t & r' & Ir & Er). assert (r' = r) by exact (keys_fun dst k r' r N2 Ir H). subst r'.
    exists s, ts, t. destruct (T k ts t) as (T1 & T2 & T3); [exists s; auto|exists r; auto|]. repeat split; try assumption. intros ->. apply (D r); [eapply in_refs; eassumption|eapply in_refs; eassumption].
  Qed.

  Definition skel (hc : heap) : Prop := forall r t, nth_error h r = Some t -> exists t', nth_error hc r = Some t' /\ dt t' = dt t /\ shape t' = shape t.

  Lemma load_items_ok : tied_alike src dst -> forall l hc, incl l dst -> (forall s, In s (refs src) -> nth_error hc s = nth_error h s) -> skel hc ->
    exists h', load_items cast hc l src = Ok h' /\ (forall r, ~ In r (refs l) -> nth_error h' r = nth_error hc r) /\ (forall k r s, In (k, r) l -> In (k, s) src -> nth_error h' r = nth_error h s).
  Proof.
    intros TI l. induction l as [|[k r] l IH]; intros hc IN HS SK; [exists hc; repeat split; intros ? ? ? []|].
    assert (Hd : In (k, r) dst) by (apply IN; left; reflexivity). destruct (partner k r Hd) as (s & ts & t & Is & Es & Er & T1 & T2 & T3 & Ne). destruct AL as (N1 & N2 & K & E1 & E2 & T & D).
    cbn [load_items]. rewrite (lookup_in _ _ _ N1 Is). destruct (SK r t Er) as (t' & Er' & S1 & S2). unfold get. rewrite (HS s (in_refs _ _ _ Is)), Es, Er'. cbn [rbind]. rewrite S2, <- T2, shape_eqb_refl.
    set (new := mkT (dt t') (shape ts) (map (cast (dt ts) (dt t')) (data ts))). assert (En : new = ts) by (unfold new; rewrite S1, <- T1, map_cast; destruct ts; reflexivity). rewrite En.
    assert (Lr : r < length hc) by (apply nth_error_Some; congruence).
    destruct (IH (list_set hc r ts)) as (h' & E' & U & V).
    - intros x Hx. apply IN. right. exact Hx.
    - intros s' Hs'. rewrite set_neq; [apply HS; exact Hs'|]. intros <-. apply (D r Hs'). eapply in_refs. exact Hd.
    - intros r' t0 E0. destruct (Nat.eq_dec r r') as [<-|N]; [|rewrite set_neq by exact N; apply SK; exact E0]. rewrite set_eq by exact Lr. exists ts. rewrite Er in E0. injection E0 as <-. auto.
    - exists h'. split; [exact E'|]. split.
      + intros r' Hr'. cbn in Hr'. rewrite U by tauto. apply set_neq. tauto.
      + intros k' r' s' [E|H] Hs'; [|eapply V; eassumption]. injection E as <- <-. assert (s' = s) by exact (keys_fun src k s' s N1 Hs' Is). subst s'.
        destruct (in_dec Nat.eq_dec r (refs l)) as [Y|N].
        * apply in_map_iff in Y. destruct Y as ([k2 r2] & E2' & H2). cbn in E2'. subst r2. destruct (TI k k2 r Hd) as (s2 & A1 & A2); [apply IN; right; exact H2|]. assert (s2 = s) by exact (keys_fun src k s2 s N1 A1 Is). subst s2.
          eapply V; eassumption.
        * rewrite U by exact N. rewrite set_eq by exact Lr. congruence.
  Qed.
  Lemma no_mismatch : mismatch h dst src = false.
  Proof.
    unfold mismatch. apply orb_false_iff. split.
    - apply not_true_iff_false. intros H. apply existsb_exists in H. destruct H as ([k r] & Hd & X). cbn [fst snd] in X. destruct (partner k r Hd) as (s & ts & t & Is & Es & Er & T1 & T2 & T3 & Ne). destruct AL as (N1 & _). rewrite (lookup_in _ _ _ N1 Is), Er, Es, T2, shape_eqb_refl in X. discriminate.
    - apply not_true_iff_false. intros H. apply existsb_exists in H. destruct H as ([k r] & Hd & X). cbn [fst] in X. destruct AL as (N1 & N2 & K & _). assert (Hk : In k (keys dst)) by (apply K; apply in_map_iff; exists (k, r); auto). destruct (in_keys _ _ Hk) as (r' & Hr'). rewrite (lookup_in _ _ _ N2 Hr') in X. discriminate.
  Qed.

  Definition mixes (d : dtype) : bool := match d with F32 | F64 | F16 => true | _ => false end.
  Lemma soft_ok tau : forall l hc, incl l dst -> NoDup (refs l) -> (forall s, In s (refs src) -> nth_error hc s = nth_error h s) -> (forall r, In r (refs l) -> nth_error hc r = nth_error h r) ->
    exists h', soft_copy_param cast hc l src tau = Ok h' /\ (forall r, ~ In r (refs l) -> nth_error h' r = nth_error hc r) /\
      (forall k r s t ts, In (k, r) l -> In (k, s) src -> nth_error h r = Some t -> nth_error h s = Some ts -> if mixes (dt ts) then exists t', nth_error h' r = Some t' /\ mixed tau t ts t' else nth_error h' r = Some t).
  Proof.
    intros l. induction l as [|[k r] l IH]; intros hc IN ND HS HR; [exists hc; repeat split; intros ? ? ? ? ? []|].
    assert (Hd : In (k, r) dst) by (apply IN; left; reflexivity). destruct (partner k r Hd) as (s & ts & t & Is & Es & Er & T1 & T2 & T3 & Ne). destruct AL as (N1 & N2 & K & E1 & E2 & T & D).
    cbn [refs map] in ND. apply NoDup_cons_iff in ND. destruct ND as [NI ND]. fold (refs l) in *.
    assert (Er' : nth_error hc r = Some t) by (rewrite HR by (left; reflexivity); exact Er). assert (Es' : nth_error hc s = Some ts) by (rewrite (HS s (in_refs _ _ _ Is)); exact Es).
    assert (Lr : r < length hc) by (apply nth_error_Some; congruence).
    assert (G : exists h1, soft_item cast hc src tau k r = Ok h1 /\ (forall r', r' <> r -> nth_error h1 r' = nth_error hc r') /\ if mixes (dt ts) then exists t', nth_error h1 r = Some t' /\ mixed tau t ts t' else nth_error h1 r = Some t).
    { unfold soft_item. rewrite (lookup_in _ _ _ N1 Is). unfold get at 1 2. rewrite Es', Er'. cbn [rbind]. destruct (mixes (dt ts)) eqn:MX.
      - set (h1 := list_set hc r (mkT (dt t) (shape t) (vscale (1 - tau) (data t)))). set (t1 := mkT (dt t) (shape t) (vscale (1 - tau) (data t))) in *.
        assert (A1 : nth_error h1 r = Some t1) by (apply set_eq; exact Lr). assert (A2 : nth_error h1 s = Some ts) by (unfold h1; rewrite set_neq by congruence; exact Es'). unfold get. rewrite A1, A2.
        rewrite T2, shape_eqb_refl. cbn [passert rbind]. assert (FLT : is_floating (dt t) = true) by (rewrite <- T1; destruct (dt ts); (reflexivity || discriminate)).
        exists (list_set h1 r (mkT (dt t) (shape t) (vadd (vscale (1 - tau) (data t)) (map (cast (dt ts) (dt t)) (vscale tau (data ts)))))). split; [destruct (dt ts); try discriminate MX; rewrite FLT; reflexivity|]. split.
        + intros r' Hr'. rewrite set_neq by congruence. unfold h1. apply set_neq. congruence.
        + eexists. split; [apply set_eq; unfold h1; rewrite list_set_length; exact Lr|]. rewrite T1, map_cast. split; [reflexivity|]. split; [reflexivity|]. cbn [data]. split; [apply vadd_len; [apply vscale_len; reflexivity|apply vscale_len; exact T3]|].
          clear - T3. intros i x y z. revert i. generalize dependent (data ts). generalize (data t). intros a. induction a as [|u a IH]; intros [|w b] L [|i]; cbn in *; try discriminate.
          * intros A B C. injection A as ->. injection B as ->. injection C as <-. reflexivity.
          * apply IH. congruence.
      - exists hc. split; [destruct (dt ts); try discriminate MX; reflexivity|]. split; [reflexivity|exact Er']. }
    destruct G as (h1 & Eh1 & U1 & V1). cbn [soft_copy_param]. rewrite Eh1. cbn [rbind].
    destruct (IH h1) as (h' & E' & U & V).
    - intros x Hx. apply IN. right. exact Hx.
    - exact ND.
    - intros s' Hs'. rewrite U1; [apply HS; exact Hs'|]. intros ->. apply (D r Hs'). eapply in_refs. exact Hd.
    - intros r' Hr'. rewrite U1 by (intros ->; contradiction). apply HR. right. exact Hr'.
    - exists h'. split; [exact E'|]. split.
      + intros r' Hr'. cbn in Hr'. rewrite U by tauto. apply U1. intros ->. tauto.
      + intros k' r' s' t0 ts0 [E|H] Hs' Ht Hts; [|eapply V; eassumption]. injection E as <- <-. assert (s' = s) by exact (keys_fun src k s' s N1 Hs' Is). subst s'. rewrite Er in Ht. injection Ht as <-. rewrite Es in Hts. injection Hts as <-.
        rewrite (U r NI). exact V1.
  Qed.
End C45.

(** Hard synchronisation: no error; every entry of the target equals that of the source; the source and all unrelated tensors are unchanged. *)
Theorem C45_hard cast (h : heap) (src dst : dict) : (forall d x, cast d d x = x) -> alike h src dst -> tied_alike src dst ->
  exists h', synchronize_parameters cast h src dst Hard = Ok (h', false) /\ (forall k t, entry h src k t -> entry h' dst k t) /\
    (forall r, ~ In r (refs dst) -> nth_error h' r = nth_error h r).
Proof.
  intros CI AL TI. destruct (load_items_ok cast CI h src dst AL TI dst h) as (h' & E & U & V); [apply incl_refl|reflexivity|intros r t Hr; exists t; auto|].
  exists h'. unfold synchronize_parameters, copy_param, load_state_dict. rewrite E. cbn [rbind]. rewrite (no_mismatch h src dst AL). split; [reflexivity|]. split; [|exact U].
  intros k t (s & Is & Es). destruct AL as (_ & _ & K & _). assert (Hk : In k (keys dst)) by (apply K; apply in_map_iff; exists (k, s); auto). destruct (in_keys _ _ Hk) as (r & Hr). exists r. split; [exact Hr|]. rewrite (V k r s Hr Is). exact Es.
Qed.

(** Soft synchronisation, for targets without shared storages: every entry of dtype float16, float32 or float64 becomes (1 - tau) * target + tau * source.
    Missing from the claim: entries of other dtypes, which are left as they are (C45_soft_refuted), and shared storages (C45_tied_refuted). *)
Theorem C45_soft_partial cast (h : heap) (src dst : dict) tau : (forall d x, cast d d x = x) -> alike h src dst -> NoDup (refs dst) ->
  exists h', synchronize_parameters cast h src dst (Soft tau) = Ok (h', false) /\ (forall r, ~ In r (refs dst) -> nth_error h' r = nth_error h r) /\
    (forall k t ts, entry h src k ts -> entry h dst k t ->
       match dt ts with F16 | F32 | F64 => exists t', entry h' dst k t' /\ mixed tau t ts t' | _ => entry h' dst k t end).
Proof.
  intros CI AL ND. destruct (soft_ok cast CI h src dst AL tau dst h) as (h' & E & U & V); [apply incl_refl|exact ND|reflexivity|reflexivity|].
  exists h'. unfold synchronize_parameters. rewrite E. cbn [rbind]. split; [reflexivity|]. split; [exact U|].
  intros k t ts (s & Is & Es) (r & Ir & Er). specialize (V k r s t ts Ir Is Er Es). destruct (dt ts); cbn [mixes] in V; try (exists r; auto; fail); destruct V as (t' & Ht & M); exists t'; (split; [exists r; auto|exact M]).
Qed.

(** An integer entry (a batch normalisation's num_batches_tracked) keeps the target's value whatever tau is, even 1. *)
Theorem C45_soft_refuted : exists h src dst k ts, alike h src dst /\ NoDup (refs dst) /\ entry h src k ts /\ dt ts = I64 /\
  forall cast tau, exists h', synchronize_parameters cast h src dst (Soft tau) = Ok (h', false) /\ ~ entry h' dst k ts.
Proof.
  set (s := mkT I64 [] [7%Q]). set (t := mkT I64 [] [0%Q]). exists [s; t], [(5, 0)], [(5, 1)], 5, s.
  assert (N1 : forall x : nat, NoDup [x]) by (intros x; constructor; [intros []|constructor]). split; [|split; [apply N1|split; [exists 0; split; [left; reflexivity|reflexivity]|split; [reflexivity|]]]].
  - split; [apply N1|]. split; [apply N1|]. split; [intros k; reflexivity|]. split; [|split; [|split]].
    + intros k [<-|[]]; exists s, 0; split; cbn; auto.
    + intros k [<-|[]]; exists t, 1; split; cbn; auto.
    + intros k a b (r & [A|[]] & A2) (r' & [B|[]] & B2). assert (r = 0) by congruence. assert (r' = 1) by congruence. subst r r'. cbn in A2, B2. assert (a = s) by congruence. assert (b = t) by congruence. subst a b. repeat split.
    + intros r [<-|[]] [Y|[]]. discriminate.
  - intros cast tau. exists [s; t]. split; [reflexivity|]. intros (r & [X|[]] & Y). injection X as <-. discriminate Y.
Qed.

(** A storage with two names (tied parameters) is mixed twice: with tau = 1/2 the target 0 and the source 1 give 3/4. *)
Theorem C45_tied_refuted : exists h src dst k ts t, alike h src dst /\ tied_alike src dst /\ entry h src k ts /\ entry h dst k t /\
  exists h', synchronize_parameters (fun _ _ x => x) h src dst (Soft (1 # 2)) = Ok (h', false) /\ forall t', entry h' dst k t' -> ~ mixed (1 # 2) t ts t'.
Proof.
  set (s := mkT F32 [1] [1%Q]). set (t := mkT F32 [1] [0%Q]). exists [s; t], [(5, 0); (6, 0)], [(5, 1); (6, 1)], 5, s, t.
  assert (N1 : NoDup [5; 6]) by (constructor; [intros [X|[]]; discriminate|constructor; [intros []|constructor]]).
  split; [|split; [|split; [exists 0; split; [left; reflexivity|reflexivity]|split; [exists 1; split; [left; reflexivity|reflexivity]|]]]].
  - assert (X : forall (k r : nat), In (k, r) [(5, 0); (6, 0)] -> r = 0) by (intros k r [X|[X|[]]]; congruence). assert (X' : forall (k r : nat), In (k, r) [(5, 1); (6, 1)] -> r = 1) by (intros k r [Y|[Y|[]]]; congruence).
    split; [exact N1|]. split; [exact N1|]. split; [intros k; reflexivity|]. split; [|split; [|split]].
    + intros k [<-|[<-|[]]]; exists s, 0; split; cbn; auto.
    + intros k [<-|[<-|[]]]; exists t, 1; split; cbn; auto.
    + intros k a b (r & A1 & A2) (r' & B1 & B2). apply X in A1. apply X' in B1. subst r r'. injection A2 as <-. injection B2 as <-. repeat split.
    + intros r [<-|[<-|[]]] [Y|[Y|[]]]; discriminate.
  - intros k k' r [A|[A|[]]] [B|[B|[]]]; injection A as <- <-; injection B as <-; exists 0; cbn; auto.
  - eexists. split; [vm_compute; reflexivity|]. intros t' (r & [A|[A|[]]] & B) (_ & _ & _ & M); [|discriminate A]. injection A as <-. cbn in B. injection B as <-. specialize (M 0 _ _ _ eq_refl eq_refl eq_refl). vm_compute in M. discriminate.
Qed.

(** a weight and a counter; hard and soft *)
Definition ex_h : heap := [mkT F32 [2] [1; 2]%Q; mkT I64 [] [9%Q]; mkT F32 [2] [5; 6]%Q; mkT I64 [] [3%Q]].
Example C45_ex : synchronize_parameters (fun _ _ x => x) ex_h [(0, 0); (1, 1)] [(0, 2); (1, 3)] Hard = Ok ([mkT F32 [2] [1; 2]%Q; mkT I64 [] [9%Q]; mkT F32 [2] [1; 2]%Q; mkT I64 [] [9%Q]], false) /\
  exists h', synchronize_parameters (fun _ _ x => x) ex_h [(0, 0); (1, 1)] [(0, 2); (1, 3)] (Soft (1 # 4)) = Ok (h', false) /\ map (fun t => map Qred (data t)) h' = [[1; 2]; [9]; [4; 5]; [3]]%Q.
Proof. split; [vm_compute; reflexivity|]. eexists. split; [vm_compute; reflexivity|]. vm_compute. reflexivity. Qed.

Print Assumptions C45_hard.
Print Assumptions C45_soft_partial.
Print Assumptions C45_soft_refuted.
Print Assumptions C45_tied_refuted.
