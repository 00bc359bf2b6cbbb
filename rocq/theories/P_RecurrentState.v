(** Lemmas for C53-C55: recurrent states, sequential models, recurrent batches. *)
From Verif Require Import Base P_Base M_ReplayBuffer M_Batch P_Batch M_Recurrent S_Recurrent P_Recurrent.
From Coq Require Import ZifyBool ZifyNat Permutation Lqa.
Close Scope Q_scope.

Section RInd.
Context {T : Type} (P : rstate T -> Prop) (Hn : P RNone) (Hl : forall x, P (RTen x)) (Ht : forall l, Forall P l -> P (RTup l)).
Fixpoint rstate_ind' (t : rstate T) : P t :=
  match t with
  | RNone => Hn
  | RTen x => Hl x
  | RTup l => Ht l ((fix go l := match l return Forall P l with [] => Forall_nil _ | x :: r => Forall_cons _ (rstate_ind' x) (go r) end) l)
  end.
End RInd.
Section ShInd.
Context (P : shape -> Prop) (Hl : forall x, P (ShT x)) (Ht : forall l, Forall P l -> P (ShU l)).
Fixpoint shape_ind' (t : shape) : P t :=
  match t with
  | ShT x => Hl x
  | ShU l => Ht l ((fix go l := match l return Forall P l with [] => Forall_nil _ | x :: r => Forall_cons _ (shape_ind' x) (go r) end) l)
  end.
End ShInd.

(** The inner loop of [traverse] is [rmapM]. *)
Lemma traverse_tup {T U} (f : T -> result U) l : traverse f (RTup l) = (us <- rmapM (traverse f) l ;; Ok (RTup us)).
Proof.
  cbn [traverse]. f_equal. induction l as [|x l IH]; [reflexivity|]. cbn [rmapM]. now rewrite IH.
Qed.

Lemma rmapM_Forall2 {X Y} (f : X -> result Y) l ys : rmapM f l = Ok ys <-> Forall2 (fun x y => f x = Ok y) l ys.
Proof.
  split.
  - revert ys. induction l as [|x l IH]; cbn; intros ys H; [injection H as <-; constructor|].
    destruct (f x) eqn:E; cbn in H; [|discriminate]. destruct (rmapM f l); cbn in H; [|discriminate]. injection H as <-. constructor; auto.
  - induction 1 as [|x y l ys H HF IH]; [reflexivity|]. cbn. rewrite H. cbn. now rewrite IH.
Qed.
Lemma rmapM_ex {X Y} (f : X -> result Y) l : (forall x, In x l -> exists y, f x = Ok y) -> exists ys, rmapM f l = Ok ys.
Proof.
  induction l as [|x l IH]; intros H; cbn; [eauto|]. destruct (H x) as (y & ->); [now left|]. cbn.
  destruct IH as (ys & ->); [intros; apply H; now right|]. cbn. eauto.
Qed.

(** *** concatenate, then get *)
Definition fill (sh : shape) (s : rstate tens1) : rstate tens1 := match s with RNone => zero_state sh | _ => s end.

Lemma zeros_like_dims t : zeros_like t = map (fun n => repeat 0%Q n) (map (@length _) t).
Proof. unfold zeros_like. rewrite map_map. apply map_ext. intros l. induction l; cbn; congruence. Qed.
Lemma shape_eqb_dims a b : map (@length _) a = map (@length _) b -> shape_eqb a b = true.
Proof.
  revert b. induction a as [|x a IH]; intros [|y b] H; try discriminate; [reflexivity|]. injection H as H1 H2. specialize (IH b H2).
  unfold shape_eqb in *. cbn [length combine forallb fst snd] in *. rewrite H1, Nat.eqb_refl. cbn [Nat.eqb]. exact IH.
Qed.
Lemma first_non_none_ex sh l : Forall (fun s => s = RNone \/ has_shape sh s) l -> Exists (has_shape sh) l ->
  exists s, first_non_none l = Some s /\ has_shape sh s.
Proof.
  intros HF HE. induction HF as [|s l Hs HF IH]; [inversion HE|]. destruct s.
  - cbn. apply IH. inversion HE; subst; auto. inversion H0.
  - destruct Hs as [?|Hs]; [discriminate|]. cbn. eauto.
  - destruct Hs as [?|Hs]; [discriminate|]. cbn. eauto.
Qed.
Lemma first_non_none_all l : Forall (fun s => s = RNone) l -> first_non_none l = None.
Proof. induction 1; [reflexivity|]. now subst. Qed.

Lemma map_nth_seq {X} (l : list X) d : map (fun i => nth i l d) (seq 0 (length l)) = l.
Proof. induction l as [|x l IH]; [reflexivity|]. cbn [length seq map nth]. f_equal. rewrite <- seq_shift, map_map. exact IH. Qed.

Lemma get_columns (L : list tens1) i t : nth_error L i = Some t ->
  get_tensor i (map (fun l => map (fun t => nth l t []) L) (seq 0 (length t))) = Ok t.
Proof.
  intros Hi.
  apply rmapM_Forall2. rewrite <- (map_nth_seq t []) at 2. generalize (seq 0 (length t)). intros ix. induction ix as [|k ix IH]; [constructor|].
  cbn [map]. constructor; [|exact IH]. now rewrite (map_nth_error _ _ _ Hi).
Qed.

Lemma stack_get ts t0 r : stack (t0 :: ts) = Ok r -> forall i t, nth_error (t0 :: ts) i = Some t -> get_tensor i r = Ok t.
Proof.
  unfold stack. destruct (forallb (shape_eqb t0) (t0 :: ts)) eqn:E; [|discriminate]. intros H i t Hi. injection H as <-.
  rewrite forallb_forall in E. pose proof (E t (nth_error_In _ _ Hi)) as Et. unfold shape_eqb in Et. apply andb_true_iff in Et. destruct Et as [Et _].
  apply Nat.eqb_eq in Et. rewrite Et.
  exact (get_columns (t0 :: ts) i t Hi).
Qed.

Lemma rstate_concat sh : forall fuel l, depth sh <= fuel -> Forall (fun s => s = RNone \/ has_shape sh s) l -> Exists (has_shape sh) l ->
  exists r, concatenate_recurrent_states fuel l = Ok r /\
    forall i s, nth_error l i = Some s -> get_recurrent_state_at r i = Ok (fill sh s).
Proof.
  induction sh as [d|shs IH] using shape_ind'; intros fuel l Hf HF HE;
    destruct (first_non_none_ex _ _ HF HE) as (s0 & E0 & Hs0); inversion Hs0; subst.
  - assert (Hts : exists ts, rmapM (fun s => match s with RNone => Ok (zeros_like t) | RTen t => Ok t | RTup _ => Err TypeError end) l = Ok ts /\
       Forall2 (fun s t' => fill (ShT (map (@length _) t)) s = RTen t' /\ map (@length _) t' = map (@length _) t) l ts).
    { clear -HF. induction HF as [|s l Hs HF IH]; [exists []; split; [reflexivity|constructor]|]. destruct IH as (ts & E & H2). cbn [rmapM].
      destruct Hs as [->|Hs].
      - exists (zeros_like t :: ts). rewrite E. cbn. split; [reflexivity|]. constructor; [|exact H2]. cbn [fill zero_state]. rewrite zeros_like_dims.
        split; [reflexivity|]. rewrite !map_map. apply map_ext. intros; apply repeat_length.
      - destruct s as [|t0|ss]; [inversion Hs| |inversion Hs]. assert (Hd : map (@length _) t0 = map (@length _) t) by (inversion Hs; auto). exists (t0 :: ts). rewrite E. cbn. split; [reflexivity|]. constructor; [|exact H2]. split; auto. }
    destruct Hts as (ts & E & H2).
    assert (Hne : ts <> []). { intros ->. inversion H2; subst. inversion HE. }
    destruct ts as [|t1 ts]; [congruence|].
    assert (Hst : exists r, stack (t1 :: ts) = Ok r).
    { unfold stack. replace (forallb (shape_eqb t1) (t1 :: ts)) with true; [eauto|]. symmetry. apply forallb_forall. intros x Hx.
      assert (Hd : forall x, In x (t1 :: ts) -> map (@length _) x = map (@length _) t).
      { clear -H2. intros x Hx. induction H2 as [|s y l ys (_ & Hy) H2 IH]; [destruct Hx|]. destruct Hx as [->|Hx]; auto. }
      apply shape_eqb_dims. rewrite (Hd x Hx). apply Hd. now left. }
    destruct Hst as (r & Er). exists (RTen r). split.
    { destruct fuel; cbn [concatenate_recurrent_states]; rewrite E0, E; cbn [rbind]; rewrite Er; reflexivity. }
    intros i s Hi. assert (Hn : exists t', nth_error (t1 :: ts) i = Some t' /\ fill (ShT (map (@length _) t)) s = RTen t').
    { clear -H2 Hi. revert i Hi. induction H2 as [|s' y l ys (Hy & _) H2 IH]; intros [|i] Hi; try discriminate; cbn in Hi.
      - injection Hi as ->. exists y. auto.
      - cbn. eauto. }
    destruct Hn as (t' & Hn & ->). unfold get_recurrent_state_at. cbn [traverse]. rewrite (stack_get _ _ _ Er i t' Hn). reflexivity.
  - rename H0 into Hss. rename ss into ss0.
    destruct fuel as [|fuel]; [cbn in Hf; lia|].
    (* columns *)
    assert (HC : forall i sh, nth_error shs i = Some sh ->
       exists col c, rmapM (fun s : rstate tens1 => match s with
                                | RNone => Ok RNone
                                | RTup ss => match nth_error ss i with Some c => Ok c | None => Err IndexError end
                                | RTen _ => Err TypeError
                                end) l = Ok col /\ concatenate_recurrent_states fuel col = Ok c /\
         forall k s, nth_error l k = Some s -> exists y, get_recurrent_state_at c k = Ok y /\
            (match s with RNone => y = zero_state sh | RTup ss => nth_error ss i = Some y | RTen _ => False end)).
    { intros i sh Hi. rewrite Forall_forall in IH. pose proof (IH sh (nth_error_In _ _ Hi)) as IHsh.
      assert (Hcol : exists col, rmapM (fun s : rstate tens1 => match s with
                                | RNone => Ok RNone
                                | RTup ss => match nth_error ss i with Some c => Ok c | None => Err IndexError end
                                | RTen _ => Err TypeError
                                end) l = Ok col /\
          Forall2 (fun s c => (s = RNone /\ c = RNone) \/ (exists ss, s = RTup ss /\ nth_error ss i = Some c /\ has_shape sh c)) l col).
      { clear -HF Hi. induction HF as [|s l Hs HF IH]; [exists []; split; [reflexivity|constructor]|]. destruct IH as (col & E & H2). cbn [rmapM].
        destruct Hs as [->|Hs].
        - exists (RNone :: col). cbn. rewrite E. cbn. split; [reflexivity|]. constructor; auto.
        - inversion Hs as [|? ss Hss]; subst. destruct (nth_error ss i) as [c|] eqn:Ec.
          2:{ apply nth_error_None in Ec. assert (i < length shs) by (apply nth_error_Some; congruence). apply Forall2_len in Hss. lia. }
          exists (c :: col). cbn. rewrite E. cbn. split; [reflexivity|]. constructor; [|exact H2]. right. exists ss. split; [reflexivity|].
          split; [exact Ec|]. clear -Hss Hi Ec. revert i Hi Ec. induction Hss; intros [|i] Hi Ec; try discriminate; cbn in *; [congruence|eauto]. }
      destruct Hcol as (col & Ecol & H2).
      destruct (IHsh fuel col) as (c & Ec & Hget).
      - assert (depth sh <= list_max (map depth shs)); [|cbn in Hf; lia].
        assert (HFm : Forall (fun k => k <= list_max (map depth shs)) (map depth shs)) by (apply list_max_le; reflexivity).
        rewrite Forall_forall in HFm. apply HFm, in_map. eapply nth_error_In; eauto.
      - clear -H2. induction H2 as [|s c l col [(-> & ->)|(ss & -> & _ & H)] H2 IH]; constructor; auto.
      - clear -H2 HE. induction H2 as [|s c l col H H2 IH]; [inversion HE|]. inversion HE; subst.
        + left. destruct H as [(-> & _)|(ss & _ & _ & H)]; [inversion H1|exact H].
        + right. auto.
      - exists col, c. split; [exact Ecol|]. split; [exact Ec|]. intros k s Hk.
        assert (Hn : exists c', nth_error col k = Some c' /\ ((s = RNone /\ c' = RNone) \/ (exists ss, s = RTup ss /\ nth_error ss i = Some c' /\ has_shape sh c'))).
        { clear -H2 Hk. revert k Hk. induction H2; intros [|k] Hk; try discriminate; cbn in *; [injection Hk as ->; eauto|eauto]. }
        destruct Hn as (c' & Hc' & Hor). exists (fill sh c'). split; [now apply Hget|].
        destruct Hor as [(-> & ->)|(ss & -> & Hnth & Hsh)]; [reflexivity|]. rewrite Hnth. inversion Hsh; subst; reflexivity. }
    assert (Hlen0 : length ss0 = length shs) by (symmetry; eapply Forall2_len; eauto).
    set (F := fun i => col <- rmapM (fun s : rstate tens1 => match s with
                                | RNone => Ok RNone
                                | RTup ss => match nth_error ss i with Some c => Ok c | None => Err IndexError end
                                | RTen _ => Err TypeError
                                end) l ;; concatenate_recurrent_states fuel col).
    destruct (rmapM_ex F (seq 0 (length ss0))) as (cs & Ecs).
    { intros i Hi. apply in_seq in Hi. destruct (nth_error shs i) as [sh|] eqn:Esh; [|apply nth_error_None in Esh; lia].
      destruct (HC i sh Esh) as (col & c & E1 & E2 & _). exists c. unfold F. rewrite E1. cbn. exact E2. }
    exists (RTup cs). split. { cbn [concatenate_recurrent_states]. rewrite E0. fold F. rewrite Ecs. reflexivity. }
    intros k s Hk. unfold get_recurrent_state_at. rewrite traverse_tup.
    apply rmapM_Forall2 in Ecs.
    assert (Hs : s = RNone \/ has_shape (ShU shs) s). { rewrite Forall_forall in HF. apply HF. eapply nth_error_In; eauto. }
    assert (HG : exists ys, rmapM (traverse (get_tensor k)) cs = Ok ys /\ length ys = length shs /\
       forall i y, nth_error ys i = Some y -> match s with RNone => exists sh, nth_error shs i = Some sh /\ y = zero_state sh | RTup ss => nth_error ss i = Some y | RTen _ => False end).
    { assert (Lcs : length cs = length shs) by (apply Forall2_len in Ecs; rewrite seq_length in Ecs; lia).
      assert (Hall : forall i c, nth_error cs i = Some c -> exists sh y, nth_error shs i = Some sh /\ traverse (get_tensor k) c = Ok y /\
         (match s with RNone => y = zero_state sh | RTup ss => nth_error ss i = Some y | RTen _ => False end)).
      { intros i c Hc. destruct (nth_error shs i) as [sh|] eqn:Esh.
        2:{ apply nth_error_None in Esh. assert (i < length cs) by (apply nth_error_Some; congruence). lia. }
        destruct (HC i sh Esh) as (col & c' & E1 & E2 & Hg). destruct (Hg k s Hk) as (y & Ey & Hy). exists sh, y. split; [reflexivity|].
        assert (c = c'); [|subst; auto].
        assert (Hi : nth_error (seq 0 (length ss0)) i = Some i).
        { assert (i < length shs) by (apply nth_error_Some; congruence). rewrite nth_error_nth' with (d := 0) by (rewrite seq_length; lia). now rewrite seq_nth by lia. }
        assert (HFi : F i = Ok c). { clear -Ecs Hi Hc. revert Hi Hc. generalize i at 1 3. intros j Hj Hc. revert j Hj Hc. induction Ecs; intros [|j] Hj Hc; try discriminate; cbn in *; [congruence|eauto]. }
        unfold F in HFi. rewrite E1 in HFi. cbn in HFi. congruence. }
      destruct (rmapM_ex (traverse (get_tensor k)) cs) as (ys & Eys).
      { intros c Hc. destruct (In_nth_error _ _ Hc) as (i & Hi). destruct (Hall i c Hi) as (? & y & _ & E & _). eauto. }
      exists ys. split; [exact Eys|]. apply rmapM_Forall2 in Eys. split; [apply Forall2_len in Eys; lia|]. intros i y Hy.
      assert (Hc : exists c, nth_error cs i = Some c /\ traverse (get_tensor k) c = Ok y).
      { clear -Eys Hy. revert i Hy. induction Eys; intros [|i] Hy; try discriminate; cbn in *; [injection Hy as ->; eauto|eauto]. }
      destruct Hc as (c & Hc & Et). destruct (Hall i c Hc) as (sh & y' & Esh & Et' & Hy'). assert (y' = y) by congruence. subst y'.
      destruct s; eauto. }
    destruct HG as (ys & Eys & Lys & Hys). rewrite Eys. cbn [rbind]. f_equal.
    destruct Hs as [->|Hs].
    + cbn [fill zero_state]. f_equal. apply nth_ext with (d := RNone) (d' := RNone); [rewrite map_length; lia|]. intros n Hn.
      destruct (nth_error ys n) as [y|] eqn:Ey; [|apply nth_error_None in Ey; lia]. destruct (Hys n y Ey) as (sh & Esh & ->).
      rewrite (nth_error_nth _ _ _ Ey). symmetry. apply nth_error_nth. now apply map_nth_error.
    + inversion Hs as [|? ss Hss']; subst. cbn [fill]. f_equal. pose proof (Forall2_len _ _ _ Hss'). apply nth_ext with (d := RNone) (d' := RNone); [lia|]. intros n Hn.
      destruct (nth_error ys n) as [y|] eqn:Ey; [|apply nth_error_None in Ey; lia]. specialize (Hys n y Ey). cbn in Hys.
      rewrite (nth_error_nth _ _ _ Ey). symmetry. now apply nth_error_nth.
Qed.

Lemma concat_all_none fuel l : Forall (fun s => s = RNone) l -> concatenate_recurrent_states fuel l = Ok RNone.
Proof. intros H. destruct fuel; cbn; now rewrite (first_non_none_all l H). Qed.

Lemma all_none_b l : forallb (fun s : rstate tens1 => match s with RNone => true | _ => false end) l = true <-> Forall (fun s => s = RNone) l.
Proof.
  rewrite forallb_forall, Forall_forall. split; intros H s Hs; specialize (H s Hs); destruct s; try discriminate; auto.
Qed.

Lemma concat_ok sh fuel l : depth sh <= fuel -> states_ok sh l ->
  exists r, concatenate_recurrent_states fuel l = Ok r /\
    forall i s, nth_error l i = Some s -> get_recurrent_state_at r i = Ok (in_batch sh l s).
Proof.
  intros Hf [H|[HF HE]].
  - exists RNone. split; [now apply concat_all_none|]. intros i s Hi. rewrite Forall_forall in H. pose proof (H s (nth_error_In _ _ Hi)). subst s.
    unfold in_batch. rewrite (proj2 (all_none_b l)) by now apply Forall_forall. reflexivity.
  - destruct (rstate_concat sh fuel l Hf HF HE) as (r & E & Hg). exists r. split; [exact E|]. intros i s Hi. rewrite (Hg i s Hi). f_equal.
    unfold fill, in_batch. destruct s; auto. replace (forallb _ l) with false; [reflexivity|]. symmetry. apply not_true_is_false. intros C.
    apply all_none_b in C. clear -C HE. induction HE; inversion C; subst; auto. inversion H.
Qed.

(** *** mask *)

Lemma mask_layer (indices : list nat) (layer : list (list Q)) j v : nth_error layer j = Some v ->
  nth_error (map (fun ib : nat * list Q => map (fun q => (q * (if existsb (Nat.eqb (fst ib)) indices then 0 else 1))%Q) (snd ib))
               (combine (seq 0 (length layer)) layer)) j = Some (map (fun q => (q * (if existsb (Nat.eqb j) indices then 0 else 1))%Q) v).
Proof.
  intros H. assert (E : nth_error (combine (seq 0 (length layer)) layer) j = Some (j, v)).
  { assert (G : forall (layer : list (list Q)) j v k, nth_error layer j = Some v -> nth_error (combine (seq k (length layer)) layer) j = Some (k + j, v)).
    { clear. induction layer as [|a l IH]; intros [|j] v k H; try discriminate; cbn in *; [rewrite Nat.add_0_r; congruence|].
      rewrite (IH j v (S k) H). f_equal. f_equal. lia. }
    apply (G layer j v 0 H). }
  rewrite (map_nth_error _ _ _ E). reflexivity.
Qed.
Lemma mask_vec (m : bool) (v : list Q) : Forall2 (mask_rel m) v (map (fun q => (q * (if m then 0 else 1))%Q) v).
Proof. induction v as [|x v IH]; cbn [map]; constructor; auto. unfold mask_rel. destruct m; ring. Qed.

Lemma mask_ok B indices : Forall (fun i => i < B) indices -> forall s, batch_of B s ->
  exists s', mask_recurrent_state_at s indices = Ok s' /\ batch_of B s' /\
    forall j, j < B -> exists a b, get_recurrent_state_at s j = Ok a /\ get_recurrent_state_at s' j = Ok b /\
      rs_rel (mask_rel (existsb (Nat.eqb j) indices)) a b.
Proof.
  intros Hi s. unfold mask_recurrent_state_at, get_recurrent_state_at. induction s as [|t|l IH] using rstate_ind'; intros HB.
  - exists RNone. cbn. split; [reflexivity|]. split; [constructor|]. intros j _. exists RNone, RNone. repeat split; constructor.
  - inversion HB as [|? HB'|]; subst. cbn [traverse].
    assert (HG : exists t', mask_tensor indices t = Ok t' /\ Forall (fun layer => length layer = B) t' /\
       forall j, j < B -> exists a b, get_tensor j t = Ok a /\ get_tensor j t' = Ok b /\ Forall2 (Forall2 (mask_rel (existsb (Nat.eqb j) indices))) a b).
    { clear HB. induction HB' as [|layer t Hl HB' IH]; [exists []; cbn; split; [reflexivity|]; split; [constructor|]; intros j _; exists [], []; auto|].
      destruct IH as (t' & E & HF & Hg). unfold mask_tensor in *. cbn [rmapM].
      replace (forallb (fun i => i <? length layer) indices) with true.
      2:{ symmetry. apply forallb_forall. intros x Hx. rewrite Forall_forall in Hi. specialize (Hi x Hx). lia. }
      cbn [rbind]. rewrite E. cbn [rbind]. eexists. split; [reflexivity|]. split.
      { constructor; [|exact HF]. rewrite map_length, combine_length, seq_length. lia. }
      intros j Hj. destruct (Hg j Hj) as (a & b & Ea & Eb & Hab). destruct (nth_error layer j) as [v|] eqn:Ev; [|apply nth_error_None in Ev; lia].
      unfold get_tensor in *. cbn [rmapM]. rewrite Ev, (mask_layer indices layer j v Ev). cbn [rbind]. rewrite Ea, Eb. cbn [rbind].
      eexists _, _. split; [reflexivity|]. split; [reflexivity|]. constructor; [apply mask_vec|exact Hab]. }
    destruct HG as (t' & E & HF & Hg). rewrite E. cbn [rbind]. eexists. split; [reflexivity|]. split; [now constructor|]. intros j Hj.
    destruct (Hg j Hj) as (a & b & Ea & Eb & Hab). cbn [traverse]. rewrite Ea, Eb. cbn [rbind]. eexists _, _. split; [reflexivity|]. split; [reflexivity|]. now constructor.
  - inversion HB as [| |? HB']; subst.
    assert (HG : exists l', rmapM (traverse (mask_tensor indices)) l = Ok l' /\ Forall (batch_of B) l' /\
       forall j, j < B -> exists a b, rmapM (traverse (get_tensor j)) l = Ok a /\ rmapM (traverse (get_tensor j)) l' = Ok b /\
         Forall2 (rs_rel (mask_rel (existsb (Nat.eqb j) indices))) a b).
    { clear HB. induction HB' as [|s l Hs HB' IHl]; [exists []; cbn; split; [reflexivity|]; split; [constructor|]; intros j _; exists [], []; auto|].
      inversion IH as [|? ? IHs IH']; subst. destruct (IHs Hs) as (s' & Es & Hs' & Hgs). destruct (IHl IH') as (l' & E & HF & Hg).
      cbn [rmapM]. rewrite Es. cbn [rbind]. rewrite E. cbn [rbind]. exists (s' :: l'). split; [reflexivity|]. split; [now constructor|]. intros j Hj.
      destruct (Hgs j Hj) as (a & b & Ea & Eb & Hab). destruct (Hg j Hj) as (la & lb & Ela & Elb & Hlab).
      cbn [rmapM]. rewrite Ea, Eb. cbn [rbind]. rewrite Ela, Elb. cbn [rbind]. exists (a :: la), (b :: lb). auto. }
    destruct HG as (l' & E & HF & Hg). rewrite traverse_tup, E. cbn [rbind]. eexists. split; [reflexivity|]. split; [now constructor|]. intros j Hj.
    destruct (Hg j Hj) as (a & b & Ea & Eb & Hab). rewrite !traverse_tup, Ea, Eb. cbn [rbind]. eexists _, _. split; [reflexivity|]. split; [reflexivity|]. now constructor.
Qed.

(** *** RecurrentSequential *)
Lemma py_pop_snoc {X} (l : list X) x : py_pop (l ++ [x]) = Ok (l, x).
Proof.
  unfold py_pop. assert (E : unsnoc (l ++ [x]) = Some (l, x)); [|now rewrite E].
  induction l as [|a l IH]; [reflexivity|]. cbn [app unsnoc]. rewrite IH. destruct (l ++ [x]) eqn:E; [destruct l; discriminate|reflexivity].
Qed.

Section Seq.
Context {X ST : Type}.
Definition as_w (info : list nat * option (list nat)) (h : hval X) : tree (packed X) :=
  match h with HW w => w | HU u => wrap (fst info) (snd info) u end.
Lemma seq_loop_compose info (ls : list (layer X ST)) : forall h states new, length states = n_rec ls ->
  match compose info ls (as_w info h) states with
  | Ok (out, r) => exists h', seq_loop info ls h (rev states) new = Ok (h', [], new ++ r) /\ as_w info h' = out /\ length r = length states
  | Err e => seq_loop info ls h (rev states) new = Err e
  end.
Proof.
  induction ls as [|[f|f] ls IH]; intros h states new Hlen.
  - destruct states; [|discriminate]. cbn. exists h. rewrite app_nil_r. auto.
  - destruct states as [|s states]; [discriminate|]. cbn [compose seq_loop rev]. rewrite py_pop_snoc. cbn [rbind]. fold (as_w info h).
    destruct (f (as_w info h) s) as [[h1 s1]|e]; cbn [rbind]; [|reflexivity].
    specialize (IH (HW h1) states (new ++ [s1]) ltac:(unfold n_rec in *; cbn in Hlen; lia)). cbn [as_w] in IH.
    destruct (compose info ls h1 states) as [[out r]|e]; cbn [rbind]; [|exact IH].
    destruct IH as (h' & E & Ew & Hl). exists h'. rewrite E, <- app_assoc. cbn. auto.
  - cbn [compose seq_loop]. replace (match h with HW w => unwrap w | HU u => u end) with (unwrap (as_w info h)) by (destruct h; [reflexivity|apply unwrap_wrap]).
    destruct (f (unwrap (as_w info h))) as [d|e]; cbn [rbind]; [|reflexivity].
    specialize (IH (HU d) states new Hlen). cbn [as_w] in IH. exact IH.
Qed.

Lemma sequential_ok (ls : list (layer X ST)) h info states : packed_info h = Some info -> length states = n_rec ls ->
  sequential_forward ls h (Some states) = compose info ls h states /\
  (forall out r, compose info ls h states = Ok (out, r) -> length r = n_rec ls).
Proof.
  intros Hi Hl. unfold sequential_forward. rewrite Hl, Nat.eqb_refl. cbn [passert rbind]. rewrite Hi.
  pose proof (seq_loop_compose info ls (HW h) states [] Hl) as H. cbn [as_w] in H.
  destruct (compose info ls h states) as [[out r]|e].
  - destruct H as (h' & E & Ew & Hr). rewrite E. cbn [rbind app length]. cbn [Nat.eqb passert rbind].
    replace (length r =? n_rec ls) with true by lia. cbn [passert rbind]. fold (as_w info h'). rewrite Ew. split; [reflexivity|]. intros ? ? HH. injection HH as <- <-. lia.
  - rewrite H. cbn. split; [reflexivity|discriminate].
Qed.
Lemma rev_repeat {Y} (x : Y) n : rev (repeat x n) = repeat x n.
Proof. induction n; [reflexivity|]. cbn. rewrite IHn. clear. induction n; cbn; congruence. Qed.
Lemma sequential_none (ls : list (layer X ST)) h : sequential_forward ls h None = sequential_forward ls h (Some (repeat None (n_rec ls))).
Proof. unfold sequential_forward. rewrite repeat_length, Nat.eqb_refl, rev_repeat. reflexivity. Qed.
Lemma sequential_mismatch (ls : list (layer X ST)) h states : length states <> n_rec ls -> sequential_forward ls h (Some states) = Err AssertionError.
Proof. intros H. unfold sequential_forward. replace (length states =? n_rec ls) with false by lia. reflexivity. Qed.

Lemma branched_ok {Y} (bs : list (tree (packed X) -> option ST -> result (Y * ST))) h states ys :
  bs <> [] -> length states = length bs ->
  Forall2 (fun bst y => fst bst h (snd bst) = Ok y) (combine bs states) ys ->
  branched_forward bs h (Some states) = Ok (map fst ys, map snd ys).
Proof.
  intros Hne Hl H. unfold branched_forward. rewrite (proj2 (rmapM_Forall2 _ _ _) H). cbn [rbind].
  destruct ys; [|reflexivity]. inversion H as [E|]. destruct bs; [congruence|]. destruct states; discriminate.
Qed.
End Seq.

(** *** batch_recurrent_experiences *)
Lemma firsts_ok {T V} (g : T -> V) (eps : list (list T)) : Forall (fun e => e <> []) eps ->
  exists l, rmapM (fun ep => t <- py_get ep 0 ;; Ok (g t)) eps = Ok l /\ Forall2 (fun e v => exists t r, e = t :: r /\ v = g t) eps l.
Proof.
  induction 1 as [|e eps He H IH]; [exists []; cbn; auto|]. destruct IH as (l & E & HF). destruct e as [|t r]; [congruence|].
  cbn [rmapM]. change (py_get (t :: r) 0) with (Ok t). cbn [rbind]. rewrite E. cbn [rbind]. exists (g t :: l). split; [reflexivity|]. constructor; eauto.
Qed.

Section RB.
Context {S A : Type}.
Notation rtr := (trans (rexper S A)).
Lemma batch_recurrent_ok fuel gamma (eps : list (list rtr)) sh : sorted_desc eps = true -> Forall (fun e => e <> []) eps ->
  depth sh <= fuel ->
  (forall l, Forall2 (fun e v => exists t r, e = t :: r /\ v = r_rs (payload t)) eps l -> states_ok sh l) ->
  (forall l, Forall2 (fun e v => exists t r, e = t :: r /\ v = r_nrs (payload t)) eps l -> states_ok sh l) ->
  exists b, batch_recurrent_experiences fuel gamma eps = Ok b /\
    length (rb_action b) = length (concat eps) /\
    (forall j e t x, nth_error eps j = Some e -> nth_error e t = Some x ->
       let k := list_sum (map (n_longer eps) (seq 0 t)) + j in
       nth_error (rb_action b) k = Some (x_action (r_exp (payload x))) /\
       nth_error (rb_reward b) k = Some (x_reward (r_exp (payload x))) /\
       nth_error (rb_terminal b) k = Some (if terminal x then 1%Q else 0%Q) /\
       nth_error (rb_discount b) k = Some gamma /\
       (forall nas, rb_next_action b = Some nas -> nth_error (map Some nas) k = Some (x_next_action (r_exp (payload x)))) /\
       (exists st, nth_error (rb_state b) j = Some st /\ nth_error st t = Some (x_state (r_exp (payload x)))) /\
       (exists st, nth_error (rb_next_state b) j = Some st /\ nth_error st t = Some (x_next_state (r_exp (payload x))))) /\
    (rb_next_action b = None <-> exists x, In x (concat eps) /\ x_next_action (r_exp (payload x)) = None) /\
    (forall j e x r, nth_error eps j = Some e -> e = x :: r ->
       exists l l', Forall2 (fun e v => exists t r, e = t :: r /\ v = r_rs (payload t)) eps l /\
         Forall2 (fun e v => exists t r, e = t :: r /\ v = r_nrs (payload t)) eps l' /\
         get_recurrent_state_at (rb_rs b) j = Ok (in_batch sh l (r_rs (payload x))) /\
         get_recurrent_state_at (rb_nrs b) j = Ok (in_batch sh l' (r_nrs (payload x)))).
Proof.
  intros Hs Hne Hd Hrs Hnrs. unfold batch_recurrent_experiences. rewrite Hs. cbn [passert rbind].
  destruct (firsts_ok (fun t => r_rs (payload t)) eps Hne) as (l & El & Hl).
  destruct (firsts_ok (fun t => r_nrs (payload t)) eps Hne) as (l' & El' & Hl').
  rewrite El. cbn [rbind]. destruct (concat_ok sh fuel l Hd (Hrs l Hl)) as (rs & Ers & Hgrs). rewrite Ers. cbn [rbind].
  rewrite El'. cbn [rbind]. destruct (concat_ok sh fuel l' Hd (Hnrs l' Hl')) as (nrs & Enrs & Hgnrs). rewrite Enrs. cbn [rbind].
  set (flat := flatten_sequences_time_first (map (map Some) eps)).
  assert (Hperm : Permutation flat (concat eps)) by apply flatten_perm_some.
  eexists. split; [reflexivity|]. cbn [rb_action rb_reward rb_terminal rb_discount rb_next_action rb_state rb_next_state rb_rs rb_nrs].
  set (nas := map (fun t => x_next_action (r_exp (payload t))) flat).
  assert (Hall : forall o : option A, (match o with Some _ => true | None => false end) = true <-> o <> None) by (intros []; split; congruence).
  split; [|split; [|split]].
  - rewrite map_length. now apply Permutation_length.
  - intros j e t x He Hx. set (k := list_sum (map (n_longer eps) (seq 0 t)) + j).
    assert (Hk : nth_error flat k = Some x).
    { unfold k. rewrite <- (sorted_place eps j e t Hs He) by (apply nth_error_Some; congruence). now apply flatten_place with (s := e). }
    split; [now rewrite (map_nth_error _ _ _ Hk)|]. split; [now rewrite (map_nth_error _ _ _ Hk)|]. split; [now rewrite (map_nth_error _ _ _ Hk)|].
    split. { assert (k < length flat) by (apply nth_error_Some; congruence). rewrite nth_error_nth' with (d := gamma) by (rewrite repeat_length; exact H). f_equal. apply nth_repeat. }
    split.
    { intros ns Hns. destruct (forallb _ nas) eqn:Ef; [|discriminate]. injection Hns as <-.
      replace (map Some (not_none nas)) with nas; [unfold nas; now rewrite (map_nth_error _ _ _ Hk)|].
      clear -Ef. induction nas as [|[a|] nas IH]; [reflexivity| |discriminate]. cbn in *. f_equal. auto. }
    split.
    + eexists. split; [now rewrite (map_nth_error _ _ _ He)|]. now rewrite (map_nth_error _ _ _ Hx).
    + eexists. split; [now rewrite (map_nth_error _ _ _ He)|]. now rewrite (map_nth_error _ _ _ Hx).
  - destruct (forallb _ nas) eqn:Ef.
    + split; [discriminate|]. intros (x & Hx & Ex). exfalso. rewrite forallb_forall in Ef.
      specialize (Ef (x_next_action (r_exp (payload x)))). rewrite Ex in Ef. discriminate Ef. unfold nas. rewrite <- Ex.
      apply (in_map (fun t => x_next_action (r_exp (payload t)))). eapply Permutation_in; [symmetry; exact Hperm|exact Hx].
    + split; [|reflexivity]. intros _.
      assert (HE : exists o, In o nas /\ o = None).
      { clear -Ef. induction nas as [|[a|] nas IH]; [discriminate| |exists None; split; [now left|reflexivity]]. cbn in Ef. destruct (IH Ef) as (o & Ho & E). exists o. split; [now right|exact E]. }
      destruct HE as (o & Ho & ->). apply in_map_iff in Ho. destruct Ho as (x & Ex & Hx). exists x. split; [|exact Ex].
      eapply Permutation_in; eauto.
  - intros j e x r He ->. exists l, l'. split; [exact Hl|]. split; [exact Hl'|].
    assert (G : forall (g : rtr -> rstate tens1) l, Forall2 (fun e v => exists t r, e = t :: r /\ v = g t) eps l -> nth_error l j = Some (g x)).
    { clear -He. intros g l H. revert j He. induction H as [|e v eps l (t & r' & -> & ->) H IH]; intros [|j] He; try discriminate; cbn in *; [congruence|eauto]. }
    split; [apply Hgrs; now apply (G (fun t => r_rs (payload t)))|apply Hgnrs; now apply (G (fun t => r_nrs (payload t)))].
Qed.
End RB.

Lemma starts_eq {T V} (g : T -> V) eps l : Forall2 (fun e v => exists t r, e = t :: r /\ v = g t) eps l -> l = starts g eps.
Proof. induction 1 as [|e v eps l (t & r & -> & ->) H IH]; [reflexivity|]. cbn. now rewrite IH. Qed.

Lemma batch_recurrent_spec {S A} fuel gamma (eps : list (list (trans (rexper S A)))) sh :
  sorted_desc eps = true -> Forall (fun e => e <> []) eps -> depth sh <= fuel ->
  states_ok sh (starts (fun t => r_rs (payload t)) eps) -> states_ok sh (starts (fun t => r_nrs (payload t)) eps) ->
  exists b, batch_recurrent_experiences fuel gamma eps = Ok b /\
    length (rb_action b) = length (concat eps) /\
    (forall j e t x, nth_error eps j = Some e -> nth_error e t = Some x ->
       let k := flat_place eps t j in
       nth_error (rb_action b) k = Some (x_action (r_exp (payload x))) /\
       nth_error (rb_reward b) k = Some (x_reward (r_exp (payload x))) /\
       nth_error (rb_terminal b) k = Some (if terminal x then 1%Q else 0%Q) /\
       nth_error (rb_discount b) k = Some gamma /\
       (forall nas, rb_next_action b = Some nas -> nth_error (map Some nas) k = Some (x_next_action (r_exp (payload x)))) /\
       (exists st, nth_error (rb_state b) j = Some st /\ nth_error st t = Some (x_state (r_exp (payload x)))) /\
       (exists st, nth_error (rb_next_state b) j = Some st /\ nth_error st t = Some (x_next_state (r_exp (payload x))))) /\
    (rb_next_action b = None <-> exists x, In x (concat eps) /\ x_next_action (r_exp (payload x)) = None) /\
    (forall j x r, nth_error eps j = Some (x :: r) ->
       get_recurrent_state_at (rb_rs b) j = Ok (in_batch sh (starts (fun t => r_rs (payload t)) eps) (r_rs (payload x))) /\
       get_recurrent_state_at (rb_nrs b) j = Ok (in_batch sh (starts (fun t => r_nrs (payload t)) eps) (r_nrs (payload x)))).
Proof.
  intros Hs Hne Hd H1 H2.
  destruct (batch_recurrent_ok fuel gamma eps sh Hs Hne Hd) as (b & E & Hlen & Hk & Hna & Hst).
  - intros l Hl. now rewrite (starts_eq (fun t => r_rs (payload t)) eps l Hl).
  - intros l Hl. now rewrite (starts_eq (fun t => r_nrs (payload t)) eps l Hl).
  - exists b. split; [exact E|]. split; [exact Hlen|]. split; [exact Hk|]. split; [exact Hna|].
    intros j x r Hj. destruct (Hst j _ x r Hj eq_refl) as (l & l' & Hl & Hl' & G1 & G2).
    rewrite (starts_eq (fun t => r_rs (payload t)) eps l Hl) in G1. rewrite (starts_eq (fun t => r_nrs (payload t)) eps l' Hl') in G2. auto.
Qed.
