(** C93: the values, log-probabilities, advantages and targets in a PPO or TRPO dataset. *)
From Coq Require Import QArith Permutation Lia.
From Verif Require Import Base P_Base M_Batch P_Batch M_Recurrent S_Recurrent P_Recurrent M_PPO S_PPO P_PPO M_PPOData S_PPOData P_PPOData C31.
Close Scope Q_scope.

Section C93.
Context {Ob Act F Dist HS : Type}.
Notation ptr := (ptr Ob Act HS).

Lemma contents_nth (heap : list ptr) refs xs t a : contents heap refs xs -> nth_error refs t = Some a -> exists x, nth_error xs t = Some x /\ nth_error heap a = Some x.
Proof. intros C E. exact (Forall2_nth _ _ _ C t a E). Qed.
Lemma concat_in {A} (eps : list (list A)) e refs t a : nth_error eps e = Some refs -> nth_error refs t = Some a -> In a (concat eps).
Proof. intros H1 H2. apply in_concat. exists refs. split; eapply nth_error_In; eauto. Qed.
Lemma rows_len {A B C D : Type} (w : list A) (x : list B) (y : list C) (z : list D) : length x = length w -> length y = length w -> length z = length w ->
  length w = length (combine x (combine y z)).
Proof. intros. rewrite !combine_length. lia. Qed.

(** Feedforward models: every transition gets the model's value of its own state and of its own next state, and the log-probability of
    its own action in its own state; nothing else changes. *)
Theorem C93_feedforward (model : F -> Dist * Q) (log_prob : Dist -> Act -> Q) (feat : Ob -> F) (heap : list ptr) (eps : list (list nat)) :
  NoDup (concat eps) -> Forall (fun a => a < length heap) (concat eps) ->
  exists heap', add_values model log_prob feat heap eps = Ok heap' /\ length heap' = length heap /\
    (forall a, ~ In a (concat eps) -> nth_error heap' a = nth_error heap a) /\
    forall a x, In a (concat eps) -> nth_error heap a = Some x ->
      nth_error heap' a = Some (annotate x (log_prob (fst (model (feat (p_state x)))) (p_action x)) (snd (model (feat (p_state x))))
                                           (snd (model (feat (p_next_state x))))).
Proof.
  intros N B. unfold add_values. destruct (deref_all heap (concat eps) B) as (xs & E & C). rewrite E. cbn [rbind].
  eexists. split; [reflexivity|]. split; [apply write_all_length|].
  assert (L : length xs = length (concat eps)) by (symmetry; exact (Forall2_len _ _ _ C)).
  assert (R : forall (A B : list Q) (LP : list Q), length LP = length (concat eps) -> length A = length (concat eps) -> length B = length (concat eps) ->
     map fst (combine (concat eps) (combine LP (combine A B))) = concat eps).
  { intros. apply map_fst_combine. apply rows_len; assumption. }
  split.
  - intros a H. apply write_all_other. rewrite R; auto; rewrite ?map_length, ?combine_length, ?map_length; lia.
  - intros a x H X. apply In_nth_error in H. destruct H as (k & K). destruct (contents_nth _ _ _ _ _ C K) as (x' & K1 & K2).
    rewrite X in K2. injection K2 as <-. eapply write_all_at with (k := k); [rewrite R; auto; rewrite ?map_length, ?combine_length, ?map_length; lia| |exact X].
    apply combine_nth_error; [exact K|]. apply combine_nth_error; [|apply combine_nth_error; rewrite !nth_error_map, K1; reflexivity].
    rewrite nth_error_map. erewrite combine_nth_error; [| rewrite nth_error_map, K1; reflexivity | rewrite nth_error_map, K1; reflexivity]. reflexivity.
Qed.

(** Recurrent models: transition [t] of an episode gets the output of the model after reading the states of this episode up to [t] from the
    recurrent state stored in the episode's first transition (the zero state for None); its next value the one after reading the next
    states up to [t] from the first transition's next recurrent state.  Other episodes, their number and their lengths do not matter. *)
Theorem C93_recurrent (step : F -> HS -> (Dist * Q) * HS) (h0 : HS) (log_prob : Dist -> Act -> Q) (feat : Ob -> F) (heap : list ptr) (eps : list (list nat)) :
  eps <> [] -> Forall (fun e => e <> []) eps -> NoDup (concat eps) -> Forall (fun a => a < length heap) (concat eps) ->
  exists heap', add_values_recurrent step h0 log_prob feat heap eps = Ok heap' /\ length heap' = length heap /\
    (forall a, ~ In a (concat eps) -> nth_error heap' a = nth_error heap a) /\
    forall refs xs x0 t a x, In refs eps -> contents heap refs xs -> nth_error xs 0 = Some x0 -> nth_error refs t = Some a -> nth_error xs t = Some x ->
      exists d v nd nv,
        output_at step (hid h0 (p_rs x0)) (map (fun x => feat (p_state x)) xs) t = Some (d, v) /\
        output_at step (hid h0 (p_nrs x0)) (map (fun x => feat (p_next_state x)) xs) t = Some (nd, nv) /\
        nth_error heap' a = Some (annotate x (log_prob d (p_action x)) v nv).
Proof.
  intros NE FE N B. unfold add_values_recurrent. set (se := sort_desc eps).
  assert (P : Permutation se eps) by apply sort_perm.
  assert (SD : sorted_desc se = true) by apply sort_sorted.
  assert (PC : Permutation (concat se) (concat eps)).
  { clear - P. induction P; cbn; auto; [now apply Permutation_app_head| |etransitivity; eauto]. rewrite !app_assoc. apply Permutation_app_tail, Permutation_app_comm. }
  assert (B' : Forall (fun a => a < length heap) (concat se)) by (eapply Permutation_Forall; [symmetry; exact PC|exact B]).
  assert (N' : NoDup (concat se)) by (eapply Permutation_NoDup; [symmetry; exact PC|exact N]).
  assert (NE' : se <> []) by (intros C; rewrite C in P; apply Permutation_nil in P; contradiction).
  assert (FE' : Forall (fun e => e <> []) se) by (eapply Permutation_Forall; [symmetry; exact P|exact FE]).
  destruct (deref_alls heap se B') as (xss & E & C). rewrite E. cbn [rbind].
  set (flat := flatten_sequences_time_first (map (map Some) se)).
  assert (PF : Permutation flat (concat se)) by apply flatten_perm_some.
  destruct (deref_all heap flat) as (fx & E2 & C2); [eapply Permutation_Forall; [symmetry; exact PF|exact B']|]. rewrite E2. cbn [rbind].
  assert (LX : map (@length _) xss = map (@length _) se).
  { clear - C. induction C as [|r x se xss H _ IH]; [reflexivity|]. cbn. rewrite IH. f_equal. symmetry. exact (Forall2_len _ _ _ H). }
  assert (NX : forall xs, In xs xss -> exists x0 tl, xs = x0 :: tl).
  { intros xs I. apply In_nth_error in I. destruct I as (k & K). assert (G : nth_error (map (@length _) se) k = Some (length xs)) by (rewrite <- LX; now apply map_nth_error).
    rewrite nth_error_map in G. destruct (nth_error se k) as [r|] eqn:R; [|discriminate]. injection G as G. rewrite Forall_forall in FE'.
    specialize (FE' r (nth_error_In _ _ R)). destruct xs; [destruct r; [congruence|discriminate]|eauto]. }
  assert (first_ok : forall (g : ptr -> option HS), exists rs, rmapM (fun ep : list ptr => x <- py_get ep 0 ;; Ok (g x)) xss = Ok rs /\ length rs = length xss /\
     forall j xs x0, nth_error xss j = Some xs -> nth_error xs 0 = Some x0 -> nth_error rs j = Some (g x0)).
  { intros g. clear - NX. induction xss as [|xs xss IH]; [exists []; repeat split; intros [|j] ? ? H; discriminate|].
    destruct (NX xs (or_introl eq_refl)) as (x0 & tl & ->). destruct IH as (rs & R1 & R2 & R3); [intros; apply NX; now right|].
    exists (g x0 :: rs). cbn [rmapM]. change (py_get (x0 :: tl) 0) with (Ok x0 : result ptr). cbn [rbind]. rewrite R1. cbn. split; [reflexivity|]. split; [now rewrite R2|].
    intros [|j] ys y0 H1 H2; cbn in *; [injection H1 as <-; cbn in H2; injection H2 as <-; reflexivity|eauto]. }
  destruct (first_ok p_rs) as (rs & R1 & R2 & R3). destruct (first_ok p_nrs) as (nrs & R4 & R5 & R6).
  rewrite R1. cbn [rbind]. rewrite R4. cbn [rbind].
  assert (FW : forall (g : ptr -> F), let seqs := map (map g) xss in map (@length _) seqs = map (@length _) se /\ seqs <> [] /\ Forall (fun s => s <> []) seqs /\ sorted_desc seqs = true /\ length seqs = length xss).
  { intros g seqs. assert (L : map (@length _) seqs = map (@length _) se) by (unfold seqs; rewrite map_map; rewrite <- LX; apply map_ext; intros; apply map_length).
    split; [exact L|]. split; [intros Z; rewrite Z in L; destruct se; [congruence|discriminate]|]. split.
    - apply Forall_forall. intros s I. unfold seqs in I. apply in_map_iff in I. destruct I as (xs & <- & I). destruct (NX xs I) as (x0 & tl & ->). discriminate.
    - split; [rewrite (sorted_len _ _ L); exact SD|apply map_length]. }
  destruct (FW (fun x => feat (p_state x))) as (F1 & F2 & F3 & F4 & F5). destruct (FW (fun x => feat (p_next_state x))) as (G1 & G2 & G3 & G4 & G5).
  destruct (forward_ok step h0 _ rs F2 F3 F4) as (outs & O1 & O2 & O3); [congruence|]. rewrite O1. cbn [rbind].
  destruct (forward_ok step h0 _ nrs G2 G3 G4) as (nouts & O4 & O5 & O6); [congruence|]. rewrite O4. cbn [rbind].
  eexists. split; [reflexivity|]. split; [apply write_all_length|].
  assert (CL : forall A A' (l : list (list A)) (l' : list (list A')), map (@length _) l = map (@length _) l' -> length (concat l) = length (concat l')).
  { intros A A' l. induction l as [|s l IH]; intros [|s' l'] H; try discriminate; [reflexivity|]. cbn in H. injection H as H1 H2. cbn. rewrite !app_length, H1, (IH l' H2). reflexivity. }
  assert (LF : length flat = length (concat se)) by exact (Permutation_length PF).
  assert (L1 : length outs = length flat) by (rewrite O2, LF; apply CL; exact F1).
  assert (L2 : length nouts = length flat) by (rewrite O5, LF; apply CL; exact G1).
  assert (L3 : length fx = length flat) by (symmetry; exact (Forall2_len _ _ _ C2)).
  match goal with |- context [write_all heap ?r] => set (rows := r) end.
  assert (RF : map fst rows = flat).
  { unfold rows. apply map_fst_combine, rows_len; rewrite ?map_length, ?combine_length, ?map_length; lia. }
  split.
  - intros a H. apply write_all_other. rewrite RF. intros I. apply H. eapply Permutation_in; [exact PC|]. eapply Permutation_in; [exact PF|exact I].
  - intros refs xs x0 t a x I CX X0 Ha Hx.
    assert (I' : In refs se) by (eapply Permutation_in; [symmetry; exact P|exact I]). apply In_nth_error in I'. destruct I' as (j & J).
    destruct (Forall2_nth _ _ _ C j refs J) as (xs' & J2 & CX'). assert (xs' = xs) as ->.
    { clear - CX CX'. revert xs CX. induction CX'; intros ys CX; inversion CX; subst; [reflexivity|]. f_equal; [congruence|auto]. }
    assert (T : t < length xs) by (apply nth_error_Some; congruence).
    assert (OA : forall h (g : ptr -> F), exists y, output_at step h (map g xs) t = Some y).
    { intros h g. unfold output_at. rewrite nth_error_map, Hx. cbn. eauto. }
    destruct (OA (hid h0 (p_rs x0)) (fun x => feat (p_state x))) as ([d v] & D1). destruct (OA (hid h0 (p_nrs x0)) (fun x => feat (p_next_state x))) as ([nd nv] & D2).
    exists d, v, nd, nv. split; [exact D1|]. split; [exact D2|].
    assert (K1 : nth_error flat (place se t j) = Some a) by (eapply flatten_place; eauto).
    assert (K2 : nth_error outs (place se t j) = Some (d, v)).
    { rewrite <- (place_len (map (map (fun x => feat (p_state x))) xss) se t j F1). eapply O3; [rewrite nth_error_map, J2; reflexivity|eapply R3; eauto|exact D1]. }
    assert (K3 : nth_error nouts (place se t j) = Some (nd, nv)).
    { rewrite <- (place_len (map (map (fun x => feat (p_next_state x))) xss) se t j G1). eapply O6; [rewrite nth_error_map, J2; reflexivity|eapply R6; eauto|exact D2]. }
    assert (HX : nth_error heap a = Some x). { destruct (contents_nth _ _ _ _ _ CX Ha) as (x' & Q1 & Q2). congruence. }
    destruct (contents_nth _ _ _ _ _ C2 K1) as (x' & K4 & K5). rewrite HX in K5. injection K5 as <-.
    eapply write_all_at with (k := place se t j); [rewrite RF; eapply Permutation_NoDup; [symmetry; exact PF|exact N']| |exact HX].
    unfold rows. apply combine_nth_error; [exact K1|]. apply combine_nth_error; [|apply combine_nth_error; rewrite nth_error_map; [rewrite K2|rewrite K3]; reflexivity].
    rewrite nth_error_map. erewrite combine_nth_error; [|exact K2|rewrite nth_error_map, K4; reflexivity]. reflexivity.
Qed.

(** With the next state of each transition the state of the following one, and the first next recurrent state the one the model gets to from
    the first state, the value a transition bootstraps from is the value of the following transition. *)
Theorem C93_bootstrap (step : F -> HS -> (Dist * Q) * HS) (h0 : HS) (feat : Ob -> F) (xs : list ptr) x0 t :
  nth_error xs 0 = Some x0 ->
  (forall k x y, nth_error xs k = Some x -> nth_error xs (S k) = Some y -> p_next_state x = p_state y) ->
  p_nrs x0 = Some (snd (step (feat (p_state x0)) (hid h0 (p_rs x0)))) ->
  S t < length xs ->
  output_at step (hid h0 (p_nrs x0)) (map (fun x => feat (p_next_state x)) xs) t = output_at step (hid h0 (p_rs x0)) (map (fun x => feat (p_state x)) xs) (S t).
Proof.
  intros X0 CO NR T. destruct xs as [|x xs]; [discriminate|]. cbn in X0. injection X0 as ->. rewrite NR. cbn [hid].
  set (h1 := snd (step (feat (p_state x0)) (hid h0 (p_rs x0)))).
  assert (G : forall n, n < length xs -> firstn (S n) (map (fun x => feat (p_next_state x)) (x0 :: xs)) = firstn (S n) (map (fun x => feat (p_state x)) xs)).
  { clear - CO. revert x0 CO. induction xs as [|y xs IH]; intros x0 CO n L; [cbn in L; lia|].
    assert (E : p_next_state x0 = p_state y) by (apply (CO 0); reflexivity). cbn [map]. rewrite E. destruct n as [|n]; [reflexivity|].
    rewrite (firstn_cons (S n) (feat (p_state y))), (firstn_cons (S n) (feat (p_state y))). f_equal. apply IH; [|cbn in L; lia].
    intros k a b A B. apply (CO (S k)); assumption. }
  cbn [length] in T. assert (T' : t < length xs) by lia. clear T.
  unfold output_at. cbn [map nth_error firstn]. unfold hidden_after at 2. cbn [fold_left]. fold h1. fold (hidden_after step h1 (firstn t (map (fun x => feat (p_state x)) xs))).
  specialize (G t T').
  assert (N1 : nth_error (map (fun x => feat (p_next_state x)) (x0 :: xs)) t = nth_error (map (fun x => feat (p_state x)) xs) t).
  { assert (Q : forall (A : Type) (l : list A) n, nth_error l n = nth_error (firstn (S n) l) n).
    { intros A l n. revert l. induction n; intros [|b l]; cbn; auto. rewrite (IHn l) at 1. destruct l; reflexivity. }
    rewrite (Q _ _ t), G, <- Q. reflexivity. }
  assert (N2 : firstn t (map (fun x => feat (p_next_state x)) (x0 :: xs)) = firstn t (map (fun x => feat (p_state x)) xs)).
  { assert (Q : forall (A : Type) (l : list A), firstn t l = firstn t (firstn (S t) l)) by (intros; rewrite firstn_firstn; f_equal; lia).
    rewrite Q, G, <- Q. reflexivity. }
  cbn [map] in N1, N2. rewrite N1, N2. reflexivity.
Qed.

(** ** Advantages and targets *)
Lemma write_adv_other : forall rows (heap : list ptr) a, ~ In a (map fst rows) -> nth_error (write_adv heap rows) a = nth_error heap a.
Proof.
  induction rows as [|[b q] rows IH]; intros heap a H; [reflexivity|]. cbn [write_adv]. rewrite IH by (intros C; apply H; right; exact C).
  destruct (nth_error heap b) eqn:E; [|reflexivity]. rewrite nth_error_list_set. cbn in H. destruct (a =? b) eqn:E2; [|reflexivity].
  apply Nat.eqb_eq in E2. subst. tauto.
Qed.
Lemma write_adv_length : forall rows (heap : list ptr), length (write_adv heap rows) = length heap.
Proof.
  induction rows as [|[b q] rows IH]; intros heap; [reflexivity|]. cbn [write_adv]. rewrite IH. destruct (nth_error heap b); [apply list_set_length|reflexivity].
Qed.
Lemma write_adv_at : forall rows (heap : list ptr) k a q x, NoDup (map fst rows) -> nth_error rows k = Some (a, q) -> nth_error heap a = Some x ->
  nth_error (write_adv heap rows) a = Some (with_adv x q).
Proof.
  induction rows as [|[b q0] rows IH]; intros heap k a q x N E H; [destruct k; discriminate|].
  cbn [map fst] in N. inversion N as [|? ? N1 N2]; subst. destruct k as [|k]; cbn in E.
  - injection E as -> ->. cbn [write_adv]. rewrite H. rewrite write_adv_other by exact N1. rewrite nth_error_list_set, Nat.eqb_refl.
    assert (a < length heap) by (apply nth_error_Some; congruence). replace (a <? length heap) with true by (symmetry; now apply Nat.ltb_lt). reflexivity.
  - cbn [write_adv]. eapply IH; eauto. destruct (nth_error heap b) eqn:E2; [|exact H]. rewrite nth_error_list_set.
    destruct (a =? b) eqn:E3; [|exact H]. apply Nat.eqb_eq in E3. subst b. exfalso. apply N1. apply nth_error_In in E. apply (in_map fst) in E. exact E.
Qed.
Lemma adv_ok (gamma lambd : Q) : forall eps (heap : list ptr), NoDup (concat eps) -> Forall (fun a => a < length heap) (concat eps) ->
  exists heap', add_advantages gamma lambd heap eps = Ok heap' /\ length heap' = length heap /\
    (forall a, ~ In a (concat eps) -> nth_error heap' a = nth_error heap a) /\
    forall refs xs t a x, In refs eps -> contents heap refs xs -> nth_error refs t = Some a -> nth_error xs t = Some x ->
      exists q, nth_error (gae gamma lambd (map gae_of xs)) t = Some q /\ nth_error heap' a = Some (with_adv x q).
Proof.
  induction eps as [|ep eps IH]; intros heap N B.
  - exists heap. repeat split; auto. intros ? ? ? ? ? [].
  - cbn [add_advantages concat] in *. apply Forall_app in B. destruct B as [B1 B2].
    assert (N1 : NoDup ep /\ NoDup (concat eps) /\ forall a, In a ep -> ~ In a (concat eps)).
    { clear - N. induction ep as [|a ep IH]; cbn in N; [repeat split; auto; constructor|]. inversion N; subst. destruct (IH H2) as (A & B & C).
      repeat split; auto; [constructor; auto; intros I; apply H1, in_or_app; now left|]. intros b [<-|I] J; [apply H1, in_or_app; now right|exact (C b I J)]. }
    destruct N1 as (N1 & N2 & N3). destruct (deref_all heap ep B1) as (ys & E & C). rewrite E. cbn [rbind].
    set (h1 := write_adv heap _). destruct (IH h1 N2) as (h2 & H1 & H2 & H3 & H4); [unfold h1; rewrite write_adv_length; exact B2|].
    assert (L : length (gae gamma lambd (map gae_of ys)) = length ep) by (rewrite (proj1 (C31_gae gamma lambd (map gae_of ys))), map_length; symmetry; exact (Forall2_len _ _ _ C)).
    assert (RF : map fst (combine ep (gae gamma lambd (map gae_of ys))) = ep) by (apply map_fst_combine; auto).
    exists h2. split; [exact H1|]. split; [rewrite H2; apply write_adv_length|]. split.
    + intros a H. rewrite H3 by (intros I; apply H, in_or_app; now right). apply write_adv_other. rewrite RF. intros I. apply H, in_or_app. now left.
    + intros refs xs t a x [<-|I] CX Ha Hx.
      * assert (xs = ys) as ->. { clear - C CX. revert ys C. induction CX; intros ys C; inversion C; subst; [reflexivity|]. f_equal; [congruence|auto]. }
        destruct (nth_error (gae gamma lambd (map gae_of ys)) t) as [q|] eqn:G; [|apply nth_error_None in G; assert (t < length ep) by (apply nth_error_Some; congruence); lia].
        exists q. split; [reflexivity|]. rewrite H3 by (apply N3; eapply nth_error_In; eauto).
        eapply write_adv_at with (k := t); [rewrite RF; exact N1|apply combine_nth_error; assumption|].
        destruct (contents_nth _ _ _ _ _ C Ha) as (x' & X1 & X2). congruence.
      * eapply (H4 refs xs t a x I); auto. unfold contents in *. assert (AC : forall b, In b refs -> ~ In b ep).
        { intros b J K. apply (N3 b K). apply in_concat. eauto. }
        clear - CX AC RF. induction CX as [|b y refs xs Hy _ IH]; constructor; [|apply IH; intros; apply AC; now right].
        unfold h1. rewrite write_adv_other; [exact Hy|]. rewrite RF. apply AC. now left.
Qed.

(** What the transitions of an episode must hold after the dataset has been made, when [v k] and [nv k] are the values of the state and of
    the next state of transition [k]: the temporal-difference errors r + gamma * nonterminal * nv - v summed with weights (gamma lambda)^l
    to the end of the episode, and target = advantage + v. *)
Definition td (gamma : Q) (xs : list ptr) (v nv : nat -> Q) (k : nat) : Q :=
  match nth_error xs k with Some x => (p_reward x + gamma * p_nonterminal x * nv k - v k)%Q | None => 0%Q end.
Definition dataset_entry (gamma lambd : Q) (xs : list ptr) (v nv : nat -> Q) (lp : nat -> Q) (t : nat) (y : ptr) : Prop :=
  (p_adv y == discounted_sum (gamma * lambd) (fun l => td gamma xs v nv (t + l)) (length xs - t))%Q /\ (p_teacher y == p_adv y + v t)%Q /\
  p_log_prob y = lp t /\ p_v y = v t /\ p_next_v y = nv t /\
  exists x, nth_error xs t = Some x /\ p_state y = p_state x /\ p_action y = p_action x /\ p_reward y = p_reward x /\ p_next_state y = p_next_state x /\
    p_nonterminal y = p_nonterminal x /\ p_rs y = p_rs x /\ p_nrs y = p_nrs x.

Lemma entry_ok gamma lambd (heap1 heap2 : list ptr) refs xs ys (v nv lp : nat -> Q) t a :
  contents heap1 refs ys -> length refs = length xs ->
  (forall k x, nth_error xs k = Some x -> nth_error ys k = Some (annotate x (lp k) (v k) (nv k))) ->
  (forall t a x, nth_error refs t = Some a -> nth_error ys t = Some x -> exists q, nth_error (gae gamma lambd (map gae_of ys)) t = Some q /\ nth_error heap2 a = Some (with_adv x q)) ->
  nth_error refs t = Some a -> exists y, nth_error heap2 a = Some y /\ dataset_entry gamma lambd xs v nv lp t y.
Proof.
  intros C L A H Ha. destruct (contents_nth _ _ _ _ _ C Ha) as (y & Y1 & _).
  assert (T : t < length xs) by (rewrite <- L; apply nth_error_Some; congruence).
  destruct (nth_error xs t) as [x|] eqn:X; [|apply nth_error_None in X; lia].
  assert (Y := A t x X). rewrite Y1 in Y. injection Y as ->. destruct (H t a _ Ha Y1) as (q & Q1 & Q2). eexists. split; [exact Q2|].
  assert (LY : length ys = length xs) by (rewrite <- L; symmetry; exact (Forall2_len _ _ _ C)).
  destruct (proj2 (C31_gae gamma lambd (map gae_of ys)) t (gae_of (annotate x (lp t) (v t) (nv t)))) as (adv & tg & G1 & G2 & G3); [rewrite nth_error_map, Y1; reflexivity|].
  rewrite Q1 in G1. injection G1 as ->. unfold dataset_entry. cbn. split.
  - rewrite G2, map_length, LY. assert (DE : forall f g n, (forall k, f k == g k)%Q -> (discounted_sum (gamma * lambd) f n == discounted_sum (gamma * lambd) g n)%Q) by (intros; apply dsum_ext; auto).
    apply DE. intros k. unfold tde, td. rewrite nth_error_map. destruct (nth_error xs (t + k)) as [z|] eqn:Z.
    + rewrite (A _ _ Z). cbn. reflexivity.
    + replace (nth_error ys (t + k)) with (@None ptr); [reflexivity|]. symmetry. apply nth_error_None. apply nth_error_None in Z. lia.
  - split; [exact G3|]. repeat split. exists x. repeat split; auto.
Qed.

(** The whole dataset, feedforward: values are those of the model, advantages and targets those of the episode the transition is in. *)
Theorem C93_dataset (model : F -> Dist * Q) (log_prob : Dist -> Act -> Q) (feat : Ob -> F) (gamma lambd : Q) (heap : list ptr) (eps : list (list nat)) :
  NoDup (concat eps) -> Forall (fun a => a < length heap) (concat eps) ->
  exists heap', make_values model log_prob feat gamma lambd heap eps = Ok heap' /\
    forall refs xs t a, In refs eps -> contents heap refs xs -> nth_error refs t = Some a ->
      exists y, nth_error heap' a = Some y /\
        dataset_entry gamma lambd xs
          (fun k => match nth_error xs k with Some x => snd (model (feat (p_state x))) | None => 0%Q end)
          (fun k => match nth_error xs k with Some x => snd (model (feat (p_next_state x))) | None => 0%Q end)
          (fun k => match nth_error xs k with Some x => log_prob (fst (model (feat (p_state x)))) (p_action x) | None => 0%Q end) t y.
Proof.
  intros N B. unfold make_values. destruct (C93_feedforward model log_prob feat heap eps N B) as (h1 & E1 & L1 & _ & A1). rewrite E1. cbn [rbind].
  destruct (adv_ok gamma lambd eps h1 N) as (h2 & E2 & _ & _ & A2); [rewrite L1; exact B|]. exists h2. split; [exact E2|].
  intros refs xs t a I C Ha.
  set (f := fun x : ptr => annotate x (log_prob (fst (model (feat (p_state x)))) (p_action x)) (snd (model (feat (p_state x)))) (snd (model (feat (p_next_state x))))).
  assert (C1 : contents h1 refs (map f xs)).
  { assert (J : forall b, In b refs -> In b (concat eps)) by (intros; apply in_concat; eauto). clear - C A1 J. unfold contents in *. unfold f.
    induction C as [|b y refs xs Hy _ IH]; constructor; [apply A1; [apply J; now left|exact Hy]|apply IH; intros; apply J; now right]. }
  eapply entry_ok with (ys := map f xs) (refs := refs); eauto.
  - exact (Forall2_len _ _ _ C).
  - intros k x K. rewrite nth_error_map, K. reflexivity.
Qed.

(** The whole dataset, recurrent: values are the outputs of the model along the episode. *)
Theorem C93_dataset_recurrent (step : F -> HS -> (Dist * Q) * HS) (h0 : HS) (log_prob : Dist -> Act -> Q) (feat : Ob -> F) (gamma lambd : Q) (heap : list ptr) (eps : list (list nat)) :
  eps <> [] -> Forall (fun e => e <> []) eps -> NoDup (concat eps) -> Forall (fun a => a < length heap) (concat eps) ->
  exists heap', make_values_recurrent step h0 log_prob feat gamma lambd heap eps = Ok heap' /\
    forall refs xs x0 t a, In refs eps -> contents heap refs xs -> nth_error xs 0 = Some x0 -> nth_error refs t = Some a ->
      let out := output_at step (hid h0 (p_rs x0)) (map (fun x => feat (p_state x)) xs) in
      let nout := output_at step (hid h0 (p_nrs x0)) (map (fun x => feat (p_next_state x)) xs) in
      exists y, nth_error heap' a = Some y /\
        dataset_entry gamma lambd xs
          (fun k => match out k with Some z => snd z | None => 0%Q end)
          (fun k => match nout k with Some z => snd z | None => 0%Q end)
          (fun k => match out k, nth_error xs k with Some z, Some x => log_prob (fst z) (p_action x) | _, _ => 0%Q end) t y.
Proof.
  intros NE FE N B. unfold make_values_recurrent. destruct (C93_recurrent step h0 log_prob feat heap eps NE FE N B) as (h1 & E1 & L1 & _ & A1). rewrite E1. cbn [rbind].
  destruct (adv_ok gamma lambd eps h1 N) as (h2 & E2 & _ & _ & A2); [rewrite L1; exact B|]. exists h2. split; [exact E2|].
  intros refs xs x0 t a I C X0 Ha. cbn zeta.
  assert (G : exists ys, contents h1 refs ys).
  { assert (J : Forall (fun b => b < length h1) refs).
    { apply Forall_forall. intros b K. rewrite L1. rewrite Forall_forall in B. apply B. apply in_concat. eauto. }
    destruct (deref_all h1 refs J) as (ys & _ & ?). eauto. }
  destruct G as (ys & C1). eapply entry_ok with (ys := ys) (refs := refs); eauto.
  - exact (Forall2_len _ _ _ C).
  - intros k x K. assert (T : k < length refs) by (rewrite (Forall2_len _ _ _ C); apply nth_error_Some; congruence).
    destruct (nth_error refs k) as [b|] eqn:Hb; [|apply nth_error_None in Hb; lia].
    destruct (A1 refs xs x0 k b x I C X0 Hb K) as (d & v & nd & nv & D1 & D2 & D3). rewrite D1, D2, K. cbn [fst snd].
    destruct (contents_nth _ _ _ _ _ C1 Hb) as (y & Y1 & Y2). rewrite Y1. congruence.
Qed.
End C93.

(** Two episodes (the shorter first), a model that counts the steps of an episode: value = 10 * state + number of states read. *)
Definition ex_step (x : nat) (h : nat) : (nat * Q) * nat := ((x, inject_Z (Z.of_nat (10 * x + h))), S h).
Definition ex_tr (s : nat) (r nt : Q) (rs nrs : option nat) : ptr nat nat nat := mkPtr s (s + 100) r (S s) nt rs nrs 0 0 0 0 0.
Definition ex_heap : list (ptr nat nat nat) :=
  [ex_tr 1 1 1 None (Some 1); ex_tr 2 1 1 (Some 1) (Some 2); ex_tr 3 1 0 (Some 2) (Some 3); ex_tr 7 5 1 (Some 4) (Some 5)].
Example C93_ex : exists h, make_values_recurrent ex_step 0 (fun d a => inject_Z (Z.of_nat (d + a))) (fun s => s) 1 1 ex_heap [[3]; [0; 1; 2]] = Ok h /\
  map (fun x => (Qred (p_log_prob x), Qred (p_v x), Qred (p_next_v x), Qred (p_teacher x))) h =
    [(102, 10, 21, 3); (104, 21, 32, 2); (106, 32, 43, 1); (114, 74, 85, 90)]%Q.
Proof. eexists. split; vm_compute; reflexivity. Qed.
Print Assumptions C93_feedforward.
Print Assumptions C93_recurrent.
Print Assumptions C93_bootstrap.
Print Assumptions C93_dataset.
Print Assumptions C93_dataset_recurrent.
