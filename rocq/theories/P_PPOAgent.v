(** Lemmas for C120. *)
From Coq Require Import QArith Permutation.
From Verif Require Import Base P_Base M_Batch M_PPO S_PPO P_PPO M_PPOData S_PPOData P_PPOData C93 M_RecDQN P_RecDQN M_PPOAgent S_PPOAgent.
Close Scope Q_scope. Open Scope nat_scope.

Lemma F2_app {A B} (R : A -> B -> Prop) l1 l1' l2 l2' : Forall2 R l1 l1' -> Forall2 R l2 l2' -> Forall2 R (l1 ++ l2) (l1' ++ l2').
Proof. apply Forall2_app. Qed.
Lemma F2_length {A B} (R : A -> B -> Prop) l l' : Forall2 R l l' -> length l = length l'.
Proof. induction 1; cbn; auto. Qed.
Lemma F2_nths {A B} (R : A -> B -> Prop) l : forall l', length l = length l' -> (forall i x y, nth_error l i = Some x -> nth_error l' i = Some y -> R x y) -> Forall2 R l l'.
Proof.
  induction l as [|x l IH]; intros [|y l'] L H; cbn in L; try lia; constructor; [exact (H 0 x y eq_refl eq_refl)|]. apply IH; [lia|]. intros i. exact (H (S i)).
Qed.

Section Agent.
Context {Ob Act Dist HS Pm : Type}.
Notation ptr := (ptr Ob Act HS).
Context (cell : Pm -> Ob -> HS -> (Dist * Q) * HS) (zero : HS) (log_prob : Dist -> Act -> Q) (mode : Dist -> Act) (act_deterministically : bool).
Context (recurrent : option (option nat)) (update_interval : nat) (gamma lambd : Q) (learn : Pm -> list (list ptr) -> Pm) (n : nat).
Notation ppo := (ppo Ob Act HS Pm).
Notation seen := (seen Ob Act Dist HS Pm).
Notation taken := (@taken Ob Act Dist HS Pm).
Notation notes := (@notes Ob Act Dist HS Pm).
Definition rec_ : bool := negb (is_none recurrent).
Notation note := (note cell zero rec_).

(** ** Stretches *)
(** A transition as it is stored, before values are added. *)
Definition raw (p : Pm) (x : ptr) (k : taken) : Prop :=
  k_p k = p /\ p_state x = k_obs k /\ p_action x = k_action k /\ p_reward x = k_reward k /\ p_next_state x = k_next k /\ p_nonterminal x = (if k_done k then 0%Q else 1%Q) /\
  hid zero (p_rs x) = k_before k /\ fst (cell p (k_obs k) (k_before k)) = (k_dist k, k_value k) /\
  (if rec_ then p_nrs x = Some (snd (cell p (k_obs k) (k_before k))) else k_before k = zero).
(** The memory runs through the stretch. *)
Fixpoint linked (p : Pm) (h : HS) (ks : list taken) (h' : HS) : Prop :=
  match ks with [] => h = h' | k :: ks => k_before k = h /\ linked p (snd (cell p (k_obs k) (k_before k))) ks h' end.
Lemma linked_snoc p ks : forall h h' k, linked p h ks h' -> k_before k = h' -> linked p h (ks ++ [k]) (snd (cell p (k_obs k) (k_before k))).
Proof. induction ks as [|k0 ks IH]; intros h h' k; cbn [linked app]; [intros -> ->; auto|]. intros [A B] C. split; [exact A|]. exact (IH _ _ _ B C). Qed.
Lemma linked_app p ks ks' : forall h h', linked p h (ks ++ ks') h' -> exists m, linked p h ks m /\ linked p m ks' h'.
Proof. induction ks as [|k0 ks IH]; intros h h'; cbn [linked app]; [intros L; now exists h|]. intros [A B]. destruct (IH _ _ B) as (m & B1 & B2). exists m. auto. Qed.
Lemma linked_run p ks : forall h h', linked p h ks h' -> Forall (fun k => fst (cell p (k_obs k) (k_before k)) = (k_dist k, k_value k)) ks ->
  rnn_run (cell p) h (map k_obs ks) = map (fun k => (k_dist k, k_value k)) ks.
Proof.
  induction ks as [|k ks IH]; intros h h' L F; [reflexivity|]. cbn [linked] in L. destruct L as [<- L]. apply Forall_cons_iff in F. destruct F as [F0 F]. cbn [map rnn_run].
  destruct (cell p (k_obs k) (k_before k)) as [y h1] eqn:C. cbn [fst snd] in *. rewrite (IH _ _ L F), F0. reflexivity.
Qed.
Lemma linked_hidden p ks : forall h h' t k, linked p h ks h' -> nth_error ks t = Some k -> hidden_after (cell p) h (firstn t (map k_obs ks)) = k_before k.
Proof.
  induction ks as [|k0 ks IH]; intros h h' t k L N; [now destruct t|]. cbn [linked] in L. destruct L as [<- L]. destruct t as [|t]; cbn in N; [now injection N as <-|].
  cbn [map firstn]. unfold hidden_after. cbn [fold_left]. exact (IH _ _ t k L N).
Qed.
Definition good (p : Pm) (ks : list taken) : Prop := ks <> [] /\ (rec_ = true -> exists h h', linked p h ks h').

(** ** The dataset *)
Lemma addresses_ok : forall (eps : list (list ptr)) k (front : list ptr), length front = k ->
  concat (addresses k eps) = seq k (length (concat eps)) /\ Forall2 (contents (front ++ concat eps)) (addresses k eps) eps.
Proof.
  induction eps as [|ep eps IH]; intros k front L; [split; [reflexivity|constructor]|]. cbn [addresses concat]. destruct (IH (k + length ep) (front ++ ep)) as [A B]; [rewrite app_length; lia|].
  split; [rewrite A, app_length, seq_app; reflexivity|]. rewrite app_assoc. constructor; [|exact B]. clear - L. unfold contents. rewrite <- app_assoc.
  apply F2_nths; [now rewrite seq_length|]. intros i a x N1 N2. assert (i < length ep) by (apply nth_error_Some; congruence).
  assert (E : nth_error (seq k (length ep)) i = Some (k + i)). { clear - H. revert k i H. induction (length ep) as [|m IH]; intros k [|i] H; try lia; cbn; [f_equal; lia|]. rewrite IH by lia. f_equal. lia. }
  rewrite E in N1. injection N1 as <-. rewrite nth_error_app2 by lia. rewrite nth_error_app1 by lia. now replace (k + i - length front) with i by lia.
Qed.

(** What the network says of the next observation. *)
Definition next_value (p : Pm) (k : taken) : Q := snd (fst (cell p (k_next k) (if rec_ then snd (cell p (k_obs k) (k_before k)) else zero))).
Definition continuous (ks : list taken) : Prop := forall t k k', nth_error ks t = Some k -> nth_error ks (S t) = Some k' -> k_obs k' = k_next k.
(** All that the transitions of an episode of the dataset hold. *)
Definition entries (p : Pm) (ep : list ptr) (ks : list taken) : Prop :=
  Forall2 (tells zero log_prob) ep ks /\
  forall t x, nth_error ep t = Some x -> exists nv : nat -> Q, p_next_v x = nv t /\ (p_teacher x == p_adv x + p_v x)%Q /\
    (p_adv x == discounted_sum (gamma * lambd) (fun l => match nth_error ks (t + l) with Some k => k_reward k + gamma * (if k_done k then 0 else 1) * nv (t + l)%nat - k_value k | None => 0 end) (length ks - t))%Q /\
    (rec_ = false \/ continuous ks -> forall j k, nth_error ks j = Some k -> nv j = next_value p k).

Lemma deref_contents (heap : list ptr) : forall refs xs, rmapM (deref heap) refs = Ok xs -> contents heap refs xs.
Proof.
  induction refs as [|a refs IH]; intros xs E; cbn [rmapM] in E; [injection E as <-; constructor|]. unfold deref at 1 in E. destruct (nth_error heap a) as [x|] eqn:N; [|discriminate]. cbn [rbind] in E.
  destruct (rmapM (deref heap) refs) as [ys|]; [|discriminate]. cbn in E. injection E as <-. constructor; [exact N|]. now apply IH.
Qed.
Lemma deref_contents2 (heap : list ptr) : forall refs xs, rmapM (rmapM (deref heap)) refs = Ok xs -> Forall2 (contents heap) refs xs.
Proof.
  induction refs as [|a refs IH]; intros xs E; cbn [rmapM] in E; [injection E as <-; constructor|]. destruct (rmapM (deref heap) a) as [x|] eqn:N; [|discriminate]. cbn [rbind] in E.
  destruct (rmapM _ refs) as [ys|]; [|discriminate]. cbn in E. injection E as <-. constructor; [now apply deref_contents|]. now apply IH.
Qed.

Lemma raw_states p xs ks : Forall2 (raw p) xs ks -> map (fun x : ptr => p_state x) xs = map k_obs ks /\ map (fun x : ptr => p_next_state x) xs = map k_next ks.
Proof. induction 1 as [|x k xs ks (? & ? & ? & ? & ? & ?) _ [IH1 IH2]]; [auto|]. cbn. now rewrite IH1, IH2, H0, H3. Qed.
Lemma raw_says p xs ks : Forall2 (raw p) xs ks -> Forall (fun k => fst (cell p (k_obs k) (k_before k)) = (k_dist k, k_value k)) ks.
Proof. induction 1 as [|x k xs ks R _ IH]; constructor; auto. apply R. Qed.

Lemma entry_tells xs ks p v nv lp t y : Forall2 (raw p) xs ks -> (forall j k, nth_error ks j = Some k -> v j = k_value k /\ lp j = log_prob (k_dist k) (k_action k)) ->
  dataset_entry gamma lambd xs v nv lp t y -> exists k, nth_error ks t = Some k /\ tells zero log_prob y k /\ p_next_v y = nv t /\ (p_teacher y == p_adv y + p_v y)%Q /\
    (p_adv y == discounted_sum (gamma * lambd) (fun l => match nth_error ks (t + l) with Some k => k_reward k + gamma * (if k_done k then 0 else 1) * nv (t + l)%nat - k_value k | None => 0 end) (length ks - t))%Q.
Proof.
  intros F V (A & T & L & Vy & N & x & X & S1 & S2 & S3 & S4 & S5 & S6 & S7).
  destruct (Forall2_nth _ _ _ F t x X) as (k & K & R). exists k. split; [exact K|]. destruct R as (Rp & R1 & R2 & R3 & R4 & R5 & R6 & R7 & R8). destruct (V t k K) as [V1 V2].
  split; [repeat split; congruence|]. split; [exact N|]. split; [now rewrite T, Vy|]. rewrite A. assert (LE : length xs = length ks) by exact (F2_length _ _ _ F). rewrite LE.
  apply dsum_ext. intros l _. unfold td. destruct (nth_error ks (t + l)) as [k'|] eqn:K'.
  - destruct (nth_error xs (t + l)) as [x'|] eqn:X'; [|apply nth_error_None in X'; assert (t + l < length ks) by (apply nth_error_Some; congruence); lia].
    destruct (Forall2_nth _ _ _ F _ x' X') as (k2 & K2 & R'). rewrite K' in K2. injection K2 as <-. destruct R' as (_ & _ & _ & E1 & _ & E2 & _). rewrite E1, E2. destruct (V _ _ K') as [-> _]. reflexivity.
  - destruct (nth_error xs (t + l)) as [x'|] eqn:X'; [|reflexivity]. apply nth_error_None in K'. assert (t + l < length xs) by (apply nth_error_Some; congruence). lia.
Qed.

Lemma with_values_ok p (mem eps : list (list ptr)) kss : Forall2 (Forall2 (raw p)) mem kss -> Forall (good p) kss -> with_values cell zero log_prob recurrent gamma lambd p mem = Ok eps ->
  Forall2 (entries p) eps kss.
Proof.
  intros F G E. unfold with_values in E. set (refs := addresses 0 mem) in *. destruct (addresses_ok mem 0 [] eq_refl) as [A C]. cbn [app] in C. fold refs in A, C.
  assert (ND : NoDup (concat refs)) by (rewrite A; apply seq_NoDup).
  assert (BD : Forall (fun a => a < length (concat mem)) (concat refs)) by (rewrite A; apply Forall_forall; intros a I; apply in_seq in I; lia).
  assert (K : forall heap, Ok heap = (match recurrent with
           | None => make_values (fun o => fst (cell p o zero)) log_prob (fun o => o) gamma lambd (concat mem) refs
           | Some _ => make_values_recurrent (cell p) zero log_prob (fun o => o) gamma lambd (concat mem) refs end) ->
     forall j refj epj ks, nth_error refs j = Some refj -> nth_error mem j = Some epj -> nth_error kss j = Some ks -> exists nv : nat -> Q,
       (rec_ = false \/ continuous ks -> forall j k, nth_error ks j = Some k -> nv j = next_value p k) /\
       forall t a, nth_error refj t = Some a -> exists y k, nth_error heap a = Some y /\ nth_error ks t = Some k /\ tells zero log_prob y k /\ p_next_v y = nv t /\ (p_teacher y == p_adv y + p_v y)%Q /\
    (p_adv y == discounted_sum (gamma * lambd) (fun l => match nth_error ks (t + l) with Some k => k_reward k + gamma * (if k_done k then 0 else 1) * nv (t + l)%nat - k_value k | None => 0 end) (length ks - t))%Q).
  { intros heap Eh j refj epj ks Nr Nm Nk. destruct (Forall2_nth _ _ _ F j epj Nm) as (ks2 & Nk2 & Fj). rewrite Nk in Nk2. injection Nk2 as <-.
    destruct (Forall2_nth _ _ _ C j refj Nr) as (ep2 & Nm2 & Cj). rewrite Nm in Nm2. injection Nm2 as <-. pose proof (nth_error_In _ _ Nr) as Ir. destruct (raw_states _ _ _ Fj) as [St Nx]. pose proof (raw_says _ _ _ Fj) as Sy.
    assert (Gj : good p ks) by (eapply Forall_forall; [exact G|exact (nth_error_In _ _ Nk)]). destruct Gj as [Ne Lk].
    destruct recurrent as [m|] eqn:Rq.
    - assert (NE : refs <> []) by (intros Z; rewrite Z in Nr; now destruct j).
      assert (FE : Forall (fun e => e <> []) refs).
      { apply Forall_forall. intros r I Z. apply In_nth_error in I. destruct I as [q Q]. destruct (Forall2_nth _ _ _ C q r Q) as (e & Qe & Ce). destruct (Forall2_nth _ _ _ F q e Qe) as (kk & Qk & Fk).
        assert (Gk : good p kk) by (eapply Forall_forall; [exact G|exact (nth_error_In _ _ Qk)]). subst r. inversion Ce; subst. inversion Fk; subst. now destruct Gk. }
      destruct (C93_dataset_recurrent (cell p) zero log_prob (fun o => o) gamma lambd (concat mem) refs NE FE ND BD) as (h & Eh2 & D). rewrite Eh2 in Eh. injection Eh as ->.
      destruct epj as [|x0 rest] eqn:Ep; [inversion Fj; subst; congruence|]. rewrite <- Ep in *.
      assert (N0 : nth_error epj 0 = Some x0) by now rewrite Ep. destruct (Forall2_nth _ _ _ Fj 0 x0 N0) as (k0 & K0 & R0).
      destruct (Lk ltac:(unfold rec_; now rewrite Rq)) as (h0 & h1 & LK). assert (Hh : hid zero (p_rs x0) = h0).
      { destruct R0 as (_ & _ & _ & _ & _ & _ & -> & _). destruct ks; [discriminate|]. cbn in K0, LK. injection K0 as <-. apply LK. }
      set (nout := output_at (cell p) (hid zero (p_nrs x0)) (map (fun x : ptr => p_next_state x) epj)) in *.
      exists (fun k => match nout k with Some z => snd z | None => 0%Q end). split.
      + intros [Z|Ct]; [unfold rec_ in Z; rewrite Rq in Z; discriminate|]. intros t k Nt. unfold nout, output_at. rewrite Nx, nth_error_map, Nt. cbn [option_map]. unfold next_value. replace rec_ with true by (unfold rec_; now rewrite Rq).
        do 3 f_equal.
        (* the state before the next observation *)
        destruct R0 as (_ & _ & _ & _ & _ & _ & B0 & _ & N1). unfold rec_ in N1. rewrite Rq in N1. cbn in N1. rewrite N1. cbn [hid].
        assert (G2 : forall ks k0 t k, continuous ks -> nth_error ks 0 = Some k0 -> nth_error ks t = Some k -> (exists h h', linked p h ks h') ->
           hidden_after (cell p) (snd (cell p (k_obs k0) (k_before k0))) (firstn t (map k_next ks)) = snd (cell p (k_obs k) (k_before k))).
        { clear. intros ks k0 t. revert ks k0. induction t as [|t IH]; intros ks k0 k Ct N0 Nt (h & h' & L).
          - rewrite N0 in Nt. injection Nt as <-. reflexivity.
          - destruct ks as [|k1 [|k2 ks]]; [discriminate|cbn in Nt; destruct t; discriminate|]. cbn in N0. injection N0 as ->. cbn [map firstn]. unfold hidden_after. cbn [fold_left].
            assert (O2 : k_obs k2 = k_next k0) by (apply (Ct 0); reflexivity). cbn [linked] in L. destruct L as [L1 [L2 L]]. rewrite <- O2, <- L2.
            apply (IH (k2 :: ks) k2 k); [intros q a b Qa Qb; exact (Ct (S q) a b Qa Qb)|reflexivity|exact Nt|]. exists (k_before k2), h'. cbn [linked]. auto. }
        apply G2; [exact Ct|exact K0|exact Nt|eauto].
      + intros t a Na. destruct (D refj epj x0 t a Ir Cj N0 Na) as (y & Ny & De). eapply entry_tells in De; [|exact Fj|].
        * destruct De as (k & Kt & Tl & Rest). exists y, k. split; [exact Ny|]. split; [exact Kt|]. split; [exact Tl|exact Rest].
        * intros q k Nq. assert (O : output_at (cell p) (hid zero (p_rs x0)) (map (fun x : ptr => p_state x) epj) q = Some (k_dist k, k_value k)).
          { rewrite St, Hh. unfold output_at. rewrite nth_error_map, Nq. cbn [option_map]. f_equal. rewrite (linked_hidden p ks h0 h1 q k LK Nq). eapply Forall_forall in Sy; [exact Sy|exact (nth_error_In _ _ Nq)]. }
          rewrite O. cbn [fst snd]. split; [reflexivity|]. destruct (nth_error epj q) as [xq|] eqn:Xq; [|apply nth_error_None in Xq; rewrite (F2_length _ _ _ Fj) in Xq; assert (q < length ks) by (apply nth_error_Some; congruence); lia].
          destruct (Forall2_nth _ _ _ Fj q xq Xq) as (kq & Kq & Rq2). rewrite Nq in Kq. injection Kq as <-. destruct Rq2 as (_ & _ & -> & _). reflexivity.
    - destruct (C93_dataset (fun o => fst (cell p o zero)) log_prob (fun o => o) gamma lambd (concat mem) refs ND BD) as (h & Eh2 & D). rewrite Eh2 in Eh. injection Eh as ->.
      assert (Zr : rec_ = false) by (unfold rec_; now rewrite Rq).
      assert (Xk : forall q k, nth_error ks q = Some k -> exists x, nth_error epj q = Some x /\ raw p x k).
      { intros q k Nq. destruct (nth_error epj q) as [xq|] eqn:Xq; [|apply nth_error_None in Xq; rewrite (F2_length _ _ _ Fj) in Xq; assert (q < length ks) by (apply nth_error_Some; congruence); lia].
        destruct (Forall2_nth _ _ _ Fj q xq Xq) as (kq & Kq & Rq2). rewrite Nq in Kq. injection Kq as <-. eauto. }
      exists (fun k => match nth_error epj k with Some x => snd (fst (cell p (p_next_state x) zero)) | None => 0%Q end). split.
      + intros _ q k Nq. destruct (Xk q k Nq) as (x & -> & R). unfold next_value. rewrite Zr. destruct R as (_ & _ & _ & _ & -> & _). reflexivity.
      + intros t a Na. destruct (D refj epj t a Ir Cj Na) as (y & Ny & De). eapply entry_tells in De; [|exact Fj|].
        * destruct De as (k & Kt & Tl & Rest). exists y, k. split; [exact Ny|]. split; [exact Kt|]. split; [exact Tl|exact Rest].
        * intros q k Nq. destruct (Xk q k Nq) as (x & -> & R). destruct R as (_ & -> & -> & _ & _ & _ & _ & Sk & R8). rewrite Zr in R8. rewrite R8 in Sk. rewrite Sk. auto. }
  match type of E with rbind ?m _ = _ => destruct m as [heap|] eqn:Eh end; [|discriminate]. cbn [rbind] in E. specialize (K heap eq_refl). clear Eh.
  apply deref_contents2 in E.
  assert (Lr : length refs = length mem) by exact (F2_length _ _ _ C). assert (Lm : length mem = length kss) by exact (F2_length _ _ _ F). assert (Le : length refs = length eps) by exact (F2_length _ _ _ E).
  apply F2_nths; [lia|]. intros j ep ks Ne Nk. assert (Hj : j < length eps) by (apply nth_error_Some; congruence).
  destruct (nth_error refs j) as [refj|] eqn:Nr; [|apply nth_error_None in Nr; lia]. destruct (nth_error mem j) as [epj|] eqn:Nm; [|apply nth_error_None in Nm; lia].
  destruct (Forall2_nth _ _ _ E j refj Nr) as (ep2 & Ne2 & Ce). rewrite Ne in Ne2. injection Ne2 as <-.
  destruct (K j refj epj ks Nr Nm Nk) as (nv & V & Y).
  assert (Lks : length ep = length ks).
  { rewrite <- (F2_length _ _ _ Ce). destruct (Forall2_nth _ _ _ C j refj Nr) as (m2 & Nm2 & Cm). rewrite (F2_length _ _ _ Cm). destruct (Forall2_nth _ _ _ F j m2 Nm2) as (k2 & Nk2 & Fm). rewrite (F2_length _ _ _ Fm). congruence. }
  assert (W : forall t x, nth_error ep t = Some x -> exists a, nth_error refj t = Some a /\ nth_error heap a = Some x).
  { intros t x Nt. destruct (nth_error refj t) as [a|] eqn:Na; [|apply nth_error_None in Na; rewrite (F2_length _ _ _ Ce) in Na; assert (t < length ep) by (apply nth_error_Some; congruence); lia].
    destruct (Forall2_nth _ _ _ Ce t a Na) as (x2 & Nx2 & Ha). rewrite Nt in Nx2. injection Nx2 as <-. eauto. }
  split.
  - apply F2_nths; [exact Lks|]. intros t x k Nt Kt. destruct (W t x Nt) as (a & Na & Ha). destruct (Y t a Na) as (y & k' & Ny & Kt' & Tl & _). congruence.
  - intros t x Nt. destruct (W t x Nt) as (a & Na & Ha). destruct (Y t a Na) as (y & k' & Ny & Kt' & Tl & E1 & E2 & E3). rewrite Ha in Ny. injection Ny as <-. exists nv. auto.
Qed.

(** ** The agent and the notes *)
Notation states_are := (states_are zero n).
Notation some_states_are := (some_states_are zero n).
Definition noted_acts (p : Pm) (obs : list Ob) (ys : list (Dist * Q)) (actions : list Act) : list (Pm * Ob * (Dist * Q) * Act) :=
  map (fun x => (p, fst (fst x), snd (fst x), snd x)) (combine (combine obs ys) actions).
Definition kept (p : Pm) (mem : list (list ptr)) (b : notes) : Prop := Forall2 (Forall2 (raw p)) mem (n_ended b) /\ Forall (good p) (n_ended b).
Definition running (p : Pm) (bl : list (list ptr)) (cur : nat -> list taken) : Prop := length bl = n /\ forall i ep, nth_error bl i = Some ep -> Forall2 (raw p) ep (cur i).
Definition memory_ok (acted : bool) (b : notes) (s : ppo) : Prop :=
  if rec_ then
    (forall i, i < n -> exists h, linked (o_p s) h (n_current b i) (if acted then n_before b i else n_mem b i)) /\
    (if acted then some_states_are (o_train s) (n_mem b) /\ states_are (o_prev s) (n_before b) else states_are (o_train s) (n_mem b))
  else (forall i, n_mem b i = zero) /\ (forall i, n_before b i = zero).
Definition inv (acted : bool) (b : notes) (s : ppo) : Prop :=
  kept (o_p s) (o_mem s) b /\
  match o_bl s with None => acted = false /\ (forall i, n_current b i = []) | Some bl => running (o_p s) bl (n_current b) end /\
  memory_ok acted b s /\
  (acted = true -> exists obs ys actions, length obs = n /\ length ys = n /\ length actions = n /\ o_last s = map Some (combine obs actions) /\ n_acted b = noted_acts (o_p s) obs ys actions /\
     (forall i o, nth_error obs i = Some o -> nth_error ys i = Some (fst (cell (o_p s) o (n_before b i))) /\ (rec_ = true -> n_mem b i = snd (cell (o_p s) o (n_before b i))))).

Lemma inv_init p : inv false (no_notes zero) (ppo_init p).
Proof.
  split; [split; constructor|]. split; [split; [reflexivity|reflexivity]|]. split; [|discriminate]. unfold memory_ok. destruct rec_; [|split; reflexivity]. split; [intros i _; exists zero; reflexivity|]. intros i _. reflexivity.
Qed.

Lemma outputs_rec p obs hs m ys hs' : rec_ = true -> length obs = n -> states_are hs m -> outputs cell zero recurrent p obs hs = Ok (ys, hs') ->
  length ys = n /\ (forall i o, nth_error obs i = Some o -> nth_error ys i = Some (fst (cell p o (m i)))) /\
  some_states_are hs' (fun i => match nth_error obs i with Some o => snd (cell p o (m i)) | None => m i end).
Proof.
  intros R L S E. unfold rec_ in R. unfold outputs in E. destruct recurrent as [q|]; [|discriminate]. destruct (forward cell zero p obs hs) as [[ys2 hs2]|] eqn:F; [|discriminate]. cbn in E. injection E as <- <-.
  destruct (P_RecDQN.forward_ok cell zero n p obs hs m ys2 hs2 L S F) as (A & B & C). split; [exact A|]. split; [exact B|]. exists hs2. split; [reflexivity|exact C].
Qed.

Lemma act_ok (b : notes) (s s' : ppo) obs sampler ys actions : inv false b s -> length obs = n -> o_training s = true ->
  batch_act cell zero mode act_deterministically recurrent s obs sampler = Ok (s', ys, actions) ->
  inv true (note b (Acted true (o_p s) obs ys actions)) s' /\ o_p s' = o_p s /\ length ys = n /\ length actions = n /\
  (forall i o, nth_error obs i = Some o -> nth_error ys i = Some (fst (cell (o_p s) o (n_mem b i)))) /\ forall i y, nth_error ys i = Some y -> nth_error actions i = Some (sampler i (fst y)).
Proof.
  intros (K & R & M & _) L T E. unfold batch_act in E. rewrite T in E. destruct (passert _) as [[]|]; [|discriminate]. cbn [rbind] in E. destruct (passert _) as [[]|]; [|discriminate]. cbn [rbind] in E.
  destruct (passert _) as [[]|] eqn:Pv; [|discriminate]. cbn [rbind] in E. destruct (outputs _ _ _ _ _ _) as [[ys2 hs]|] eqn:O; [|discriminate]. cbn [rbind] in E. injection E as <- <- <-.
  set (acts := map _ (combine _ ys2)) in *. cbn [o_p].
  assert (Y : length ys2 = n /\ (forall i o, nth_error obs i = Some o -> nth_error ys2 i = Some (fst (cell (o_p s) o (n_mem b i))))).
  { destruct rec_ eqn:Rr.
    - unfold memory_ok in M. rewrite Rr in M. destruct M as [_ M]. destruct (outputs_rec _ _ _ _ _ _ Rr L M O) as (A & B & _). auto.
    - unfold memory_ok in M. rewrite Rr in M. destruct M as [M _]. unfold rec_ in Rr. unfold outputs in O. destruct recurrent; [discriminate|]. injection O as <- <-. split; [now rewrite map_length|].
      intros i o N. rewrite nth_error_map, N, M. reflexivity. }
  destruct Y as [Ly Y]. assert (La : length acts = n) by (unfold acts; rewrite map_length, combine_length, seq_length; lia).
  assert (Sm : forall i y, nth_error ys2 i = Some y -> nth_error acts i = Some (sampler i (fst y))).
  { intros i y Ny. unfold acts. rewrite nth_error_map. destruct (nth_error (combine (seq 0 (length ys2)) ys2) i) as [z|] eqn:Z.
    - apply nth_combine_seq in Z. destruct Z as [Z1 Z2]. rewrite Ny in Z2. injection Z2 as ->. cbn. now rewrite Z1.
    - apply nth_error_None in Z. rewrite combine_length, seq_length in Z. assert (i < length ys2) by (apply nth_error_Some; congruence). lia. }
  split; [|split; [reflexivity|split; [exact Ly|split; [exact La|split; [exact Y|exact Sm]]]]].
  unfold inv. cbn [o_p o_mem o_bl o_last o_train o_prev S_PPOAgent.note n_ended n_current n_mem n_before n_acted]. split; [exact K|]. split.
  { destruct (o_bl s) as [bl|]; [exact R|]. destruct R as [_ R]. split; [now rewrite repeat_length|]. intros i ep N. apply nth_error_In, repeat_spec in N. subst ep. rewrite R. constructor. }
  split.
  - unfold memory_ok in *. cbn [o_p o_train o_prev n_current n_mem n_before]. destruct rec_ eqn:Rr.
    + destruct M as [M1 M2]. split; [exact M1|]. destruct (outputs_rec _ _ _ _ _ _ Rr L M2 O) as (_ & _ & C). split; [exact C|]. unfold rec_ in Rr. destruct recurrent; [exact M2|discriminate].
    + destruct M as [M1 M2]. split; [intros i; destruct (nth_error obs i); auto|exact M1].
  - intros _. exists obs, ys2, acts. split; [exact L|]. split; [exact Ly|]. split; [exact La|]. split; [reflexivity|]. split; [reflexivity|]. intros i o N. split; [exact (Y i o N)|]. intros ->. now rewrite N.
Qed.

Lemma noted_nth p obs ys actions i o y a : nth_error obs i = Some o -> nth_error ys i = Some y -> nth_error actions i = Some a -> nth_error (noted_acts p obs ys actions) i = Some (p, o, y, a).
Proof. intros A B C. unfold noted_acts. rewrite nth_error_map. rewrite (combine_nth_error _ _ i (o, y) a); [reflexivity| |exact C]. now apply combine_nth_error. Qed.

(** One iteration of the loop. *)
Definition so_far (b : notes) (l : list (outcome Ob)) (i j : nat) : list taken := if j <? i then (if over l j then [] else grown b l j) else n_current b j.
Definition loop_inv (b : notes) (l : list (outcome Ob)) (i : nat) (s0 s : ppo) : Prop :=
  o_p s = o_p s0 /\ o_train s = o_train s0 /\ o_prev s = o_prev s0 /\ o_test s = o_test s0 /\ o_training s = o_training s0 /\
  (exists bl, o_bl s = Some bl /\ running (o_p s0) bl (so_far b l i)) /\
  Forall2 (Forall2 (raw (o_p s0))) (o_mem s) (n_ended b ++ map (grown b l) (filter (over l) (seq 0 i))).
Lemma seq_snoc i : seq 0 (S i) = seq 0 i ++ [i].
Proof. rewrite seq_S. reflexivity. Qed.

Lemma observe_one_ok (b : notes) (l : list (outcome Ob)) i (s0 s s' : ppo) o y a out : inv true b s0 -> i < n ->
  nth_error (n_acted b) i = Some (o_p s0, o, y, a) -> y = fst (cell (o_p s0) o (n_before b i)) -> (rec_ = true -> n_mem b i = snd (cell (o_p s0) o (n_before b i))) -> nth_error l i = Some out ->
  loop_inv b l i s0 s -> observe_one recurrent s i (Some (o, a), out) = Ok s' -> loop_inv b l (S i) s0 s'.
Proof.
  intros (_ & _ & M & _) Hi Na Ey Em Nl (P1 & P2 & P3 & P4 & P5 & (bl & Eb & Lb & Rb) & Fm) E. destruct out as [[[obs r] done] reset]. unfold observe_one in E. rewrite Eb in E. cbn [rbind] in E.
  destruct (nth_error bl i) as [ep|] eqn:Ne; [|discriminate]. cbn [rbind] in E.
  pose proof (Rb i ep Ne) as Rep. unfold so_far in Rep. rewrite Nat.ltb_irrefl in Rep.
  assert (B : exists x, rbind (match recurrent with None => Ok None | Some _ => at_ (o_prev s) i end) (fun before => rbind (match recurrent with None => Ok None | Some _ => at_ (o_train s) i end)
     (fun after => Ok (ep ++ [mkPtr o a r obs (if done then 0%Q else 1%Q) before after 0 0 0 0 0]))) = Ok (ep ++ [x]) /\ Forall2 (raw (o_p s0)) (ep ++ [x]) (grown b l i)).
  { assert (G : grown b l i = n_current b i ++ [mkTaken (o_p s0) o (n_before b i) (fst y) (snd y) a r obs done]) by (unfold grown; rewrite Na, Nl; now destruct y).
    rewrite G. unfold memory_ok in M. unfold raw. destruct rec_ eqn:Rr; assert (Rc := Rr); unfold rec_ in Rc; destruct recurrent as [q|]; try discriminate.
    - destruct M as [_ [Mt Mp]]. rewrite P2, P3 in E |- *. destruct (at_ (o_prev s0) i) as [hb|] eqn:Ab; cbn [rbind] in E |- *; [|discriminate E]. destruct (at_ (o_train s0) i) as [ha|] eqn:Aa; cbn [rbind] in E |- *; [|discriminate E].
      pose proof (at_before zero n _ _ i hb Mp Hi Ab) as Q1. pose proof (at_after zero n _ _ i ha Mt Aa) as Q2. eexists. split; [reflexivity|]. apply F2_app; [unfold raw in Rep; rewrite Rr in Rep; exact Rep|]. constructor; [|constructor]. cbn.
      assert (Q3 : hid zero hb = n_before b i) by (destruct hb; cbn; congruence). rewrite <- Ey, Q2, (Em eq_refl). destruct y. auto 10.
    - destruct M as [_ M]. cbn [rbind]. eexists. split; [reflexivity|]. apply F2_app; [unfold raw in Rep; rewrite Rr in Rep; exact Rep|]. constructor; [|constructor]. cbn. rewrite M. rewrite M in Ey. rewrite <- Ey. destruct y. auto 10. }
  destruct B as (x & B1 & B2). cbn [rbind] in E. rewrite B1 in E. cbn [rbind] in E. clear B1.
  assert (RU : forall z, Forall2 (raw (o_p s0)) z (if over l i then [] else grown b l i) -> running (o_p s0) (list_set bl i z) (so_far b l (S i))).
  { intros z Z. split; [now rewrite list_set_length|]. intros j e N. rewrite nth_error_list_set in N. unfold so_far. destruct (Nat.eqb_spec j i) as [->|Hj].
    - replace (i <? length bl) with true in N by (symmetry; apply Nat.ltb_lt; lia). injection N as <-. replace (i <? S i) with true by (symmetry; apply Nat.ltb_lt; lia). exact Z.
    - pose proof (Rb j e N) as Q. unfold so_far in Q. destruct (Nat.ltb_spec j i), (Nat.ltb_spec j (S i)); try lia; exact Q. }
  assert (OV : over l i = done || reset) by (unfold over; now rewrite Nl).
  destruct (done || reset) eqn:Dr.
  - destruct (passert _) as [[]|]; [|discriminate]. cbn [rbind] in E. injection E as <-. unfold loop_inv. cbn [o_p o_mem o_bl o_last o_train o_prev o_test o_training]. repeat (split; [assumption|]). split.
    + eexists. split; [reflexivity|]. apply RU. rewrite OV. constructor.
    + rewrite seq_snoc, filter_app, map_app, app_assoc. apply F2_app; [exact Fm|]. cbn [filter]. rewrite OV. cbn [map]. constructor; [exact B2|constructor].
  - cbn [rbind] in E. injection E as <-. unfold loop_inv. cbn [o_p o_mem o_bl o_last o_train o_prev o_test o_training]. repeat (split; [assumption|]). split.
    + eexists. split; [reflexivity|]. apply RU. rewrite OV. exact B2.
    + rewrite seq_snoc, filter_app, map_app. cbn [filter]. rewrite OV. cbn [map]. rewrite app_nil_r. exact Fm.
Qed.

Lemma observe_loop_ok (b : notes) (l : list (outcome Ob)) (s0 : ppo) obs ys actions : inv true b s0 -> length l = n -> length obs = n -> length ys = n -> length actions = n -> n_acted b = noted_acts (o_p s0) obs ys actions ->
  (forall i o, nth_error obs i = Some o -> nth_error ys i = Some (fst (cell (o_p s0) o (n_before b i))) /\ (rec_ = true -> n_mem b i = snd (cell (o_p s0) o (n_before b i)))) ->
  forall rows i s s', i + length rows = n -> (forall j row, nth_error rows j = Some row -> nth_error (combine (map Some (combine obs actions)) l) (i + j) = Some row) ->
  loop_inv b l i s0 s -> observe_loop recurrent s i rows = Ok s' -> loop_inv b l n s0 s'.
Proof.
  intros I Ll Lo Ly La Na V. induction rows as [|row rows IH]; intros i s s' Hi Hr K E; cbn [observe_loop] in E.
  - injection E as <-. cbn in Hi. replace i with n in K by lia. exact K.
  - destruct (observe_one recurrent s i row) as [s1|] eqn:E1; [|discriminate]. cbn [rbind] in E. cbn [length] in Hi.
    apply (IH (S i) s1 s'); [lia|intros j r N; replace (S i + j) with (i + S j) by lia; now apply Hr| |exact E].
    specialize (Hr 0 row eq_refl). rewrite Nat.add_0_r in Hr.
    destruct (nth_error obs i) as [o|] eqn:No; [|apply nth_error_None in No; lia]. destruct (nth_error actions i) as [a|] eqn:Nc; [|apply nth_error_None in Nc; lia]. destruct (nth_error l i) as [out|] eqn:Nl; [|apply nth_error_None in Nl; lia].
    rewrite (combine_nth_error _ _ i (Some (o, a)) out) in Hr; [|rewrite nth_error_map, (combine_nth_error _ _ i o a No Nc); reflexivity|exact Nl]. injection Hr as <-.
    destruct (V i o No) as [V1 V2]. eapply observe_one_ok with (o := o) (a := a) (out := out); [exact I|lia| |reflexivity|exact V2|exact Nl|exact K|exact E1]. rewrite Na. now apply noted_nth.
Qed.

(** Stretches are good. *)
Lemma grown_linked (b : notes) (l : list (outcome Ob)) (s : ppo) i : inv true b s -> length l = n -> i < n ->
  grown b l i <> [] /\ (rec_ = true -> exists h, linked (o_p s) h (grown b l i) (n_mem b i)).
Proof.
  intros (_ & _ & M & A) Ll Hi. destruct (A eq_refl) as (obs & ys & actions & Lo & Ly & La & _ & Na & V).
  destruct (nth_error obs i) as [o|] eqn:No; [|apply nth_error_None in No; lia]. destruct (nth_error actions i) as [a|] eqn:Nc; [|apply nth_error_None in Nc; lia]. destruct (nth_error l i) as [[[[o' r] d] e]|] eqn:Nl; [|apply nth_error_None in Nl; lia].
  destruct (V i o No) as [V1 V2]. unfold grown. rewrite Na, (noted_nth _ _ _ _ i o _ a No V1 Nc), Nl. destruct (fst (cell (o_p s) o (n_before b i))) as [dd vv]. split; [destruct (n_current b i); discriminate|].
  intros Rr. unfold memory_ok in M. rewrite Rr in M. destruct M as [M _]. destruct (M i Hi) as [h L]. exists h. rewrite (V2 Rr). exact (linked_snoc (o_p s) _ h _ (mkTaken (o_p s) o (n_before b i) dd vv a r o' d) L eq_refl).
Qed.

(** The update. *)
Notation wv := (with_values cell zero log_prob recurrent gamma lambd).
Lemma flushed_ok p bl cur : running p bl cur -> Forall2 (Forall2 (raw p)) (flushed bl) (filter (fun ks => negb (length ks =? 0)) (map cur (seq 0 n))).
Proof.
  intros [L R]. assert (F : Forall2 (Forall2 (raw p)) bl (map cur (seq 0 n))).
  { apply F2_nths; [now rewrite map_length, seq_length|]. intros i x y Nx Ny. rewrite nth_error_map in Ny. assert (Hi : i < n) by (rewrite <- L; apply nth_error_Some; congruence).
    assert (E : nth_error (seq 0 n) i = Some i). { clear - Hi. assert (G : forall m k j, j < m -> nth_error (seq k m) j = Some (k + j)) by (induction m as [|m IH]; intros k [|j] H; try lia; cbn; [f_equal; lia|rewrite IH by lia; f_equal; lia]). now rewrite G. }
    rewrite E in Ny. injection Ny as <-. exact (R i x Nx). }
  clear L R. unfold flushed. induction F as [|x y l l' H _ IH]; [constructor|]. cbn [filter]. rewrite (F2_length _ _ _ H). destruct (length y =? 0); cbn; [exact IH|constructor; auto].
Qed.
Lemma update_ok (b : notes) (s s' : ppo) u : kept (o_p s) (o_mem s) b -> (exists bl, o_bl s = Some bl /\ running (o_p s) bl (n_current b)) -> (forall i, i < n -> n_current b i <> [] -> good (o_p s) (n_current b i)) ->
  update_if_ready cell zero log_prob recurrent update_interval gamma lambd learn s = Ok (s', u) ->
  match u with
  | None => s' = s
  | Some u => u_p u = o_p s /\ Forall2 (entries (o_p s) ) (u_episodes u) (stretches n b) /\ Forall (good (o_p s)) (stretches n b) /\ Forall (Forall (fun k => k_p k = o_p s)) (stretches n b) /\
      match recurrent with None => u_data u = [concat (u_episodes u)] | Some None => u_data u = u_episodes u | Some (Some m) => limit_sequence_length (u_episodes u) m = Ok (u_data u) end /\
      Forall2 (Forall2 (raw (o_p s))) (o_mem s ++ match o_bl s with None => [] | Some bl => flushed bl end) (stretches n b) /\
      s' = mkPpo (learn (o_p s) (u_data u)) [] (Some (repeat [] n)) (o_last s) (o_train s) (o_prev s) (o_test s) (o_training s)
  end.
Proof.
  intros [K1 K2] (bl & Eb & R) G E. unfold update_if_ready in E. rewrite Eb in *. destruct (_ <=? _); [|injection E as <- <-; reflexivity].
  destruct (wv (o_p s) (o_mem s ++ flushed bl)) as [eps|] eqn:W; [|discriminate]. cbn [rbind] in E. match type of E with rbind ?m _ = _ => destruct m as [data|] eqn:D end; [|discriminate]. cbn [rbind] in E.
  match type of E with rbind ?m _ = _ => destruct m as [x|] end; [|discriminate]. cbn [rbind] in E. injection E as <- <-. cbn [u_p u_episodes u_data].
  assert (F : Forall2 (Forall2 (raw (o_p s))) (o_mem s ++ flushed bl) (stretches n b)) by (apply F2_app; [exact K1|exact (flushed_ok _ _ _ R)]).
  assert (GS : Forall (good (o_p s)) (stretches n b)).
  { apply Forall_app. split; [exact K2|]. apply Forall_forall. intros ks I. apply filter_In in I. destruct I as [I Z]. apply in_map_iff in I. destruct I as (i & <- & I). apply in_seq in I. apply G; [lia|]. intros C. rewrite C in Z. discriminate. }
  split; [reflexivity|]. split; [exact (with_values_ok _ _ _ _ F GS W)|]. split; [exact GS|]. split.
  { clear - F. induction F as [|x ks l l' H _ IH]; constructor; [|exact IH]. induction H as [|y k x ks Hr _ IH2]; constructor; [apply Hr|exact IH2]. }
  split; [destruct recurrent as [[m|]|]; [exact D|now injection D as <-|now injection D as <-]|]. split; [exact F|]. f_equal. cbn. f_equal. destruct R as [L _]. rewrite <- L. clear. induction bl; cbn; congruence.
Qed.

(** What can be said of an update, from the notes with the last outcomes entered. *)
Definition update_matches (b : notes) (u : update Ob Act HS Pm) : Prop :=
  Forall2 (entries (u_p u)) (u_episodes u) (stretches n b) /\ Forall (good (u_p u)) (stretches n b) /\ Forall (Forall (fun k => k_p k = u_p u)) (stretches n b) /\
  Forall (Forall (fun k => fst (cell (u_p u) (k_obs k) (k_before k)) = (k_dist k, k_value k) /\ (rec_ = false -> k_before k = zero))) (stretches n b) /\
  match recurrent with None => u_data u = [concat (u_episodes u)] | Some None => u_data u = u_episodes u | Some (Some m) => limit_sequence_length (u_episodes u) m = Ok (u_data u) end.

Lemma observe_ok (b : notes) (s s' : ppo) l u : inv true b s -> length l = n -> o_training s = true ->
  batch_observe cell zero log_prob recurrent update_interval gamma lambd learn s l = Ok (s', u) ->
  inv false (note b (Observed true l u)) s' /\ o_training s' = true /\ match u with Some u => u_p u = o_p s /\ update_matches (outcomes_in zero b l) u | None => True end.
Proof.
  intros I Ll T E. unfold batch_observe in E. rewrite T in E. pose proof I as (K & R & M & A). destruct (A eq_refl) as (obs & ys & actions & Lo & Ly & La & El & Na & V).
  destruct (observe_loop recurrent s 0 (combine (o_last s) l)) as [s1|] eqn:O; [|discriminate]. cbn [rbind] in E.
  assert (LI : loop_inv b l n s s1).
  { eapply observe_loop_ok with (obs := obs) (ys := ys) (actions := actions) (rows := combine (o_last s) l) (i := 0); [exact I|exact Ll|exact Lo|exact Ly|exact La|exact Na|exact V| | | |exact O].
    - rewrite combine_length, El, map_length, combine_length. lia.
    - intros j row N. rewrite El in N. exact N.
    - unfold loop_inv. repeat (split; [reflexivity|]). split.
      + destruct (o_bl s) as [bl|]; [|destruct R; discriminate]. exists bl. split; [reflexivity|]. exact R.
      + cbn. rewrite app_nil_r. apply K. }
  destruct LI as (P1 & P2 & P3 & P4 & P5 & (bl & Eb & Rb) & Fm).
  match type of E with rbind ?m _ = _ => destruct m as [hs|] eqn:Hs end; [|discriminate]. cbn [rbind] in E. set (s2 := mkPpo (o_p s1) (o_mem s1) (o_bl s1) (o_last s1) hs None (o_test s1) (o_training s1)) in *.
  set (b' := outcomes_in zero b l).
  assert (GG : forall i, i < n -> good (o_p s) (grown b l i)).
  { intros i Hi. destruct (grown_linked b l s i I Ll Hi) as [G1 G2]. split; [exact G1|]. intros Rr. destruct (G2 Rr) as [h G3]. eauto. }
  assert (OI : forall i, over l i = true -> i < n).
  { intros i Z. unfold over in Z. destruct (nth_error l i) eqn:N; [|discriminate]. rewrite <- Ll. apply nth_error_Some. congruence. }
  assert (KB : kept (o_p s2) (o_mem s2) b').
  { subst s2 b'. cbn [o_p o_mem]. unfold kept, outcomes_in. cbn [n_ended]. rewrite P1, Ll. split; [exact Fm|]. apply Forall_app. split; [apply K|]. apply Forall_forall. intros ks Ik. apply in_map_iff in Ik.
    destruct Ik as (i & <- & Ik). apply filter_In in Ik. apply GG. apply OI. apply Ik. }
  assert (RB : exists bl, o_bl s2 = Some bl /\ running (o_p s2) bl (n_current b')).
  { subst s2 b'. exists bl. cbn [o_bl o_p]. split; [exact Eb|]. rewrite P1. destruct Rb as [Rb1 Rb2]. split; [exact Rb1|]. intros i ep N. pose proof (Rb2 i ep N) as Q. unfold so_far in Q. assert (Hi : i < n) by (rewrite <- Rb1; apply nth_error_Some; congruence).
    replace (i <? n) with true in Q by (symmetry; now apply Nat.ltb_lt). exact Q. }
  assert (GB : forall i, i < n -> n_current b' i <> [] -> good (o_p s2) (n_current b' i)).
  { subst s2 b'. cbn [o_p outcomes_in n_current]. rewrite P1. intros i Hi. destruct (over l i); [congruence|]. intros _. now apply GG. }
  (* what is remembered *)
  assert (MB : memory_ok false b' s2).
  { subst s2 b'. unfold memory_ok in *. cbn [o_p o_train o_prev outcomes_in n_mem n_before n_current]. destruct rec_ eqn:Rr.
    - destruct M as [M1 [M2 M3]]. split.
      + intros i Hi. rewrite P1. destruct (over l i); [exists zero; reflexivity|]. exact (proj2 (grown_linked b l s i I Ll Hi) Rr).
      + unfold rec_ in Rr. destruct recurrent as [q|]; [|discriminate]. rewrite P2 in Hs. assert (Sm : states_are (o_train s) (n_mem b)) by (destruct M2 as (hl & -> & M2); exact M2).
        pose proof (reset_ok zero n l (o_train s) (n_mem b) hs Ll Sm Hs) as Sr. destruct hs as [hl|]; cbn in Sr |- *.
        * split; [apply Sr|]. intros i h N. rewrite (proj2 Sr i h N). unfold over. destruct (nth_error l i); reflexivity.
        * intros i Hi. etransitivity; [|exact (Sr i Hi)]. unfold over. destruct (nth_error l i); reflexivity.
    - destruct M as [M1 M2]. split; [|exact M2]. intros i. rewrite M1. now destruct (over l i). }
  pose proof (update_ok b' s2 s' u KB RB GB E) as U. destruct u as [u|].
  - destruct U as (U1 & U2 & U3 & U4 & U5 & U6 & ->). assert (Eu : u_p u = o_p s) by (rewrite U1; exact P1). split; [|split; [cbn; congruence|split; [exact Eu|]]].
    + split; [split; constructor|]. split.
      * cbn [o_bl o_p S_PPOAgent.note n_current]. split; [apply repeat_length|]. intros i ep N. apply nth_error_In, repeat_spec in N. subst ep. constructor.
      * split; [|discriminate]. unfold memory_ok in *. cbn [o_p o_train o_prev S_PPOAgent.note n_mem n_before n_current]. destruct rec_; [|exact MB]. split; [intros i _; eexists; reflexivity|apply MB].
    + rewrite <- U1 in *. split; [exact U2|]. split; [exact U3|]. split; [exact U4|]. split; [|exact U5].
      assert (W : forall q m st, Forall2 (Forall2 (raw q)) m st -> Forall (Forall (fun k => fst (cell q (k_obs k) (k_before k)) = (k_dist k, k_value k) /\ (rec_ = false -> k_before k = zero))) st).
      { clear. intros q m st F. induction F as [|x ks m st H _ IH]; constructor; [|exact IH].
        induction H as [|y k x ks Hr _ IH2]; constructor; [|exact IH2]. destruct Hr as (_ & _ & _ & _ & _ & _ & _ & Hd & Hz). split; [exact Hd|]. intros Z. rewrite Z in Hz. exact Hz. }
      exact (W _ _ _ U6).
  - subst s'. split; [|split; [subst s2; cbn; congruence|exact Logic.I]]. split; [exact KB|]. split; [|split; [exact MB|discriminate]]. destruct RB as (bl2 & -> & RB). exact RB.
Qed.

(** ** All runs *)
Lemma run_ok : forall es (b : notes) (s s' : ppo) tr acted, run cell zero log_prob mode act_deterministically recurrent update_interval gamma lambd learn s es = Ok (s', tr) -> proper n acted tr -> inv acted b s ->
  (forall k p obs ys actions, nth_error tr k = Some (Acted true p obs ys actions) -> length ys = n /\ length actions = n /\
     (forall i o, nth_error obs i = Some o -> nth_error ys i = Some (fst (cell p o (n_mem (fold_left note (firstn k tr) b) i)))) /\
     exists sampler, nth_error es k = Some (Act_ obs sampler) /\ forall i y, nth_error ys i = Some y -> nth_error actions i = Some (sampler i (fst y))) /\
  (forall k l u, nth_error tr k = Some (Observed true l (Some u)) -> update_matches (outcomes_in zero (fold_left note (firstn k tr) b) l) u).
Proof.
  induction es as [|e es IH]; intros b s s' tr acted E P I; cbn [run] in E.
  - injection E as <- <-. split; intros [|k]; discriminate.
  - destruct (step _ _ _ _ _ _ _ _ _ _ s e) as [[s1 x]|] eqn:E1; [|discriminate]. cbn [rbind] in E. destruct (run _ _ _ _ _ _ _ _ _ _ s1 es) as [[s2 xs]|] eqn:E2; [|discriminate]. cbn in E. injection E as <- <-.
    assert (G : exists acted', proper n acted' xs /\ inv acted' (note b x) s1 /\
       (forall p obs ys actions, x = Acted true p obs ys actions -> length ys = n /\ length actions = n /\ (forall i o, nth_error obs i = Some o -> nth_error ys i = Some (fst (cell p o (n_mem b i)))) /\
          exists sampler, e = Act_ obs sampler /\ forall i y, nth_error ys i = Some y -> nth_error actions i = Some (sampler i (fst y))) /\
       (forall l u, x = Observed true l (Some u) -> update_matches (outcomes_in zero b l) u)).
    { destruct e as [m|ob sm|l]; cbn [step] in E1.
      - injection E1 as <- <-. exists acted. split; [exact P|]. split; [exact I|]. split; discriminate.
      - destruct (batch_act _ _ _ _ _ s ob sm) as [[[s3 ys] acts]|] eqn:B; [|discriminate]. cbn [rbind] in E1. injection E1 as <- <-. destruct (o_training s) eqn:T.
        + cbn [proper] in P. destruct P as (-> & L & P). destruct (act_ok b s s3 ob sm ys acts I L T B) as (I2 & _ & A1 & A2 & A3 & A4). exists true. split; [exact P|]. split; [exact I2|]. split; [|discriminate].
          intros p obs2 ys2 ac2 Q. injection Q as <- <- <- <-. eauto 10.
        + exists acted. split; [exact P|]. split; [|split; discriminate]. unfold batch_act in B. rewrite T in B. destruct (outputs _ _ _ _ _ _) as [[y2 h2]|]; [|discriminate]. cbn [rbind] in B. injection B as <- <- <-. exact I.
      - destruct (batch_observe _ _ _ _ _ _ _ _ s l) as [[s3 u]|] eqn:B; [|discriminate]. cbn [rbind] in E1. injection E1 as <- <-. destruct (o_training s) eqn:T.
        + cbn [proper] in P. destruct P as (-> & L & P). destruct (observe_ok b s s3 l u I L T B) as (I2 & _ & U). exists false. split; [exact P|]. split; [exact I2|]. split; [discriminate|].
          intros l2 u2 Q. injection Q as <- ->. apply U.
        + exists acted. split; [exact P|]. split; [|split; discriminate]. unfold batch_observe in B. rewrite T in B. match type of B with rbind ?m _ = _ => destruct m as [h2|] end; [|discriminate]. cbn [rbind] in B. injection B as <- <-. exact I. }
    destruct G as (acted' & P' & I' & G1 & G2). destruct (IH (note b x) s1 s2 xs acted' E2 P' I') as [H1 H2]. split.
    + intros [|k] p obs ys actions N; cbn in N |- *.
      * injection N as ->. destruct (G1 p obs ys actions eq_refl) as (A1 & A2 & A3 & sm & -> & A4). eauto 10.
      * exact (H1 k p obs ys actions N).
    + intros [|k] l u N; cbn in N |- *; [injection N as ->; exact (G2 l u eq_refl)|exact (H2 k l u N)].
Qed.

(** ** Evaluation *)
Lemma observe_loop_test : forall rows i (s s' : ppo), observe_loop recurrent s i rows = Ok s' -> o_test s' = o_test s /\ o_training s' = o_training s.
Proof.
  induction rows as [|row rows IH]; intros i s s' E; cbn [observe_loop] in E; [injection E as <-; auto|]. destruct (observe_one recurrent s i row) as [s1|] eqn:E1; [|discriminate]. cbn [rbind] in E.
  destruct (IH _ _ _ E) as [A B]. rewrite A, B. clear - E1. unfold observe_one in E1. destruct row as [last [[[ob r] d] e]]. repeat match type of E1 with rbind ?m _ = _ => destruct m as [?|]; [cbn [rbind] in E1|discriminate] end.
  match type of E1 with (let '(_, _) := ?x in _) = _ => destruct x end. injection E1 as <-. auto.
Qed.
Lemma update_test (s s' : ppo) u : update_if_ready cell zero log_prob recurrent update_interval gamma lambd learn s = Ok (s', u) -> o_test s' = o_test s /\ o_training s' = o_training s.
Proof.
  intros E. unfold update_if_ready in E. cbv zeta in E. destruct (_ <=? _); [|injection E as <- _; auto]. repeat match type of E with rbind ?m _ = _ => destruct m as [?|]; [cbn [rbind] in E|discriminate] end. injection E as <- _. auto.
Qed.
Lemma outputs_eval m p obs hs mem ys hs' : length obs = m -> (if rec_ then P_RecDQN.states_are zero m hs mem else forall i, mem i = zero) -> outputs cell zero recurrent p obs hs = Ok (ys, hs') ->
  length ys = m /\ (forall i o, nth_error obs i = Some o -> nth_error ys i = Some (fst (cell p o (mem i)))) /\
  (if rec_ then P_RecDQN.states_are zero m hs' (fun i => match nth_error obs i with Some o => if rec_ then snd (cell p o (mem i)) else zero | None => mem i end)
   else forall i, match nth_error obs i with Some o => if rec_ then snd (cell p o (mem i)) else zero | None => mem i end = zero).
Proof.
  intros L M E. unfold rec_ in *. unfold outputs in E. destruct recurrent as [q|]; cbn [is_none negb] in *.
  - destruct (forward cell zero p obs hs) as [[ys2 hs2]|] eqn:F; [|discriminate]. cbn in E. injection E as <- <-. destruct (P_RecDQN.forward_ok cell zero m p obs hs mem ys2 hs2 L M F) as (A & B & C). auto.
  - injection E as <- <-. split; [now rewrite map_length|]. split; [intros i o N; rewrite nth_error_map, N; cbn; now rewrite M|]. intros i. now destruct (nth_error obs i).
Qed.
Lemma run_eval m : forall es mem (s s' : ppo) tr, run cell zero log_prob mode act_deterministically recurrent update_interval gamma lambd learn s es = Ok (s', tr) -> Forall (evaluated_in m) tr ->
  (if rec_ then P_RecDQN.states_are zero m (o_test s) mem else forall i, mem i = zero) ->
  forall k p obs ys actions, nth_error tr k = Some (Acted false p obs ys actions) -> length ys = m /\ length actions = m /\
    (forall i o, nth_error obs i = Some o -> nth_error ys i = Some (fst (cell p o (fold_left (seen_in_evaluation cell zero rec_) (firstn k tr) mem i)))) /\
    exists sampler, nth_error es k = Some (Act_ obs sampler) /\ forall i y, nth_error ys i = Some y -> nth_error actions i = Some (if act_deterministically then mode (fst y) else sampler i (fst y)).
Proof.
  induction es as [|e es IH]; intros mem s s' tr E F M; cbn [run] in E.
  - injection E as <- <-. intros [|k]; discriminate.
  - destruct (step _ _ _ _ _ _ _ _ _ _ s e) as [[s1 x]|] eqn:E1; [|discriminate]. cbn [rbind] in E. destruct (run _ _ _ _ _ _ _ _ _ _ s1 es) as [[s2 xs]|] eqn:E2; [|discriminate]. cbn in E. injection E as <- <-.
    inversion F as [|x' xs' F1 F2]; subst x' xs'.
    assert (G : (if rec_ then P_RecDQN.states_are zero m (o_test s1) (seen_in_evaluation cell zero rec_ mem x) else forall i, seen_in_evaluation cell zero rec_ mem x i = zero) /\
       forall p obs ys actions, x = Acted false p obs ys actions -> length ys = m /\ length actions = m /\ (forall i o, nth_error obs i = Some o -> nth_error ys i = Some (fst (cell p o (mem i)))) /\
          exists sampler, e = Act_ obs sampler /\ forall i y, nth_error ys i = Some y -> nth_error actions i = Some (if act_deterministically then mode (fst y) else sampler i (fst y))).
    { destruct e as [b|ob sm|l]; cbn [step] in E1.
      - injection E1 as <- <-. split; [exact M|discriminate].
      - destruct (batch_act _ _ _ _ _ s ob sm) as [[[s3 ys] actions]|] eqn:B; [|discriminate]. cbn [rbind] in E1. injection E1 as <- <-. unfold batch_act in B. cbv zeta in B. destruct (o_training s) eqn:T.
        + repeat match type of B with rbind (passert ?c) _ = _ => destruct (passert c) as [[]|]; [cbn [rbind] in B|discriminate] end. destruct (outputs _ _ _ _ _ _) as [[ys2 hs]|]; [|discriminate]. cbn [rbind] in B. injection B as <- <- <-. split; [exact M|discriminate].
        + destruct (outputs _ _ _ _ _ _) as [[ys2 hs]|] eqn:O; [|discriminate]. cbn [rbind] in B. injection B as <- <- <-. cbn [evaluated_in] in F1. destruct (outputs_eval m _ _ _ _ _ _ F1 M O) as (A1 & A2 & A3). split; [exact A3|].
          intros p0 obs0 ys0 actions0 X. injection X as <- <- <- <-. split; [exact A1|]. split; [destruct act_deterministically; rewrite map_length; [exact A1|rewrite combine_length, seq_length; lia]|]. split; [exact A2|]. exists sm. split; [reflexivity|].
          intros i y N. destruct act_deterministically; rewrite nth_error_map; [now rewrite N|]. rewrite (combine_nth_error _ _ i i y); [reflexivity| |exact N].
          assert (i < length ys2) by (apply nth_error_Some; congruence). rewrite (nth_error_nth' _ 0) by (now rewrite seq_length). now rewrite seq_nth.
      - destruct (batch_observe _ _ _ _ _ _ _ _ s l) as [[s3 u]|] eqn:B; [|discriminate]. cbn [rbind] in E1. injection E1 as <- <-. split; [|discriminate]. unfold batch_observe in B. destruct (o_training s) eqn:T.
        + destruct (observe_loop recurrent s 0 _) as [s4|] eqn:L; [|discriminate]. cbn [rbind] in B. match type of B with rbind ?m _ = _ => destruct m as [hs|]; [cbn [rbind] in B|discriminate] end.
          destruct (observe_loop_test _ _ _ _ L) as [T1 _]. destruct (update_test _ _ _ B) as [T2 _]. cbn [o_test] in T2. cbn [seen_in_evaluation]. now rewrite T2, T1.
        + cbn [evaluated_in] in F1. cbn [seen_in_evaluation]. match type of B with rbind ?m _ = _ => destruct m as [hs|] eqn:R; [cbn [rbind] in B|discriminate] end. injection B as <- _. cbn [o_test]. unfold rec_ in *. destruct recurrent as [q|]; cbn [is_none negb] in *.
          * pose proof (P_RecDQN.reset_ok zero m l (o_test s) mem hs F1 M R) as S. destruct hs as [hl|]; cbn in S |- *.
            -- split; [apply S|]. intros i h N. rewrite (proj2 S i h N). unfold over. destruct (nth_error l i); reflexivity.
            -- intros i Hi. etransitivity; [|exact (S i Hi)]. unfold over. destruct (nth_error l i); reflexivity.
          * intros i. rewrite M. now destruct (over l i). }
    destruct G as [G1 G2]. intros [|k] p obs ys actions N; cbn [nth_error] in N.
    + injection N as ->. destruct (G2 _ _ _ _ eq_refl) as (A & B & C & sm & -> & D). split; [exact A|]. split; [exact B|]. split; [exact C|]. exists sm. split; [reflexivity|exact D].
    + exact (IH _ _ _ _ E2 F2 G1 k p obs ys actions N).
Qed.
End Agent.
