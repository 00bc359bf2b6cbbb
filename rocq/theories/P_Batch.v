(** Lemmas for C13 and C14. *)
From Verif Require Import Base P_Base M_RandomAccessQueue P_RandomAccessQueue M_SampleNK S_SampleNK P_SampleNK M_ReplayBuffer S_ReplayBuffer
  P_ReplayBuffer M_Batch S_Batch.
From Coq Require Import ZifyBool ZifyNat QArith Lqa Qpower.
Open Scope nat_scope.

Lemma rmapM_ok {X Y} (f : X -> result Y) (g : X -> Y) l : (forall x, In x l -> f x = Ok (g x)) -> rmapM f l = Ok (map g l).
Proof.
  induction l as [|x l IH]; intros H; cbn; auto. rewrite H by now left. cbn. rewrite IH by (intros; apply H; now right). reflexivity.
Qed.

Lemma qpow_gpow g n : (qpow g n == gpow g n)%Q.
Proof.
  unfold gpow. induction n as [|n IH]; [reflexivity|]. cbn [qpow]. rewrite IH.
  rewrite Nat2Z.inj_succ. unfold Z.succ. destruct (Qeq_dec g 0) as [Hz|Hz].
  - rewrite Hz. destruct n.
    + cbn. ring.
    + rewrite !Qpower_0 by lia. ring.
  - rewrite Qpower_plus by exact Hz. cbn. ring.
Qed.

Lemma fold_Qplus l : forall a, (fold_left Qplus l a == a + fold_left Qplus l 0)%Q.
Proof.
  induction l as [|x l IH]; intros a; cbn; [ring|]. rewrite IH, (IH (0 + x)%Q). ring.
Qed.

Lemma fold_horner {X} g (r : X -> Q) (l : list X) : forall d (a : X),
  (fold_left Qplus (map (fun i => qpow g i * r (nth i l a)) (seq 0 (length l))) 0 * qpow g d ==
   fold_left Qplus (map (fun i => qpow g (d + i) * r (nth i l a)) (seq 0 (length l))) 0)%Q.
Proof.
  intros d a. generalize (seq 0 (length l)) as s. induction s as [|i s IH]; cbn; [ring|].
  rewrite fold_Qplus. rewrite (fold_Qplus _ (0 + qpow g (d + i) * r (nth i l a))%Q). rewrite <- IH.
  assert (E : (qpow g (d + i) == qpow g d * qpow g i)%Q) by (clear; induction d; cbn; [ring|rewrite IHd; ring]).
  rewrite E. ring.
Qed.

Lemma sum_discounted {X} g (r : X -> Q) (a : X) (l : list X) :
  (fold_left Qplus (map (fun i => qpow g i * r (nth i l a)) (seq 0 (length l))) 0 == discounted g (map r l))%Q.
Proof.
  induction l as [|x l IH]; [reflexivity|]. cbn [length seq map discounted]. cbn [fold_left nth]. rewrite fold_Qplus, <- IH.
  rewrite <- seq_shift, map_map. cbn [nth].
  pose proof (fold_horner g r l 1 a) as H. cbn [plus] in H. rewrite <- H. cbn [qpow]. ring.
Qed.

Section B.
Context {S A : Type}.
Notation tr := (trans (exper S A)).

Definition fst_of (w : list tr) (d : tr) := hd d w.

Lemma py_get_0 {X} (x : X) l : py_get (x :: l) 0 = Ok x.
Proof. reflexivity. Qed.
Lemma py_get_m1 {X} (l : list X) x : py_get (l ++ [x]) (-1) = Ok x.
Proof.
  unfold py_get. change (-1 <? 0)%Z with true. cbn [negb]. rewrite app_length. cbn [length].
  replace (-1 + Z.of_nat (length l + 1) <? 0)%Z with false by lia.
  replace (Z.to_nat (-1 + Z.of_nat (length l + 1))) with (length l) by lia.
  rewrite nth_error_app2, Nat.sub_diag by lia. reflexivity.
Qed.

Lemma window_reward_ok g (w : list tr) : exists r, window_reward g w = Ok r /\ (r == discounted g (map (fun t => x_reward (payload t)) w))%Q.
Proof.
  destruct w as [|a w]; [exists 0%Q; split; reflexivity|]. set (w' := a :: w).
  unfold window_reward.
  rewrite (rmapM_ok _ (fun i => qpow g i * x_reward (payload (nth i w' a)))%Q).
  - cbn [rbind]. eexists. split; [reflexivity|]. apply (sum_discounted g (fun t => x_reward (payload t)) a w').
  - intros i Hi. apply in_seq in Hi. unfold py_get. replace (Z.of_nat i <? 0)%Z with false by lia.
    rewrite Nat2Z.id. replace (Z.of_nat i <? 0)%Z with false by lia.
    rewrite (nth_error_nth' w' a) by lia. reflexivity.
Qed.

Lemma rmapM_Forall2 {X Y} (f : X -> result Y) l : (forall x, In x l -> exists y, f x = Ok y) ->
  exists ys, rmapM f l = Ok ys /\ Forall2 (fun x y => f x = Ok y) l ys.
Proof.
  induction l as [|x l IH]; intros H; cbn; [eauto|]. destruct (H x) as (y & Ey); [now left|]. rewrite Ey. cbn.
  destruct IH as (ys & E & HF); [intros; apply H; now right|]. rewrite E. cbn. exists (y :: ys). split; auto.
Qed.

Lemma nonempty_ends (w : list tr) : w <> [] -> exists first rest init last, w = first :: rest /\ w = init ++ [last].
Proof.
  intros H. destruct w as [|f r]; [congruence|]. destruct (exists_last H) as (i & z & E). exists f, r, i, z. auto.
Qed.

Lemma Forall2_nth {X Y} (P : X -> Y -> Prop) l l' : Forall2 P l l' -> forall i x, nth_error l i = Some x -> exists y, nth_error l' i = Some y /\ P x y.
Proof.
  induction 1 as [|x y l l' Hxy H IH]; intros [|i] z Hz; cbn in *; try discriminate; [injection Hz as ->; eauto|eauto].
Qed.

Lemma batch_ok g (exps : list (list tr)) : Forall (fun w => w <> []) exps ->
  exists b, batch_experiences g exps = Ok b /\
    length (b_state b) = length exps /\ length (b_action b) = length exps /\ length (b_reward b) = length exps /\
    length (b_next_state b) = length exps /\ length (b_terminal b) = length exps /\ length (b_discount b) = length exps /\
    (forall i w, nth_error exps i = Some w -> exists s a r ns tm dc,
        nth_error (b_state b) i = Some s /\ nth_error (b_action b) i = Some a /\ nth_error (b_reward b) i = Some r /\
        nth_error (b_next_state b) i = Some ns /\ nth_error (b_terminal b) i = Some tm /\ nth_error (b_discount b) i = Some dc /\
        entry_ok g w s a r ns tm dc) /\
    match b_next_action b with
    | Some nas => Forall2 (fun w na => exists init last, w = init ++ [last] /\ x_next_action (payload last) = Some na) exps nas
    | None => exists w init last, In w exps /\ w = init ++ [last] /\ x_next_action (payload last) = None
    end.
Proof.
  intros Hne. rewrite Forall_forall in Hne. unfold batch_experiences.
  destruct (rmapM_Forall2 (fun w => t <- py_get w 0 ;; Ok (x_state (payload t))) exps) as (st & E1 & F1).
  { intros w Hw. destruct (nonempty_ends w (Hne w Hw)) as (f & r & i & z & -> & _). eexists; reflexivity. }
  rewrite E1. cbn [rbind].
  destruct (rmapM_Forall2 (fun w => t <- py_get w 0 ;; Ok (x_action (payload t))) exps) as (ac & E2 & F2).
  { intros w Hw. destruct (nonempty_ends w (Hne w Hw)) as (f & r & i & z & -> & _). eexists; reflexivity. }
  rewrite E2. cbn [rbind].
  destruct (rmapM_Forall2 (window_reward g) exps) as (rw & E3 & F3).
  { intros w Hw. destruct (window_reward_ok g w) as (r & E & _). eauto. }
  rewrite E3. cbn [rbind].
  destruct (rmapM_Forall2 (fun w => t <- py_get w (-1) ;; Ok (x_next_state (payload t))) exps) as (ns & E4 & F4).
  { intros w Hw. destruct (nonempty_ends w (Hne w Hw)) as (f & r & i & z & _ & ->). rewrite py_get_m1. eexists; reflexivity. }
  rewrite E4. cbn [rbind].
  destruct (rmapM_Forall2 (fun w => t <- py_get w (-1) ;; Ok (x_next_action (payload t))) exps) as (na & E5 & F5).
  { intros w Hw. destruct (nonempty_ends w (Hne w Hw)) as (f & r & i & z & _ & ->). rewrite py_get_m1. eexists; reflexivity. }
  rewrite E5. cbn [rbind]. eexists. split; [reflexivity|]. cbn [b_state b_action b_reward b_next_state b_terminal b_discount b_next_action].
  rewrite !map_length. rewrite <- (Forall2_len _ _ _ F1), <- (Forall2_len _ _ _ F2), <- (Forall2_len _ _ _ F3), <- (Forall2_len _ _ _ F4).
  do 6 (split; [reflexivity|]). split.
  - intros i w Hw. assert (Hin : In w exps) by (eapply nth_error_In; eauto).
    destruct (nonempty_ends w (Hne w Hin)) as (f & r & ini & z & Ef & Ez).
    destruct (Forall2_nth _ _ _ F1 i w Hw) as (s & Ns & Ps). destruct (Forall2_nth _ _ _ F2 i w Hw) as (a & Na & Pa).
    destruct (Forall2_nth _ _ _ F3 i w Hw) as (rr & Nr & Pr). destruct (Forall2_nth _ _ _ F4 i w Hw) as (n & Nn & Pn).
    exists s, a, rr, n, (if existsb terminal w then 1%Q else 0%Q), (qpow g (length w)).
    split; [exact Ns|]. split; [exact Na|]. split; [exact Nr|]. split; [exact Nn|].
    split; [now rewrite nth_error_map, Hw|]. split; [now rewrite nth_error_map, Hw|].
    exists f, z, ini, r. split; [exact Ef|]. split; [exact Ez|].
    rewrite Ef in Ps, Pa. rewrite py_get_0 in Ps, Pa. cbn in Ps, Pa. injection Ps as <-. injection Pa as <-.
    rewrite Ez, py_get_m1 in Pn. cbn in Pn. injection Pn as <-.
    split; [reflexivity|]. split; [reflexivity|]. split; [reflexivity|]. split.
    + destruct (window_reward_ok g w) as (r2 & E & Hr). rewrite Pr in E. injection E as <-. exact Hr.
    + split; [|split].
      * intros (t & Ht & Tt). replace (existsb terminal w) with true; [reflexivity|]. symmetry. apply existsb_exists. eauto.
      * intros Hall. destruct (existsb terminal w) eqn:Ex; [|reflexivity]. apply existsb_exists in Ex as (t & Ht & Tt).
        rewrite Hall in Tt by auto. discriminate.
      * apply qpow_gpow.
  - clear E5. destruct (forallb (fun o => match o with Some _ => true | None => false end) na) eqn:Ea.
    + clear -F5 Hne Ea. induction F5 as [|w o exps na Hw F5 IH]; cbn; [constructor|].
      cbn in Ea. apply andb_true_iff in Ea as [Eo Ea]. destruct o as [a|]; [|discriminate]. cbn. constructor.
      * destruct (nonempty_ends w (Hne w (or_introl eq_refl))) as (f & r & ini & z & Ef & Ez). exists ini, z. split; [exact Ez|].
        rewrite Ez, py_get_m1 in Hw. cbn in Hw. now injection Hw.
      * apply IH; auto. intros x Hx. apply Hne. now right.
    + clear -F5 Hne Ea. induction F5 as [|w o exps na Hw F5 IH]; cbn in Ea; [discriminate|].
      destruct o as [a|].
      * cbn in Ea. destruct IH as (w' & ini & z & Hin & E1 & E2); auto. { intros x Hx. apply Hne. now right. }
        exists w', ini, z. split; [now right|auto].
      * destruct (nonempty_ends w (Hne w (or_introl eq_refl))) as (f & r & ini & z & Ef & Ez). exists w, ini, z. split; [now left|]. split; [exact Ez|].
        rewrite Ez, py_get_m1 in Hw. cbn in Hw. now injection Hw.
Qed.

(** Windows of a terminated episode: the terminal flag marks exactly the windows that reach its end. *)
Lemma window_terminal n (ep : list tr) z i : 0 < n -> terminal z = true -> Forall (fun t => terminal t = false) ep ->
  i <= length ep ->
  existsb terminal (window n (ep ++ [z]) i) = (length ep <? i + n).
Proof.
  intros Hn Hz Hep Hi. unfold window.
  rewrite skipn_app. replace (i - length ep) with 0 by lia. cbn [skipn]. rewrite firstn_app, skipn_length.
  rewrite existsb_app.
  replace (existsb terminal (firstn n (skipn i ep))) with false.
  2:{ symmetry. destruct (existsb terminal (firstn n (skipn i ep))) eqn:E; [|reflexivity]. apply existsb_exists in E as (t & Ht & Tt).
      assert (In t ep). { rewrite <- (firstn_skipn i ep). apply in_or_app. right. rewrite <- (firstn_skipn n (skipn i ep)). apply in_or_app. now left. }
      rewrite Forall_forall in Hep. rewrite Hep in Tt by auto. discriminate. }
  cbn [orb]. destruct (length ep <? i + n) eqn:E.
  - destruct (n - (length ep - i)) eqn:En; [lia|]. cbn. now rewrite Hz.
  - replace (n - (length ep - i)) with 0 by lia. reflexivity.
Qed.
End B.

(** ** C14 *)
Lemma updater_sample_ok {A St} fuel (mem : St -> raq A) (orc : St -> oracle) (upd_f : St -> list A -> result St)
   (n_eps : St -> nat) sample_eps (u : updater) (s : St) it :
  u_batchsize u <= u_start u -> u_episodic u = false -> 0 < u_interval u ->
  (forall s b s', upd_f s b = Ok s' -> raq_iter (mem s') = raq_iter (mem s)) ->
  (forall s, numpy_contract (length (raq_iter (mem s))) (u_batchsize u) (orc s)) ->
  let due := (u_start u <= length (raq_iter (mem s))) /\ Nat.divide (u_interval u) it in
  match update_if_necessary (fun s => raq_len (mem s)) n_eps
          (fun s n => xs <- rb_sample fuel (orc s) (mem s) n ;; Ok (s, xs)) sample_eps upd_f u s it with
  | Ok (did, s', bs) =>
      (did = true <-> due) /\ (did = false -> s' = s /\ bs = []) /\
      (did = true -> length bs = u_times u /\
         Forall (fun xs => exists ixs, distinct_sample (length (raq_iter (mem s))) (u_batchsize u) ixs /\
                   Forall2 (fun i x => nth_error (raq_iter (mem s)) i = Some x) ixs xs) bs)
  | Err e => due /\ (e = OutOfFuel \/ exists s1 xs, upd_f s1 xs = Err e)
  end.
Proof.
  intros Hb He Hint Hmem Horc. cbn zeta. unfold update_if_necessary. rewrite He. cbn [andb]. rewrite raq_len_iter.
  destruct (length (raq_iter (mem s)) <? u_start u) eqn:E1.
  { split; [split; [discriminate|lia]|]. split; [auto|discriminate]. }
  replace (u_interval u =? 0) with false by lia.
  destruct (it mod u_interval u =? 0) eqn:E2; cbn [negb].
  2:{ split; [split; [discriminate|]|].
      - intros (_ & Hd). apply Nat.mod_divide in Hd; lia.
      - split; [auto|discriminate]. }
  assert (Hdue : u_start u <= length (raq_iter (mem s)) /\ Nat.divide (u_interval u) it).
  { split; [lia|]. apply Nat.mod_divide; lia. }
  assert (Hloop : forall times s0, raq_iter (mem s0) = raq_iter (mem s) ->
    match update_loop (fun s n => xs <- rb_sample fuel (orc s) (mem s) n ;; Ok (s, xs)) sample_eps upd_f u times s0 with
    | Ok (s', bs) => length bs = times /\ Forall (fun xs => exists ixs, distinct_sample (length (raq_iter (mem s))) (u_batchsize u) ixs /\
                   Forall2 (fun i x => nth_error (raq_iter (mem s)) i = Some x) ixs xs) bs
    | Err e => e = OutOfFuel \/ exists s1 xs, upd_f s1 xs = Err e
    end).
  { induction times as [|times IH]; intros s0 Hs0; cbn [update_loop]; [auto|].
    rewrite He. unfold rb_sample at 1. rewrite raq_len_iter, Hs0.
    replace (u_batchsize u <=? length (raq_iter (mem s))) with true by lia. cbn [passert rbind].
    pose proof (raq_sample_ok fuel (orc s0) (mem s0) (u_batchsize u)) as H. rewrite Hs0 in H. specialize (H ltac:(lia)).
    specialize (Horc s0). rewrite Hs0 in Horc. specialize (H Horc).
    destruct (raq_sample fuel (orc s0) (mem s0) (Z.of_nat (u_batchsize u))) as [xs|e]; cbn [rbind]; [|auto].
    destruct (upd_f s0 xs) as [s1|e] eqn:Eu; cbn [rbind]; [|eauto].
    specialize (IH s1). rewrite (Hmem _ _ _ Eu) in IH. specialize (IH Hs0).
    destruct (update_loop _ _ _ u times s1) as [[s' bs]|e]; cbn [rbind]; [|exact IH].
    destruct IH as (IH1 & IH2). split; [cbn; lia|]. constructor; auto. }
  specialize (Hloop (u_times u) s eq_refl).
  destruct (update_loop _ _ _ u (u_times u) s) as [[s' bs]|e]; cbn [rbind].
  - split; [tauto|]. split; [discriminate|]. auto.
  - auto.
Qed.

(** Episodic updates: the schedule. *)
Lemma updater_episodic_ok {B St} (len n_eps : St -> nat) sample (sample_eps : St -> nat -> option nat -> result (St * B))
   (upd_f : St -> B -> result St) (u : updater) (s : St) it :
  u_episodic u = true -> 0 < u_interval u ->
  let due := u_start u <= len s /\ u_batchsize u <= n_eps s /\ Nat.divide (u_interval u) it in
  match update_if_necessary len n_eps sample sample_eps upd_f u s it with
  | Ok (did, s', bs) => (did = true <-> due) /\ (did = false -> s' = s /\ bs = []) /\ (did = true -> length bs = u_times u)
  | Err e => due /\ exists s1, (sample_eps s1 (u_batchsize u) (u_len u) = Err e) \/ exists xs, upd_f s1 xs = Err e
  end.
Proof.
  intros He Hint. cbn zeta. unfold update_if_necessary. rewrite He. cbn [andb].
  destruct (len s <? u_start u) eqn:E1.
  { split; [split; [discriminate|lia]|]. split; [auto|discriminate]. }
  destruct (n_eps s <? u_batchsize u) eqn:E3.
  { split; [split; [discriminate|lia]|]. split; [auto|discriminate]. }
  replace (u_interval u =? 0) with false by lia.
  destruct (it mod u_interval u =? 0) eqn:E2; cbn [negb].
  2:{ split; [split; [discriminate|]|].
      - intros (_ & _ & Hd). apply Nat.mod_divide in Hd; lia.
      - split; [auto|discriminate]. }
  assert (Hdue : u_start u <= len s /\ u_batchsize u <= n_eps s /\ Nat.divide (u_interval u) it).
  { split; [lia|]. split; [lia|]. apply Nat.mod_divide; lia. }
  assert (Hloop : forall times s0,
    match update_loop sample sample_eps upd_f u times s0 with
    | Ok (s', bs) => length bs = times
    | Err e => exists s1, (sample_eps s1 (u_batchsize u) (u_len u) = Err e) \/ exists xs, upd_f s1 xs = Err e
    end).
  { induction times as [|times IH]; intros s0; cbn [update_loop]; [auto|]. rewrite He.
    destruct (sample_eps s0 (u_batchsize u) (u_len u)) as [[s1 xs]|e] eqn:Es; cbn [rbind]; [|eauto].
    destruct (upd_f s1 xs) as [s2|e] eqn:Eu; cbn [rbind]; [|eauto].
    specialize (IH s2). destruct (update_loop _ _ _ u times s2) as [[s' bs]|e]; cbn [rbind]; [cbn; lia|exact IH]. }
  specialize (Hloop (u_times u) s). destruct (update_loop _ _ _ u (u_times u) s) as [[s' bs]|e]; cbn [rbind].
  - split; [tauto|]. split; [discriminate|]. auto.
  - auto.
Qed.
