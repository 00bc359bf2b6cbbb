(** Proofs about A2C. *)
From Coq Require Import QArith Qpower Lqa.
From Verif Require Import Base P_Base M_A2C S_PPO P_PPO S_A2C.
Open Scope nat_scope.

(** * Returns *)
Fixpoint prec (gamma nv : Q) (l : list (Q * Q)) : Q * list Q :=
  match l with
  | [] => (nv, [])
  | (r, m) :: t => let (n, acc) := prec gamma nv t in let x := (r + gamma * n * m)%Q in (x, x :: acc)
  end.
Lemma plain_rec gamma l : forall nv m acc, plain_returns gamma (rev l ++ m) nv acc = plain_returns gamma m (fst (prec gamma nv l)) (snd (prec gamma nv l) ++ acc).
Proof.
  induction l as [|[r k] l IH]; intros nv m acc; [reflexivity|]. cbn [rev]. rewrite <- app_assoc, IH. cbn [app plain_returns prec]. destruct (prec gamma nv l). reflexivity.
Qed.
Lemma plain_prec gamma l nv : plain_returns gamma (rev l) nv [] = snd (prec gamma nv l).
Proof. rewrite <- (app_nil_r (rev l)), plain_rec. cbn. now rewrite app_nil_r. Qed.
Lemma prec_nth gamma nv l : forall t, t < length l -> nth_error (snd (prec gamma nv l)) t = Some (fst (prec gamma nv (skipn t l))).
Proof.
  induction l as [|[r k] l IH]; intros t H; [cbn in H; lia|]. destruct t; cbn [skipn].
  - cbn. destruct (prec gamma nv l). reflexivity.
  - cbn [prec]. cbn in H. specialize (IH t ltac:(lia)). destruct (prec gamma nv l). exact IH.
Qed.
Lemma prec_len gamma nv l : length (snd (prec gamma nv l)) = length l.
Proof. induction l as [|[r k] l IH]; [reflexivity|]. cbn. destruct (prec gamma nv l). cbn in *. lia. Qed.

Lemma pow_S c k : (Qpower c (Z.of_nat (S k)) == c * Qpower c (Z.of_nat k))%Q.
Proof.
  rewrite Nat2Z.inj_succ. unfold Z.succ. destruct (Qeq_dec c 0) as [Z0|NZ].
  - rewrite Z0. rewrite (Qpower_0 (Z.of_nat k + 1)) by lia. rewrite Qmult_0_l. reflexivity.
  - rewrite (Qpower_plus c (Z.of_nat k) 1 NZ). cbn [Qpower Qpower_positive pow_pos]. ring.
Qed.

Definition reward_at (l : list Q) (k : nat) : Q := nth k l 0%Q.

(* up to the first end *)
Lemma prec_end gamma nv rs : forall es e, length es = length rs -> nth_error es e = Some true -> (forall j, j < e -> nth_error es j = Some false) ->
  (fst (prec gamma nv (combine rs (map mask_of es))) == discounted_sum gamma (reward_at rs) (S e))%Q.
Proof.
  induction rs as [|r rs IH]; intros [|b es] e HL H1 H2; try discriminate; [destruct e; discriminate|]. cbn [map combine prec]. rewrite dsum_shift.
  destruct e as [|e].
  - injection H1 as ->. destruct (prec gamma nv _) as [n acc]. cbn [fst mask_of reward_at nth]. unfold discounted_sum. cbn [seq fold_right]. ring.
  - pose proof (H2 0 ltac:(lia)) as Hb. injection Hb as ->. cbn in H1. specialize (IH es e ltac:(cbn in HL; lia) H1).
    assert (X : forall j, j < e -> nth_error es j = Some false) by (intros j Hj; apply (H2 (S j)); lia). specialize (IH X).
    destruct (prec gamma nv (combine rs (map mask_of es))) as [n acc]. cbn [fst mask_of] in *. rewrite IH. cbn [reward_at nth]. unfold reward_at. cbn [nth]. ring.
Qed.
Lemma prec_noend gamma nv rs : forall es, length es = length rs -> (forall j, j < length rs -> nth_error es j = Some false) ->
  (fst (prec gamma nv (combine rs (map mask_of es))) == discounted_sum gamma (reward_at rs) (length rs) + Qpower gamma (Z.of_nat (length rs)) * nv)%Q.
Proof.
  induction rs as [|r rs IH]; intros [|b es] HL H2; try discriminate; [cbn; ring|]. cbn [map combine prec length]. rewrite dsum_shift, pow_S.
  pose proof (H2 0 ltac:(cbn; lia)) as Hb. injection Hb as ->. assert (X : forall j, j < length rs -> nth_error es j = Some false) by (intros j Hj; apply (H2 (S j)); cbn; lia).
  specialize (IH es ltac:(cbn in HL; lia) X). destruct (prec gamma nv (combine rs (map mask_of es))) as [n acc]. cbn [fst mask_of] in *. rewrite IH. unfold reward_at. cbn [nth]. ring.
Qed.

(** GAE *)
Fixpoint grec2 (gamma tau nv : Q) (l : list (Q * Q * Q)) : Q * Q * list Q :=
  match l with
  | [] => (0%Q, nv, [])
  | (r, m, v) :: t => let '(g, n, acc) := grec2 gamma tau nv t in let g' := (r + gamma * n * m - v + gamma * tau * m * g)%Q in (g', v, (g' + v)%Q :: acc)
  end.
Lemma gae2_rec gamma tau nv l : forall m acc, gae_returns gamma tau (rev l ++ m) 0 nv acc =
  gae_returns gamma tau m (fst (fst (grec2 gamma tau nv l))) (snd (fst (grec2 gamma tau nv l))) (snd (grec2 gamma tau nv l) ++ acc).
Proof.
  induction l as [|[[r k] v] l IH]; intros m acc; [reflexivity|]. cbn [rev]. rewrite <- app_assoc, IH. cbn [app gae_returns grec2]. destruct (grec2 gamma tau nv l) as [[g n] a]. reflexivity.
Qed.
Lemma gae2_grec gamma tau nv l : gae_returns gamma tau (rev l) 0 nv [] = snd (grec2 gamma tau nv l).
Proof. rewrite <- (app_nil_r (rev l)), gae2_rec. cbn. now rewrite app_nil_r. Qed.
Lemma grec2_nth gamma tau nv l : forall t r m v, nth_error l t = Some (r, m, v) -> nth_error (snd (grec2 gamma tau nv l)) t = Some (fst (fst (grec2 gamma tau nv (skipn t l))) + v)%Q.
Proof.
  induction l as [|[[r0 k0] v0] l IH]; intros t r m v H; [destruct t; discriminate|]. destruct t; cbn [skipn].
  - injection H as -> -> ->. cbn [grec2]. destruct (grec2 gamma tau nv l) as [[g n] a]. reflexivity.
  - cbn [nth_error] in H. specialize (IH t r m v H). cbn [grec2]. destruct (grec2 gamma tau nv l) as [[g n] a]. exact IH.
Qed.
Lemma grec2_len gamma tau nv l : length (snd (grec2 gamma tau nv l)) = length l.
Proof. induction l as [|[[r k] v] l IH]; [reflexivity|]. cbn. destruct (grec2 gamma tau nv l) as [[g n] a]. cbn in *. lia. Qed.

(* the value of step k, the bootstrap value after the last *)
Definition value_at (vs : list Q) (nv : Q) (k : nat) : Q := nth k (vs ++ [nv]) 0%Q.
Lemma grec2_next gamma tau nv rs ms vs : length ms = length rs -> length vs = length rs ->
  snd (fst (grec2 gamma tau nv (combine (combine rs ms) vs))) = value_at vs nv 0.
Proof. destruct rs as [|r rs], ms as [|m ms], vs as [|v vs]; intros; try discriminate; [reflexivity|]. cbn. destruct (grec2 gamma tau nv _) as [[g n] a]. reflexivity. Qed.

Definition delta2 (gamma nv : Q) (rs : list Q) (es : list bool) (vs : list Q) (k : nat) : Q :=
  (nth k rs 0 + gamma * mask_of (nth k es false) * value_at vs nv (S k) - value_at vs nv k)%Q.
Lemma grec2_end gamma tau nv rs : forall es vs e, length es = length rs -> length vs = length rs -> nth_error es e = Some true -> (forall j, j < e -> nth_error es j = Some false) ->
  (fst (fst (grec2 gamma tau nv (combine (combine rs (map mask_of es)) vs))) == discounted_sum (gamma * tau) (delta2 gamma nv rs es vs) (S e))%Q.
Proof.
  induction rs as [|r rs IH]; intros [|b es] [|v vs] e HL HV H1 H2; try discriminate; [destruct e; discriminate|]. cbn in HL, HV.
  cbn [map combine grec2]. rewrite dsum_shift. pose proof (grec2_next gamma tau nv rs (map mask_of es) vs ltac:(rewrite map_length; lia) ltac:(lia)) as Nx.
  destruct e as [|e].
  - injection H1 as ->. destruct (grec2 gamma tau nv _) as [[g n] acc]. cbn [fst snd] in *. subst n. unfold delta2, value_at. cbn [nth app mask_of]. unfold discounted_sum. cbn [seq fold_right]. ring.
  - pose proof (H2 0 ltac:(lia)) as Hb. injection Hb as ->. cbn in H1. assert (X : forall j, j < e -> nth_error es j = Some false) by (intros j Hj; apply (H2 (S j)); lia).
    specialize (IH es vs e ltac:(lia) ltac:(lia) H1 X). destruct (grec2 gamma tau nv _) as [[g n] acc]. cbn [fst snd] in *. subst n. rewrite IH.
    assert (E : (discounted_sum (gamma * tau) (fun l => delta2 gamma nv (r :: rs) (false :: es) (v :: vs) (S l)) (S e) == discounted_sum (gamma * tau) (delta2 gamma nv rs es vs) (S e))%Q) by (apply dsum_ext; intros l _; reflexivity).
    rewrite E. unfold delta2 at 2. unfold value_at. cbn [nth app mask_of]. ring.
Qed.
Lemma grec2_noend gamma tau nv rs : forall es vs, length es = length rs -> length vs = length rs -> (forall j, j < length rs -> nth_error es j = Some false) ->
  (fst (fst (grec2 gamma tau nv (combine (combine rs (map mask_of es)) vs))) == discounted_sum (gamma * tau) (delta2 gamma nv rs es vs) (length rs))%Q.
Proof.
  induction rs as [|r rs IH]; intros [|b es] [|v vs] HL HV H2; try discriminate; [cbn; reflexivity|]. cbn in HL, HV.
  cbn [map combine grec2 length]. rewrite dsum_shift. pose proof (grec2_next gamma tau nv rs (map mask_of es) vs ltac:(rewrite map_length; lia) ltac:(lia)) as Nx.
  pose proof (H2 0 ltac:(cbn; lia)) as Hb. injection Hb as ->. assert (X : forall j, j < length rs -> nth_error es j = Some false) by (intros j Hj; apply (H2 (S j)); cbn; lia).
  specialize (IH es vs ltac:(lia) ltac:(lia) X). destruct (grec2 gamma tau nv _) as [[g n] acc]. cbn [fst snd] in *. subst n. rewrite IH.
  assert (E : (discounted_sum (gamma * tau) (fun l => delta2 gamma nv (r :: rs) (false :: es) (v :: vs) (S l)) (length rs) == discounted_sum (gamma * tau) (delta2 gamma nv rs es vs) (length rs))%Q) by (apply dsum_ext; intros l _; reflexivity).
  rewrite E. unfold delta2 at 2. unfold value_at. cbn [nth app mask_of]. ring.
Qed.

Lemma skipn_combine {A B} (l : list A) : forall (m : list B) t, skipn t (combine l m) = combine (skipn t l) (skipn t m).
Proof.
  induction l as [|a l IH]; intros [|b m] [|t]; try reflexivity; cbn; [|apply IH]. destruct (skipn t l); reflexivity.
Qed.
Lemma nth_skipn0 {A} (l : list A) t k d : nth k (skipn t l) d = nth (t + k) l d.
Proof. revert l. induction t as [|t IH]; intros l; [reflexivity|]. destruct l; cbn; [destruct k; reflexivity|apply IH]. Qed.

Lemma skipn_nth {A} (l : list A) : forall t x, nth_error l t = Some x -> skipn t l = x :: skipn (S t) l.
Proof. induction l as [|y l IH]; intros [|t] x H; try discriminate; [injection H as ->; reflexivity|]. cbn [nth_error] in H. cbn [skipn]. rewrite (IH t x H). destruct l; reflexivity. Qed.

(** * Storage *)
Lemma py_set_at {A} (l1 : list A) y l2 x i : i = Z.of_nat (length l1) -> py_set (l1 ++ y :: l2) i x = Ok (l1 ++ x :: l2).
Proof.
  intros ->. unfold py_set. destruct (Z.ltb_spec (Z.of_nat (length l1)) 0); [lia|].
  destruct (Z.ltb_spec (Z.of_nat (length l1)) 0); [lia|]. rewrite app_length. cbn [length].
  destruct (Z.ltb_spec (Z.of_nat (length l1)) (Z.of_nat (length l1 + S (length l2)))) as [_|]; [|lia]. rewrite Nat2Z.id. rewrite list_set_app_r, Nat.sub_diag by lia. reflexivity.
Qed.
Lemma py_get_last {A} (l : list A) x : py_get (l ++ [x]) (-1) = Ok x.
Proof.
  unfold py_get. cbn [Z.ltb Z.compare]. rewrite app_length. cbn [length]. destruct (Z.ltb_spec (-1 + Z.of_nat (length l + 1)) 0); [lia|].
  replace (Z.to_nat (-1 + Z.of_nat (length l + 1))) with (length l) by lia. rewrite nth_error_app2, Nat.sub_diag by lia. reflexivity.
Qed.

Section StorageProofs.
  Context {Ob Act : Type}.
  Variable n : nat.
  Hypothesis Hn : 1 <= n.
  Notation stp := (step Ob Act).

  Definition filled {A} (xs : list A) (rows : list (option A)) (total : nat) : Prop := exists junk, rows = map Some xs ++ junk /\ length rows = total.
  Lemma filled_nth {A} (xs : list A) rows total x i : filled xs rows total -> length xs < total -> i = Z.of_nat (length xs) ->
    exists rows', py_set rows i (Some x) = Ok rows' /\ filled (xs ++ [x]) rows' total.
  Proof.
    intros (junk & -> & L) H ->. rewrite app_length, map_length in L. destruct junk as [|y junk]; [cbn in L; lia|].
    rewrite (py_set_at (map Some xs) y junk (Some x)) by (now rewrite map_length). eexists. split; [reflexivity|]. exists junk. rewrite map_app, <- app_assoc. split; [reflexivity|].
    cbn [map app]. rewrite app_length, map_length. cbn in *. lia.
  Qed.
  Lemma filled_fix {A} (xs : list A) rows total x i : filled xs rows total -> length xs < total -> i = Z.of_nat (length xs) ->
    exists rows', py_set rows i (Some x) = Ok rows' /\ filled xs rows' total.
  Proof.
    intros H1 H2 H3. destruct (filled_nth xs rows total x i H1 H2 H3) as (rows' & E & (junk & -> & L)). eexists. split; [exact E|]. exists (Some x :: junk).
    rewrite map_app, <- app_assoc. split; [reflexivity|]. rewrite map_app, <- app_assoc in L. exact L.
  Qed.
  Lemma filled_full {A} (xs : list A) rows : filled xs rows (length xs) -> rows = map Some xs.
  Proof. intros (junk & -> & L). rewrite app_length, map_length in L. destruct junk; [now rewrite app_nil_r|cbn in L; lia]. Qed.
  Lemma filled_nil {A} (rows : list (option A)) total : length rows = total -> filled [] rows total.
  Proof. intros H. exists rows. split; [reflexivity|exact H]. Qed.

  Definition ended_row (e : list bool) : list Q := map mask_of e.
  Lemma eff_done ds : forall rs, length ds = length rs -> effective_done ds rs = map (fun dz => fst dz || snd dz) (combine ds rs).
  Proof. induction ds as [|d ds IH]; intros [|r rs] H; try discriminate; [reflexivity|]. cbn in *. rewrite IH by lia. destruct d, r; reflexivity. Qed.

  Definition inv (on : bool) (s : a2c Ob Act) (p : ref Ob Act) : Prop :=
    let k := length (steps p) in
    k < n /\ (t s = t_start s + Z.of_nat k)%Z /\ (0 <= t_start s)%Z /\
    match chosen p with
    | Some (o, a, v) => on = true /\ exists x, sto s = Some x /\ filled (map s_obs (steps p) ++ [o]) (states x) (n + 1) /\
        filled (map s_acts (steps p) ++ [a]) (actions x) n /\ filled (map s_values (steps p) ++ [v]) (value_preds x) (n + 1) /\
        filled (map s_rewards (steps p)) (rewards x) n /\ filled (map (fun q => ended_row (s_ended q)) (steps p)) (masks x) n
    | None => on = false /\ ((t s = 0)%Z \/ exists x, (t s <> 0)%Z /\ sto s = Some x /\ filled (map s_obs (steps p)) (states x) (n + 1) /\
        filled (map s_acts (steps p)) (actions x) n /\ filled (map s_values (steps p)) (value_preds x) (n + 1) /\
        filled (map s_rewards (steps p)) (rewards x) n /\ filled (map (fun q => ended_row (s_ended q)) (steps p)) (masks x) n)
    end.

  Lemma inv_act s p obs acts values : inv false s p ->
    exists s', call n s (BatchAct true obs acts values) = (s', Ok None) /\ inv true s' {| chosen := Some (obs, acts, values); steps := steps p |}.
  Proof.
    intros (Hk & Ht & Hs & H). destruct (chosen p) as [[[? ?] ?]|] eqn:Ec; [destruct H; discriminate|]. destruct H as [_ H]. cbn [call].
    set (s0 := if (t s =? 0)%Z then flush_storage n s else s).
    assert (K : exists x, t s0 = t s /\ t_start s0 = t_start s /\ sto s0 = Some x /\ filled (map s_obs (steps p)) (states x) (n + 1) /\
        filled (map s_acts (steps p)) (actions x) n /\ filled (map s_values (steps p)) (value_preds x) (n + 1) /\
        filled (map s_rewards (steps p)) (rewards x) n /\ filled (map (fun q => ended_row (s_ended q)) (steps p)) (masks x) n).
    { unfold s0. destruct (Z.eqb_spec (t s) 0) as [E0|E0].
      - assert (El : steps p = []) by (destruct (steps p); [reflexivity|cbn [length] in Ht; lia]). rewrite El. cbn [map flush_storage t t_start sto].
        eexists. split; [reflexivity|]. split; [reflexivity|]. split; [reflexivity|]. cbn [states actions value_preds rewards masks].
        repeat split; try (apply filled_nil; apply repeat_length).
      - destruct H as [H|(x & _ & H)]; [lia|]. exists x. split; [reflexivity|]. split; [reflexivity|]. exact H. }
    destruct K as (x & K1 & K2 & K3 & F1 & F2 & F3 & F4 & F5). unfold batch_act_train. fold s0. unfold get_sto at 1. rewrite K3. cbn [rbind]. rewrite K1, K2.
    assert (Ik : (t s - t_start s = Z.of_nat (length (steps p)))%Z) by lia.
    destruct (filled_nth _ _ _ obs (t s - t_start s) F1) as (st & E1 & G1); [rewrite map_length; lia|rewrite map_length; lia|]. rewrite E1. cbn [rbind].
    unfold update_if. cbn [t t_start]. destruct (Z.eqb_spec (t s - t_start s) (Z.of_nat n)); [lia|]. cbn [rbind]. unfold get_sto. cbn [sto rbind t t_start actions value_preds].
    destruct (filled_nth _ _ _ acts (t s - t_start s) F2) as (ac & E2 & G2); [rewrite map_length; lia|rewrite map_length; lia|]. rewrite E2. cbn [rbind].
    destruct (filled_nth _ _ _ values (t s - t_start s) F3) as (vp & E3 & G3); [rewrite map_length; lia|rewrite map_length; lia|]. rewrite E3. cbn [rbind].
    eexists. split; [reflexivity|]. unfold inv. cbn [steps chosen t t_start sto]. split; [exact Hk|]. split; [exact Ht|]. split; [exact Hs|]. split; [reflexivity|].
    eexists. split; [reflexivity|]. cbn [states actions value_preds rewards masks]. repeat split; assumption.
  Qed.

  Lemma inv_observe s p obs rs dones resets : inv true s p -> length dones = length resets ->
    exists s', call n s (BatchObserve true obs rs dones resets) = (s', snd (ref_call n p (BatchObserve true obs rs dones resets))) /\
      inv false s' (fst (ref_call n p (BatchObserve true obs rs dones resets))).
  Proof.
    intros (Hk & Ht & Hs & H) HL. destruct (chosen p) as [[[o a] v]|] eqn:Ec; [|destruct H; discriminate]. destruct H as [_ (x & Hx & F1 & F2 & F3 & F4 & F5)].
    cbn [call ref_call]. rewrite Ec. cbn zeta. unfold batch_observe_train. cbn [t t_start sto]. unfold get_sto at 1. cbn [sto]. rewrite Hx. cbn [rbind].
    set (q := {| s_obs := o; s_acts := a; s_values := v; s_next := obs; s_rewards := rs; s_ended := map (fun dz => fst dz || snd dz) (combine dones resets) |}).
    rewrite (eff_done dones resets HL).
    destruct (filled_nth _ _ _ (ended_row (s_ended q)) (t s + 1 - t_start s - 1)%Z F5) as (mk & E1 & G1); [rewrite map_length; lia|rewrite map_length; lia|].
    change (map (fun d : bool => if d then 0%Q else 1%Q) (map (fun dz => fst dz || snd dz) (combine dones resets))) with (ended_row (s_ended q)). rewrite E1. cbn [rbind].
    destruct (filled_nth _ _ _ rs (t s + 1 - t_start s - 1)%Z F4) as (rw & E2 & G2); [rewrite map_length; lia|rewrite map_length; lia|]. rewrite E2. cbn [rbind].
    assert (Lo : length (map s_obs (steps p) ++ [o]) = S (length (steps p))) by (rewrite app_length, map_length; cbn; lia).
    assert (Eo : map s_obs (steps p) ++ [o] = map s_obs (steps p ++ [q])) by (rewrite map_app; reflexivity).
    assert (Ea : map s_acts (steps p) ++ [a] = map s_acts (steps p ++ [q])) by (rewrite map_app; reflexivity).
    assert (Ev : map s_values (steps p) ++ [v] = map s_values (steps p ++ [q])) by (rewrite map_app; reflexivity).
    assert (Er : map s_rewards (steps p) ++ [rs] = map s_rewards (steps p ++ [q])) by (rewrite map_app; reflexivity).
    assert (Em : map (fun q => ended_row (s_ended q)) (steps p) ++ [ended_row (s_ended q)] = map (fun q => ended_row (s_ended q)) (steps p ++ [q])) by (rewrite map_app; reflexivity).
    destruct (filled_nth _ _ _ obs (t s + 1 - t_start s)%Z F1) as (st & E3 & G3); [lia|lia|]. rewrite E3. cbn [rbind].
    assert (Lq : length (steps p ++ [q]) = S (length (steps p))) by (rewrite app_length; cbn; lia).
    unfold update_if. cbn [t t_start]. rewrite Lq.
    destruct (Z.eqb_spec (t s + 1 - t_start s) (Z.of_nat n)) as [E|E]; destruct (Nat.eqb_spec (S (length (steps p))) n) as [E'|E']; try lia.
    - unfold update, get_sto. cbn [sto rbind states t]. assert (Es : st = map Some (map s_obs (steps p ++ [q])) ++ [Some obs]).
      { rewrite Eo in G3. replace (n + 1) with (length (map s_obs (steps p ++ [q]) ++ [obs])) in G3 by (rewrite app_length, map_length; cbn; lia). apply filled_full in G3. rewrite G3, map_app. reflexivity. }
      rewrite Es, py_get_last. cbn [rbind].
      assert (Ps : exists st', py_set (map Some (map s_obs (steps p ++ [q])) ++ [Some obs]) 0 (Some obs) = Ok st' /\ length st' = n + 1).
      { destruct (map Some (map s_obs (steps p ++ [q])) ++ [Some obs]) as [|y l0] eqn:El; [destruct (map Some _); discriminate|]. rewrite (py_set_at [] y l0 (Some obs) 0 eq_refl : py_set (y :: l0) 0 (Some obs) = _). eexists. split; [reflexivity|].
        assert (length (y :: l0) = n + 1) by (rewrite <- El, app_length, !map_length, Lq; cbn; lia). cbn in *. lia. }
      destruct Ps as (st' & -> & Lst). cbn [rbind fst snd].
      assert (Rl : removelast (value_preds x) = map Some (map s_values (steps p ++ [q]))).
      { rewrite Ev in F3. destruct F3 as (junk & -> & L). rewrite app_length, !map_length, Lq in L. destruct junk as [|y [|z junk]]; cbn in L; try lia. apply removelast_last. }
      eexists. split.
      + f_equal. f_equal. f_equal. unfold rollout_of. cbn [value_preds actions rewards masks states]. rewrite Rl. rewrite !map_map. f_equal.
        * rewrite Ea in F2. replace n with (length (map s_acts (steps p ++ [q]))) in F2 by (rewrite map_length; lia). apply filled_full in F2. now rewrite map_map in F2.
        * rewrite Er in G2. replace n with (length (map s_rewards (steps p ++ [q]))) in G2 by (rewrite map_length; lia). apply filled_full in G2. now rewrite map_map in G2.
        * rewrite Em in G1. replace n with (length (map (fun q => ended_row (s_ended q)) (steps p ++ [q]))) in G1 by (rewrite map_length; lia). apply filled_full in G1. now rewrite map_map in G1.
      + unfold inv. cbn [steps chosen length t t_start sto fst]. split; [lia|]. split; [lia|]. split; [lia|]. split; [reflexivity|]. right. eexists. split; [lia|]. split; [reflexivity|].
        cbn [states actions value_preds rewards masks map]. destruct F2 as (? & _ & L2), F3 as (? & _ & L3), G2 as (? & _ & L4), G1 as (? & _ & L5).
        repeat split; apply filled_nil; assumption.
    - cbn [fst snd]. eexists. split; [reflexivity|]. unfold inv. cbn [steps chosen t t_start sto]. rewrite Lq. split; [lia|]. split; [lia|]. split; [exact Hs|]. split; [reflexivity|]. right. eexists.
      split; [lia|]. split; [reflexivity|]. cbn [states actions value_preds rewards masks]. rewrite <- Eo, <- Ea, <- Ev, <- Er, <- Em.
      split; [|repeat split; assumption]. destruct G3 as (junk & E4 & L4). exists (Some obs :: junk). split; [|exact L4]. rewrite E4, map_app, <- app_assoc. reflexivity.
  Qed.

  Theorem storage_refines : forall ops on s p, alternating on ops -> inv on s p ->
    snd (run (call n) s ops) = snd (run (ref_call n) p ops).
  Proof.
    induction ops as [|o ops IH]; intros on s p Ha Hi; [reflexivity|]. cbn [run].
    destruct o as [[] obs acts values|[] obs rs dones resets]; cbn [alternating] in Ha.
    - destruct Ha as [-> Ha]. destruct (inv_act s p obs acts values Hi) as (s' & -> & Hi'). cbn [ref_call]. specialize (IH true s' _ Ha Hi').
      destruct (run (call n) s' ops), (run (ref_call n) _ ops). cbn in *. now rewrite IH.
    - cbn [call ref_call]. specialize (IH on s p Ha Hi). destruct (run (call n) s ops), (run (ref_call n) p ops). cbn in *. now rewrite IH.
    - destruct Ha as (-> & HL & Ha). destruct (inv_observe s p obs rs dones resets Hi HL) as (s' & -> & Hi'). destruct (ref_call n p _) as [p' r] eqn:Er. cbn [fst snd] in *.
      specialize (IH false s' p' Ha Hi'). destruct (run (call n) s' ops), (run (ref_call n) p' ops). cbn in *. now rewrite IH.
    - cbn [call ref_call]. specialize (IH on s p Ha Hi). destruct (run (call n) s ops), (run (ref_call n) p ops). cbn in *. now rewrite IH.
  Qed.
  Lemma inv_init : inv false (@a2c_init Ob Act) ref_init.
  Proof. unfold inv. cbn. split; [lia|]. split; [reflexivity|]. split; [lia|]. split; [reflexivity|]. left. reflexivity. Qed.
End StorageProofs.
