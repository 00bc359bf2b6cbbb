(** Proofs about REINFORCE. *)
From Coq Require Import QArith Lqa.
From Verif Require Import Base P_Base P_A2C M_Reinforce S_Reinforce.
Open Scope nat_scope.

Lemma cumsum_len a l : length (cumsum a l) = length l.
Proof. revert a; induction l as [|x l IH]; intros a; [reflexivity|]. cbn. now rewrite IH. Qed.
Lemma cumsum_snoc l : forall a x, cumsum a (l ++ [x]) = cumsum a l ++ [fold_left Qplus (l ++ [x]) a].
Proof. induction l as [|y l IH]; intros a x; [reflexivity|]. cbn. now rewrite IH. Qed.
Lemma fold_left_sum l : forall a, (fold_left Qplus l a == a + sum l)%Q.
Proof. induction l as [|y l IH]; intros a; [cbn; ring|]. cbn [fold_left]. rewrite IH. change (sum (y :: l)) with (y + sum l)%Q. ring. Qed.
Lemma sum_app l m : (sum (l ++ m) == sum l + sum m)%Q.
Proof. induction l as [|y l IH]; [cbn [app]; change (sum []) with 0%Q; ring|]. cbn [app]. change (sum (y :: l ++ m)) with (y + sum (l ++ m))%Q. change (sum (y :: l)) with (y + sum l)%Q. rewrite IH. ring. Qed.
Lemma sum_rev l : (sum (rev l) == sum l)%Q.
Proof. induction l as [|y l IH]; [reflexivity|]. cbn [rev]. rewrite sum_app, IH. change (sum [y]) with (y + 0)%Q. change (sum (y :: l)) with (y + sum l)%Q. ring. Qed.

(* suffix sums *)
Lemma suffix_sums l : forall t c, nth_error (rev (cumsum 0 (rev l))) t = Some c -> (c == sum (skipn t l))%Q.
Proof.
  induction l as [|x l IH]; intros t c H; [destruct t; discriminate|]. cbn [rev] in H. rewrite cumsum_snoc, rev_app_distr in H. cbn [rev app] in H. destruct t.
  - injection H as <-. rewrite fold_left_sum, sum_app, sum_rev. cbn [skipn]. change (sum [x]) with (x + 0)%Q. change (sum (x :: l)) with (x + sum l)%Q. ring.
  - cbn [nth_error] in H. cbn [skipn]. apply IH. exact H.
Qed.

Section Proofs.
  Context {K : Type}.
  Notation ep := (list (K * Q)).

  (* rewards list of a finished episode as the code stores it *)
  Definition stored (e : ep) : list Q := map snd e ++ [last (map snd e) 0%Q].
  Definition eterms (e : ep) : list (Q * K) := combine (R_seq (stored e)) (map fst e).

  Lemma R_seq_len e : 1 <= length e -> length (R_seq (stored e)) = length e.
  Proof. intros H. unfold R_seq, stored. rewrite rev_length, cumsum_len, rev_length. destruct e; [cbn in H; lia|]. cbn. rewrite app_length, map_length. cbn. lia. Qed.
  Lemma eterms_ok e : 1 <= length e -> terms_of shifted_return e (eterms e).
  Proof.
    intros H. unfold eterms. split.
    - pose proof (R_seq_len e H) as L. revert L. generalize (R_seq (stored e)). intros R L. clear H. revert R L. induction e as [|[k q] e IH]; intros [|r R] L; try discriminate; [reflexivity|]. cbn in *. f_equal. apply IH. lia.
    - intros t c k Hn. assert (Hr : nth_error (R_seq (stored e)) t = Some c).
      { clear - Hn. revert Hn. generalize (R_seq (stored e)), (map fst e). intros l. revert t. induction l as [|a l IH]; intros t m Hn; [destruct t; discriminate|]. destruct m as [|b m]; [destruct t; discriminate|]. destruct t; cbn in *; [congruence|eauto]. }
      unfold R_seq in Hr. apply suffix_sums in Hr. rewrite Hr. unfold shifted_return, stored.
      assert (Hs : skipn t (tl (map snd e ++ [last (map snd e) 0%Q])) = skipn (S t) (map snd e) ++ [last (map snd e) 0%Q]).
      { assert (Lt : t < length e). { assert (t < length (combine (R_seq (stored e)) (map fst e))) as Hn2 by (apply nth_error_Some; congruence). clear Hn. rename Hn2 into Hn. rewrite combine_length, R_seq_len, map_length in Hn by exact H. lia. }
        destruct e as [|[k0 q0] e]; [cbn in Lt; lia|]. cbn [map tl skipn snd]. rewrite <- app_comm_cons. cbn [tl]. rewrite skipn_app, map_length. replace (t - length e) with 0 by (cbn in Lt; lia). reflexivity. }
      rewrite Hs, sum_app. set (x := last (map snd e) 0%Q). change (sum [x]) with (x + 0)%Q. ring.
  Qed.

  Lemma losses_ok (eps : list ep) : Forall (fun e => 1 <= length e) eps -> losses (map stored eps) (map (map fst) eps) = Ok (concat (map eterms eps)).
  Proof.
    induction 1 as [|e eps H F IH]; [reflexivity|]. cbn [map losses]. unfold stored at 1 2. rewrite app_length, !map_length. cbn [length].
    destruct (Nat.eqb_spec (length e + 1 - 1) (length e)) as [_|]; [|lia]. destruct (Nat.leb_spec 1 (length e + 1)) as [_|]; [|lia]. cbn [andb passert rbind]. rewrite IH. reflexivity.
  Qed.

  Lemma append_last_snoc {A} (ls : list (list A)) l x : append_last (ls ++ [l]) x = Ok (ls ++ [l ++ [x]]).
  Proof. unfold append_last. rewrite py_pop_app. reflexivity. Qed.
  Lemma set_last_snoc {A} (ls : list A) l x : set_last (ls ++ [l]) x = Ok (ls ++ [x]).
  Proof. unfold set_last. rewrite py_pop_app. reflexivity. Qed.

  Variable B : nat.
  Variable sep : bool.
  Hypothesis HB : 1 <= B.

  Definition acted_list (p : ref K) : list K := match acting p with Some k => [k] | None => [] end.
  (* [acc]: gradient accumulated so far *)
  Definition inv (on : bool) (s : reinforce K) (p : ref K) (acc : list (Q * K)) : Prop :=
    (on = true <-> acting p <> None) /\ Forall (fun e => 1 <= length e) (finished p) /\ length (finished p) < B /\
    if sep then reward_sequences s = [map snd (current p)] /\ log_prob_sequences s = [map fst (current p) ++ acted_list p] /\ n_backward s = length (finished p) /\
                (finished p <> [] -> acc = concat (map eterms (finished p)))
    else reward_sequences s = map stored (finished p) ++ [map snd (current p)] /\ log_prob_sequences s = map (map fst) (finished p) ++ [map fst (current p) ++ acted_list p] /\ n_backward s = 0.

  Lemma last_snoc {A} (l : list A) x d : last (l ++ [x]) d = x.
  Proof. apply last_last. Qed.

  (* final accumulated gradient *)
  Fixpoint acc_after (acc : list (Q * K)) (evs : list (event K)) : list (Q * K) :=
    match evs with [] => acc | ZeroGrad :: t => acc_after [] t | Backward ts :: t => acc_after (acc ++ ts) t | OptStep :: t => acc_after acc t end.
  Lemma applied_app e1 : forall acc e2, applied acc (e1 ++ e2) = applied acc e1 ++ applied (acc_after acc e1) e2.
  Proof. induction e1 as [|[|ts|] e1 IH]; intros acc e2; cbn; [reflexivity|apply IH|apply IH|now rewrite IH]. Qed.

  Lemma step_act s p acc k : inv false s p acc -> exists s', call B sep s (Act true k) = (s', Ok []) /\ inv true s' {| acting := Some k; current := current p; finished := finished p |} acc.
  Proof.
    intros (H1 & H2 & H3 & H). assert (Ea : acting p = None) by (destruct (acting p); [destruct H1 as [_ H1]; assert (X : false = true) by (apply H1; discriminate); discriminate X|reflexivity]).
    cbn [call]. unfold act_train. unfold acted_list in H. rewrite Ea in H. unfold inv, acted_list. cbn [acting current finished]. destruct sep.
    - destruct H as (R1 & R2 & R3 & R4). rewrite R2. change ([map fst (current p) ++ []]) with ([] ++ [map fst (current p) ++ []]). rewrite append_last_snoc, app_nil_r. cbn [rbind]. eexists. split; [reflexivity|].
      split; [split; intros; [discriminate|reflexivity]|]. split; [exact H2|]. split; [exact H3|]. cbn. repeat split; assumption.
    - destruct H as (R1 & R2 & R3). rewrite R2, append_last_snoc, app_nil_r. cbn [rbind]. eexists. split; [reflexivity|].
      split; [split; intros; [discriminate|reflexivity]|]. split; [exact H2|]. split; [exact H3|]. cbn. repeat split; assumption.
  Qed.

  Definition updates_ok (ups : list (list ep)) (app : list (list (Q * K))) : Prop := app = map (fun eps => concat (map eterms eps)) ups /\ Forall (Forall (fun e => 1 <= length e)) ups.

  Lemma step_observe s p acc r d z : inv true s p acc ->
    exists s' ev, call B sep s (Observe true r d z) = (s', Ok ev) /\ updates_ok (snd (ref_call B p (Observe true r d z))) (applied acc ev) /\
      inv false s' (fst (ref_call B p (Observe true r d z))) (acc_after acc ev).
  Proof.
    intros (H1 & H2 & H3 & H). assert (Ea : exists k, acting p = Some k) by (destruct (acting p); [eauto|destruct H1 as [H1 _]; specialize (H1 eq_refl); congruence]). destruct Ea as [k Ea].
    cbn [call ref_call]. rewrite Ea. cbn zeta. unfold acted_list in H. rewrite Ea in H.
    set (e := current p ++ [(k, r)]). assert (Le : 1 <= length e) by (unfold e; rewrite app_length; cbn; lia).
    assert (Er : map snd (current p) ++ [r] = map snd e) by (unfold e; rewrite map_app; reflexivity).
    assert (Ek : map fst (current p) ++ [k] = map fst e) by (unfold e; rewrite map_app; reflexivity).
    assert (Est : map snd e ++ [r] = stored e) by (unfold stored; rewrite <- Er, last_last; reflexivity).
    unfold observe_train. destruct sep eqn:Esep.
    - destruct H as (R1 & R2 & R3 & R4). rewrite Ek in R2. rewrite R1. change [map snd (current p)] with ([] ++ [map snd (current p)]). rewrite append_last_snoc, Er. cbn [app rbind]. destruct d.
      + cbn [orb negb]. cbn [reward_sequences log_prob_sequences n_backward step_count]. change [map snd e] with ([] ++ [map snd e]). rewrite append_last_snoc, Est. cbn [app rbind]. unfold accumulate_grad. cbn [reward_sequences log_prob_sequences n_backward step_count].
        rewrite R2. pose proof (losses_ok [e] ltac:(constructor; [exact Le|constructor])) as LS. cbn [map concat] in LS. rewrite app_nil_r in LS. rewrite LS. cbn [rbind n_backward].
        set (ev0 := (if n_backward s =? 0 then [ZeroGrad] else []) ++ [Backward (eterms e)]).
        assert (A0 : applied acc ev0 = [] /\ acc_after acc ev0 = concat (map eterms (finished p ++ [e]))).
        { unfold ev0. rewrite R3. destruct (finished p) as [|f fs] eqn:Ef.
          - cbn. rewrite app_nil_r. split; reflexivity.
          - rewrite (R4 ltac:(discriminate)). rewrite (map_app eterms (f :: fs) [e]), concat_app. cbn [length Nat.eqb app applied acc_after]. split; [reflexivity|]. cbn [map concat]. now rewrite app_nil_r. }
        destruct A0 as [A1 A2]. rewrite R3. rewrite app_length. cbn [length]. rewrite Nat.add_1_r. destruct (Nat.eqb_spec (S (length (finished p))) B) as [EB|EB].
        * unfold update_with_accumulated_grad. cbn [n_backward]. destruct (Nat.eqb_spec (S (length (finished p))) B) as [_|]; [|lia]. cbn [passert rbind]. eexists _, _. split; [reflexivity|]. cbn [fst snd].
          split.
          -- rewrite applied_app, A1, A2. cbn [applied app]. split; [reflexivity|]. constructor; [apply Forall_app; split; [exact H2|constructor; [exact Le|constructor]]|constructor].
          -- unfold inv. cbn [acting current finished]. rewrite Esep. split; [split; intros; congruence|]. split; [constructor|]. split; [cbn; lia|]. cbn. repeat split; congruence.
        * eexists _, _. split; [reflexivity|]. cbn [fst snd]. split; [rewrite A1; split; [reflexivity|constructor]|]. unfold inv. cbn [acting current finished]. rewrite Esep.
          split; [split; intros; congruence|]. split; [apply Forall_app; split; [exact H2|constructor; [exact Le|constructor]]|]. split; [rewrite app_length; cbn; lia|]. cbn. rewrite app_length. cbn. split; [reflexivity|]. split; [reflexivity|]. split; [lia|]. intros _. exact A2.
      + cbn [orb negb]. destruct z.
        * cbn [reward_sequences log_prob_sequences n_backward step_count]. rewrite R2. change [map snd e] with ([] ++ [map snd e]). change [map fst e] with ([] ++ [map fst e]). rewrite !set_last_snoc. cbn [app rbind]. eexists _, _. split; [reflexivity|]. cbn [fst snd].
          split; [split; [reflexivity|constructor]|]. unfold inv. cbn [acting current finished acc_after]. rewrite Esep. split; [split; intros; congruence|]. split; [exact H2|]. split; [exact H3|]. cbn. repeat split; assumption.
        * eexists _, _. split; [reflexivity|]. cbn [fst snd]. split; [split; [reflexivity|constructor]|]. unfold inv. cbn [acting current finished acc_after]. rewrite Esep. split; [split; intros; congruence|]. split; [exact H2|]. split; [exact H3|].
          unfold acted_list. cbn [reward_sequences log_prob_sequences n_backward acting current]. rewrite app_nil_r. repeat split; assumption.
    - destruct H as (R1 & R2 & R3). rewrite Ek in R2. rewrite R1, append_last_snoc, Er. cbn [rbind]. destruct d.
      + cbn [orb negb]. cbn [reward_sequences log_prob_sequences n_backward step_count]. rewrite append_last_snoc, Est. cbn [rbind reward_sequences log_prob_sequences n_backward step_count].
        assert (Ef : map stored (finished p) ++ [stored e] = map stored (finished p ++ [e])) by (rewrite map_app; reflexivity).
        assert (Ef2 : map (map fst) (finished p) ++ [map fst e] = map (map fst) (finished p ++ [e])) by (rewrite map_app; reflexivity). rewrite R2, Ef, Ef2. rewrite map_length.
        destruct (Nat.eqb_spec (length (finished p ++ [e])) B) as [EB|EB].
        * unfold batch_update. cbn [reward_sequences log_prob_sequences n_backward step_count]. rewrite !map_length, EB, Nat.eqb_refl, R3. cbn [passert rbind Nat.eqb]. unfold accumulate_grad. cbn [reward_sequences log_prob_sequences n_backward step_count].
          rewrite losses_ok by (apply Forall_app; split; [exact H2|constructor; [exact Le|constructor]]). cbn [rbind]. eexists _, _. split; [reflexivity|]. cbn [fst snd]. split.
          -- cbn. split; [reflexivity|]. constructor; [apply Forall_app; split; [exact H2|constructor; [exact Le|constructor]]|constructor].
          -- unfold inv. cbn [acting current finished]. rewrite Esep. split; [split; intros; congruence|]. split; [constructor|]. split; [cbn; lia|]. cbn. repeat split; reflexivity.
        * eexists _, _. split; [reflexivity|]. cbn [fst snd]. split; [split; [reflexivity|constructor]|]. unfold inv. cbn [acting current finished acc_after]. rewrite Esep. split; [split; intros; congruence|].
          split; [apply Forall_app; split; [exact H2|constructor; [exact Le|constructor]]|]. split; [rewrite app_length in *; cbn in *; lia|]. cbn. repeat split; assumption.
      + cbn [orb negb]. destruct z.
        * cbn [reward_sequences log_prob_sequences n_backward step_count]. rewrite R2. rewrite !set_last_snoc. cbn [rbind]. eexists _, _. split; [reflexivity|]. cbn [fst snd].
          split; [split; [reflexivity|constructor]|]. unfold inv. cbn [acting current finished acc_after]. rewrite Esep. split; [split; intros; congruence|]. split; [exact H2|]. split; [exact H3|]. cbn. repeat split; assumption.
        * eexists _, _. split; [reflexivity|]. cbn [fst snd]. split; [split; [reflexivity|constructor]|]. unfold inv. cbn [acting current finished acc_after]. rewrite Esep. split; [split; intros; congruence|]. split; [exact H2|]. split; [exact H3|].
          unfold acted_list. cbn [reward_sequences log_prob_sequences n_backward acting current]. rewrite app_nil_r. repeat split; assumption.
  Qed.

  Lemma updates_app u1 u2 a1 a2 : updates_ok u1 a1 -> updates_ok u2 a2 -> updates_ok (u1 ++ u2) (a1 ++ a2).
  Proof. intros [-> F1] [-> F2]. split; [now rewrite map_app|apply Forall_app; split; assumption]. Qed.

  Theorem run_ok : forall ops on s p acc, alternating on ops -> inv on s p acc ->
    let rs := snd (run (call B sep) s ops) in
    Forall (fun r => is_ok r = true) rs /\ updates_ok (concat (snd (run (ref_call B) p ops))) (applied acc (events_of rs)).
  Proof.
    induction ops as [|o ops IH]; intros on s p acc Ha Hi; cbn zeta; [cbn; split; [constructor|split; [reflexivity|constructor]]|]. cbn [run].
    destruct o as [[] k|[] r d z]; cbn [alternating] in Ha.
    - destruct Ha as [-> Ha]. destruct (step_act s p acc k Hi) as (s' & -> & Hi'). specialize (IH true s' _ acc Ha Hi'). cbn [ref_call]. cbn zeta in IH.
      destruct (run (call B sep) s' ops), (run (ref_call B) _ ops). cbn in *. destruct IH as [I1 I2]. split; [constructor; [reflexivity|exact I1]|exact I2].
    - cbn [call ref_call]. specialize (IH on s p acc Ha Hi). cbn zeta in IH. destruct (run (call B sep) s ops), (run (ref_call B) p ops). cbn in *. destruct IH as [I1 I2]. split; [constructor; [reflexivity|exact I1]|exact I2].
    - destruct Ha as [-> Ha]. destruct (step_observe s p acc r d z Hi) as (s' & ev & -> & U & Hi'). destruct (ref_call B p (Observe true r d z)) as [p' u]. cbn [fst snd] in *.
      specialize (IH false s' p' _ Ha Hi'). cbn zeta in IH. destruct (run (call B sep) s' ops) as [s2 rs2], (run (ref_call B) p' ops) as [p2 us2]. cbn [snd] in *. destruct IH as [I1 I2]. split; [constructor; [reflexivity|exact I1]|].
      unfold events_of. cbn [map concat]. rewrite applied_app. apply updates_app; assumption.
    - cbn [call ref_call]. specialize (IH on s p acc Ha Hi). cbn zeta in IH. destruct (run (call B sep) s ops), (run (ref_call B) p ops). cbn in *. destruct IH as [I1 I2]. split; [constructor; [reflexivity|exact I1]|exact I2].
  Qed.
  Lemma inv_init : inv false reinforce_init ref_init [].
  Proof. unfold inv. cbn. split; [split; intros; congruence|]. split; [constructor|]. split; [lia|]. destruct sep; cbn; repeat split; congruence. Qed.

  Lemma updates_spec ups app : updates_ok ups app -> Forall2 (update_of shifted_return) ups app.
  Proof.
    intros [-> F]. induction F as [|u ups H F IH]; [constructor|]. cbn [map]. constructor; [|exact IH]. exists (map eterms u). split; [reflexivity|]. clear - H. induction H; [constructor|]. cbn. constructor; [apply eterms_ok; assumption|assumption].
  Qed.
End Proofs.
