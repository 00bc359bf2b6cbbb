(** Proofs about off-policy bookkeeping. *)
From Coq Require Import ZifyBool.
From Verif Require Import Base P_Base M_OffPolicy S_OffPolicy P_PrioritizedProps.

Section P.
  Context {O A R : Type}.
  Implicit Types (s : agent O A) (cs : list (call O A R)).

  Lemma observe_one_ok iv obs (rw : list R) dn rs s i s' e : observe_one iv obs rw dn rs s i = Ok (s', e) ->
    training s' = training s /\ t s' = S (t s) /\ exists evs, e = sync_at iv (S (t s)) ++ evs ++ [UpdateIfNecessary (S (t s))] /\ filter is_schedule evs = [].
  Proof.
    unfold observe_one. intros H. apply rbind_ok in H. destruct H as (sy & Hs & H). apply rbind_ok in H. destruct H as ([lo la] & Hl & H). apply rbind_ok in H. destruct H as (o & Ho & H).
    apply rbind_ok in H. destruct H as ([[lo' la'] evs] & He & H). injection H as <- <-. split; [reflexivity|]. split; [reflexivity|]. exists evs. split.
    - assert (E : sy = sync_at iv (S (t s))). { unfold sync_at. destruct iv as [[|n]|]; [discriminate Hs|injection Hs as <-; reflexivity|congruence]. } rewrite E. reflexivity.
    - destruct o as [o|]; [|injection He as <- <- <-; reflexivity]. do 6 (apply rbind_ok in He; destruct He as (? & _ & He)). destruct (_ || _); injection He as <- <- <-; reflexivity.
  Qed.

  Definition ticks (iv : option nat) (T n : nat) : list (event O A R) := flat_map (fun T => sync_at iv T ++ [UpdateIfNecessary T]) (seq (S T) n).
  Lemma filter_sync iv T : filter is_schedule (sync_at iv T) = (sync_at iv T : list (event O A R)).
  Proof. unfold sync_at. destruct iv as [n|]; [destruct (_ =? _)|]; reflexivity. Qed.
  Lemma observe_loop_ok iv obs (rw : list R) dn rs is : forall s s' e, observe_loop iv obs rw dn rs s is = Ok (s', e) ->
    training s' = training s /\ t s' = t s + length is /\ filter is_schedule e = ticks iv (t s) (length is).
  Proof.
    induction is as [|i is IH]; intros s s' e; cbn [observe_loop]; [intros H; injection H as <- <-; repeat split; cbn; lia|]. intros H.
    apply rbind_ok in H. destruct H as ([s1 e1] & H1 & H). apply rbind_ok in H. destruct H as ([s2 e2] & H2 & H). injection H as <- <-.
    destruct (observe_one_ok _ _ _ _ _ _ _ _ _ H1) as (A1 & A2 & evs & -> & A3). destruct (IH _ _ _ H2) as (B1 & B2 & B3). split; [congruence|]. split; [cbn [length]; lia|].
    rewrite !filter_app, A3, B3, filter_sync, A2. cbn [filter is_schedule app length]. unfold ticks. cbn [seq flat_map]. rewrite <- app_assoc. reflexivity.
  Qed.

  (** * Evaluation mode *)
  Definition final_mode (cs : list (call O A R)) (b : bool) : bool := fold_left (fun b c => match c with SetTraining b' => b' | _ => b end) cs b.
  Lemma eval_erase iv cs : forall s, calls iv s cs =
    match calls iv (set_training s true) (in_training (training s) cs) with
    | Ok (s', e) => Ok (set_training s' (final_mode cs (training s)), e)
    | Err x => Err x
    end.
  Proof.
    unfold final_mode. induction cs as [|c cs IH]; intros s; [destruct s; reflexivity|].
    destruct c as [obs acts|obs rw dn rs|b].
    - cbn [calls step in_training fold_left]. destruct s as [[] tm l]; cbn [training batch_act set_training t last calls step rbind].
      + rewrite IH. cbn [training set_training t last]. destruct (calls iv _ _) as [[s' e]|]; reflexivity.
      + rewrite IH. cbn [training set_training t last]. destruct (calls iv _ _) as [[s' e]|]; reflexivity.
    - cbn [calls step in_training fold_left]. unfold batch_observe at 1. destruct s as [[] tm l]; cbn [training].
      + cbn [calls step]. unfold batch_observe. change (set_training (mkA true tm l) true) with (mkA true tm l). cbn [training]. destruct (observe_loop iv obs rw dn rs (mkA true tm l) (seq 0 (length obs))) as [[s1 e1]|] eqn:E; [|reflexivity].
        cbn [rbind]. destruct (observe_loop_ok _ _ _ _ _ _ _ _ _ E) as (T1 & _). cbn in T1. rewrite IH, T1. assert (S1 : set_training s1 true = s1) by (destruct s1; cbn in *; subst; reflexivity). rewrite S1. destruct (calls iv s1 _) as [[s' e]|]; reflexivity.
      + cbn [rbind]. rewrite IH. cbn [training set_training t last]. destruct (calls iv _ _) as [[s' e]|]; reflexivity.
    - cbn [calls step rbind in_training fold_left]. rewrite IH. cbn [set_training training t last]. destruct (calls iv _ _) as [[s' e]|]; reflexivity.
  Qed.

  (** * Time *)
  Definition observed_envs (c : call O A R) : nat := match c with Observe obs _ _ _ => length obs | _ => 0 end.
  Definition env_steps (cs : list (call O A R)) : nat := list_sum (map observed_envs cs).
  Lemma in_training_same cs : forall m, in_training true (in_training m cs) = in_training m cs.
  Proof. induction cs as [|c cs IH]; intros m; [reflexivity|]. destruct c; cbn; [destruct m; cbn; rewrite IH; reflexivity|destruct m; cbn; rewrite IH; reflexivity|apply IH]. Qed.
  Lemma ticks_app iv T n m : ticks iv T (n + m) = ticks iv T n ++ ticks iv (T + n) m.
  Proof. unfold ticks. rewrite seq_app, flat_map_app. reflexivity. Qed.
  Lemma train_time iv cs : forall s s' e, training s = true -> in_training true cs = cs -> calls iv s cs = Ok (s', e) ->
    training s' = true /\ t s' = t s + env_steps cs /\ filter is_schedule e = ticks iv (t s) (env_steps cs).
  Proof.
    induction cs as [|c cs IH]; intros s s' e Ht Hc; cbn [calls]; [intros H; injection H as <- <-; cbn; repeat split; [exact Ht|lia]|].
    intros H. apply rbind_ok in H. destruct H as ([s1 e1] & H1 & H). apply rbind_ok in H. destruct H as ([s2 e2] & H2 & H). injection H as <- <-. unfold env_steps in *. cbn [map list_sum fold_right].
    destruct c as [obs acts|obs rw dn rs|b]; cbn [in_training] in Hc.
    - injection Hc as Hc. cbn [step] in H1. unfold batch_act in H1. rewrite Ht in H1. injection H1 as <- <-. apply (IH (mkA true (t s) (Some (map Some obs, map Some acts)))); [reflexivity|exact Hc|exact H2].
    - injection Hc as Hc. cbn [step] in H1. unfold batch_observe in H1. rewrite Ht in H1. destruct (observe_loop_ok _ _ _ _ _ _ _ _ _ H1) as (A1 & A2 & A3). rewrite seq_length in A2, A3.
      destruct (IH s1 s2 e2) as (B1 & B2 & B3); [congruence|exact Hc|exact H2|]. split; [exact B1|]. cbn [observed_envs]. split; [unfold list_sum in *; lia|]. rewrite filter_app, A3, B3, A2. symmetry. apply ticks_app.
    - exfalso. clear - Hc. assert (L : forall cs m, length (in_training m cs) <= length (cs : list (call O A R))). { clear. induction cs as [|c cs IH]; intros m; [cbn; lia|]. pose proof (IH true). pose proof (IH false). destruct c as [| |b']; [destruct m; cbn; lia|destruct m; cbn; lia|]. specialize (IH b'). cbn. lia. }
      specialize (L cs b). rewrite Hc in L. cbn in L. lia.
  Qed.
  Lemma all_time iv cs s s' e : calls iv s cs = Ok (s', e) ->
    t s' = t s + env_steps (in_training (training s) cs) /\ filter is_schedule e = ticks iv (t s) (env_steps (in_training (training s) cs)).
  Proof.
    intros H. rewrite eval_erase in H. destruct (calls iv (set_training s true) (in_training (training s) cs)) as [[s1 e1]|] eqn:E; [|discriminate H]. injection H as <- <-.
    destruct (train_time iv _ (set_training s true) s1 e1 eq_refl (in_training_same _ _) E) as (_ & A2 & A3). cbn [set_training t] in *. auto.
  Qed.

  (** * Rounds *)
  Lemma get_map {X Y} (f : X -> Y) pre x suf : get (map f (pre ++ x :: suf)) (length pre) = Ok (f x).
  Proof. unfold get. rewrite map_app, nth_error_app2 by (rewrite map_length; lia). rewrite map_length, Nat.sub_diag. reflexivity. Qed.
  Lemma get_app {X} (pre : list X) x suf n : length pre = n -> get (pre ++ x :: suf) n = Ok x.
  Proof. intros <-. unfold get. rewrite nth_error_app2, Nat.sub_diag by lia. reflexivity. Qed.
  Lemma list_set_app {X} (pre : list X) x y suf n : length pre = n -> list_set (pre ++ x :: suf) n y = pre ++ y :: suf.
  Proof. intros <-. induction pre as [|a pre IH]; cbn; [reflexivity|now rewrite IH]. Qed.
  Lemma loop_round iv (suf : list (env_step O A R)) : forall pre s lo la, iv <> Some 0 -> length lo = length pre -> length la = length pre ->
    last s = Some (lo ++ map (fun e => Some (obs_of e)) suf, la ++ map (fun e => Some (action_of e)) suf) ->
    let r := pre ++ suf in
    exists lo' la', observe_loop iv (map next_of r) (map reward_of r) (map done_of r) (map reset_of r) s (seq (length pre) (length suf)) =
      Ok (mkA (training s) (t s + length suf) (Some (lo', la')), round_events iv (t s) (length pre) suf).
  Proof.
    induction suf as [|x suf IH]; intros pre s lo la Hiv Llo Lla Hl; cbn zeta.
    - exists lo, la. cbn [length seq observe_loop round_events]. rewrite Nat.add_0_r. cbn in Hl. rewrite !app_nil_r in Hl. destruct s; cbn in *; subst; reflexivity.
    - set (lo1 := if reset_of x || done_of x then None else Some (obs_of x)). set (la1 := if reset_of x || done_of x then None else Some (action_of x)).
      cbn [length seq observe_loop]. cbn [map] in Hl.
      assert (E : observe_one iv (map next_of (pre ++ x :: suf)) (map reward_of (pre ++ x :: suf)) (map done_of (pre ++ x :: suf)) (map reset_of (pre ++ x :: suf)) s (length pre) =
        Ok (mkA (training s) (S (t s)) (Some (lo ++ lo1 :: map (fun e => Some (obs_of e)) suf, la ++ la1 :: map (fun e => Some (action_of e)) suf)), sync_at iv (S (t s)) ++ store (length pre) x ++ [UpdateIfNecessary (S (t s))])).
      { unfold observe_one. assert (SY : match iv with Some 0 => Err ZeroDivisionError | Some n => Ok (if S (t s) mod n =? 0 then [SyncTarget] else []) | None => Ok [] end = Ok (sync_at iv (S (t s)) : list (event O A R))) by (unfold sync_at; destruct iv as [[|n]|]; [congruence|reflexivity|reflexivity]).
        rewrite SY. cbn [rbind]. rewrite Hl. cbn [rbind]. rewrite (get_app lo) by exact Llo. cbn [rbind]. rewrite (get_app la) by exact Lla. cbn [rbind]. rewrite !get_map. cbn [rbind].
        unfold lo1, la1, store. rewrite (orb_comm (done_of x)). destruct (reset_of x || done_of x); cbn [rbind].
        - rewrite !list_set_app by assumption. reflexivity.
        - reflexivity. }
      rewrite E. cbn [rbind].
      destruct (IH (pre ++ [x]) (mkA (training s) (S (t s)) (Some (lo ++ lo1 :: map (fun e => Some (obs_of e)) suf, la ++ la1 :: map (fun e => Some (action_of e)) suf))) (lo ++ [lo1]) (la ++ [la1])) as (lo' & la' & E'); [exact Hiv|rewrite !app_length; cbn; lia|rewrite !app_length; cbn; lia|cbn [last]; now rewrite <- !app_assoc|].
      cbn zeta in E'. rewrite <- app_assoc in E'. cbn [app] in E'. rewrite app_length in E'. cbn [length training t] in E'. replace (length pre + 1) with (S (length pre)) in E' by lia. rewrite E'. cbn [rbind]. exists lo', la'. 
      cbn [round_events]. rewrite <- !app_assoc. replace (t s + S (length suf)) with (S (t s) + length suf) by lia. reflexivity.
  Qed.
  Lemma rounds_ok iv (rounds : list (list (env_step O A R))) : forall s, iv <> Some 0 -> training s = true ->
    exists s', calls iv s (flat_map round_calls rounds) = Ok (s', expected iv (t s) rounds) /\ training s' = true.
  Proof.
    induction rounds as [|r rounds IH]; intros s Hiv Ht; [exists s; auto|]. cbn [flat_map expected]. unfold round_calls at 1. cbn [app calls step]. unfold batch_act. rewrite Ht. cbn [rbind]. unfold batch_observe. cbn [training]. rewrite map_length.
    destruct (loop_round iv r [] (mkA true (t s) (Some (map Some (map obs_of r), map Some (map action_of r)))) [] [] Hiv eq_refl eq_refl) as (lo & la & E); [cbn [last app]; now rewrite !map_map|].
    cbn [app length] in E. cbn zeta in E. rewrite E. cbn [rbind training t]. destruct (IH (mkA true (t s + length r) (Some (lo, la))) Hiv eq_refl) as (s' & E' & T'). cbn [t] in E'. rewrite E'. cbn [rbind]. exists s'. auto.
  Qed.
  Lemma about_events iv i (r : list (env_step O A R)) : forall T k, filter (about i) (round_events iv T k r) = match nth_error r (i - k) with Some e => if k <=? i then store i e else [] | None => [] end.
  Proof.
    induction r as [|e r IH]; intros T k; [cbn; now destruct (i - k)|]. cbn [round_events]. rewrite !filter_app, IH.
    assert (E1 : filter (about i) (sync_at iv (S T)) = ([] : list (event O A R))) by (unfold sync_at; destruct iv as [n|]; [destruct (_ =? _)|]; reflexivity). rewrite E1. cbn [filter about app].
    destruct (Nat.eq_dec k i) as [->|N].
    - rewrite Nat.sub_diag. cbn [nth_error]. assert (Z : (S i <=? i) = false) by lia. rewrite Z. assert (Z' : (i <=? i) = true) by lia. rewrite Z'.
      destruct (nth_error r (i - S i)); rewrite app_nil_r; unfold store; cbn [filter about]; rewrite Nat.eqb_refl; destruct (_ || _); cbn [filter about]; rewrite ?Nat.eqb_refl; reflexivity.
    - assert (E2 : filter (about i) (store k e) = []). { unfold store. cbn [filter about]. destruct (Nat.eqb_spec k i); [lia|]. destruct (_ || _); cbn [filter about]; [destruct (Nat.eqb_spec k i); [lia|reflexivity]|reflexivity]. }
      rewrite E2. cbn [app]. destruct (Nat.leb_spec k i).
      + replace (i - k) with (S (i - S k)) by lia. cbn [nth_error]. assert (Z : (S k <=? i) = true) by lia. rewrite Z. reflexivity.
      + assert (Z : (S k <=? i) = false) by lia. rewrite Z. destruct (nth_error r (i - S k)), (nth_error (e :: r) (i - k)); reflexivity.
  Qed.
  Lemma about_expected iv i (rounds : list (list (env_step O A R))) : forall T, filter (about i) (expected iv T rounds) = flat_map (fun r => match nth_error r i with Some e => store i e | None => [] end) rounds.
  Proof. induction rounds as [|r rounds IH]; intros T; [reflexivity|]. cbn [expected flat_map]. rewrite filter_app, IH, about_events, Nat.sub_0_r. reflexivity. Qed.
End P.
