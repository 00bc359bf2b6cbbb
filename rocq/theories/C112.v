(** C112: Monitor records every episode once. *)
From Coq Require Import QArith.
From Verif Require Import Base M_Monitor.
Close Scope Q_scope. Open Scope nat_scope.

(** ** Specification *)
(** An episode: the rewards of its steps, and whether it ended by itself. *)
Definition episode := (list Q * bool)%type.
(** The calls of an episode: a reset, steps that do not end it, and, if it ended by itself, one that does. *)
Definition calls_of (e : episode) : list call :=
  Reset :: match fst e with [] => [] | r :: l => map (fun r => Step r false) (removelast (fst e)) ++ [Step (last (fst e) 0%Q) (snd e)] end.
(** Any sequence of episodes, each ended by itself or by the next reset. *)
Definition played (es : list episode) : list call := flat_map calls_of es.
Definition sum (l : list Q) : Q := fold_left Qplus l 0%Q.
Definition with_steps (es : list episode) : list episode := filter (fun e => match fst e with [] => false | _ => true end) es.

(** ** Proofs *)
Definition at_rest (s : recorder) : Prop := closed s = false /\ (save_completed s = false -> done s = Some false /\ exists n, steps s = Some (S n)) /\ (done s = Some false -> steps s <> None /\ (save_completed s = true -> steps s = Some 0)).
(** What is recorded once the episode in progress is counted too. *)
Definition all_lengths (s : recorder) : list nat := episode_lengths (save_complete s).
Definition all_rewards (s : recorder) : list Q := episode_rewards (save_complete s).
Lemma on_calls_app s a b : on_calls s (a ++ b) = (s <- on_calls s a ;; on_calls s b).
Proof. revert s. induction a as [|c a IH]; intros s; cbn; [reflexivity|]. destruct (on_call s c); [apply IH|reflexivity]. Qed.
Lemma middle_steps l : forall s n, steps s = Some n -> done s = Some false -> closed s = false -> l <> [] ->
  exists s', on_calls s (map (fun r => Step r false) l) = Ok s' /\ steps s' = Some (n + length l) /\ rewards s' = fold_left Qplus l (rewards s) /\ done s' = Some false /\ closed s' = false /\ save_completed s' = false /\ episode_lengths s' = episode_lengths s /\ episode_rewards s' = episode_rewards s.
Proof.
  induction l as [|r l IH]; intros s n N D C NE; [contradiction|]. cbn [map on_calls on_call]. unfold before_step. rewrite C, D, N. cbn [negb passert rbind]. unfold after_step. cbn [with_completed steps rewards closed save_completed episode_lengths episode_rewards]. rewrite N, C. cbn [rbind].
  set (s1 := mkRec _ _ _ _ _ _ _). destruct l as [|r' l]; [exists s1; cbn; rewrite Nat.add_1_r; repeat split; reflexivity|].
  destruct (IH s1 (S n) eq_refl eq_refl eq_refl ltac:(discriminate)) as (s' & E & H1 & H2 & H3). exists s'. split; [exact E|]. split; [rewrite H1; f_equal; cbn; lia|]. split; [exact H2|exact H3].
Qed.
Lemma episode_ok e s : at_rest s -> exists s', on_calls s (calls_of e) = Ok s' /\ at_rest s' /\
  all_lengths s' = all_lengths s ++ (match fst e with [] => [] | l => [length l] end) /\ all_rewards s' = all_rewards s ++ (match fst e with [] => [] | l => [sum l] end).
Proof.
  intros (C & S1 & S2). destruct e as [l d]. unfold calls_of. cbn [fst snd on_calls on_call].
  assert (R : exists s0, before_reset s = Ok s0 /\ closed s0 = false /\ done s0 = Some false /\ save_completed s0 = true /\ episode_lengths s0 = all_lengths s /\ episode_rewards s0 = all_rewards s).
  { unfold before_reset, all_lengths, all_rewards. rewrite C. cbn [negb passert rbind]. destruct (done s) as [[|]|] eqn:D.
    - assert (P : save_completed s = true). { destruct (save_completed s); [reflexivity|]. destruct S1 as [S1 _]; [reflexivity|discriminate]. } cbn [rbind]. unfold save_complete. rewrite P. eexists. split; [reflexivity|]. cbn. auto.
    - destruct S2 as [S2 S3]; [reflexivity|]. destruct (steps s) as [n|] eqn:N; [|contradiction]. destruct (save_completed s) eqn:P.
      + specialize (S3 eq_refl). injection S3 as ->. cbn [Nat.ltb Nat.leb rbind]. unfold save_complete. rewrite P. eexists. split; [reflexivity|]. cbn. auto.
      + destruct S1 as [_ [m M]]; [reflexivity|]. injection M as ->. cbn [Nat.ltb Nat.leb rbind]. unfold save_complete. rewrite P. eexists. split; [reflexivity|]. unfold gym_save_complete. rewrite N. cbn. auto.
    - assert (P : save_completed s = true). { destruct (save_completed s); [reflexivity|]. destruct S1 as [S1 _]; [reflexivity|discriminate]. } cbn [rbind]. unfold save_complete. rewrite P. eexists. split; [reflexivity|]. cbn. auto. }
  destruct R as (s0 & -> & R1 & R2 & R3 & R4 & R5). cbn [rbind]. set (s1 := after_reset s0). assert (A : steps s1 = Some 0 /\ rewards s1 = 0%Q /\ done s1 = Some false /\ closed s1 = false /\ save_completed s1 = true /\ episode_lengths s1 = all_lengths s /\ episode_rewards s1 = all_rewards s) by (cbn; repeat split; assumption).
  clearbody s1. clear s0 R1 R2 R3 R4 R5. destruct A as (A1 & A2 & A3 & A4 & A5 & A6 & A7). destruct l as [|r l].
  - cbn [on_calls]. exists s1. split; [reflexivity|]. unfold at_rest, all_lengths at 1, all_rewards at 1, save_complete. rewrite A5, A6, A7, !app_nil_r. split; [|split; reflexivity]. split; [exact A4|]. split; [discriminate|]. intros _. rewrite A1. split; [discriminate|reflexivity].
  - set (w := r :: l). assert (W : w = removelast w ++ [last w 0%Q]) by (apply app_removelast_last; discriminate). rewrite on_calls_app.
    assert (M : exists s2, on_calls s1 (map (fun r => Step r false) (removelast w)) = Ok s2 /\ steps s2 = Some (length (removelast w)) /\ rewards s2 = fold_left Qplus (removelast w) 0%Q /\ done s2 = Some false /\ closed s2 = false /\ episode_lengths s2 = all_lengths s /\ episode_rewards s2 = all_rewards s).
    { destruct (removelast w) as [|x m] eqn:E; [exists s1; repeat split; assumption|]. rewrite <- E. destruct (middle_steps (removelast w) s1 0 A1 A3 A4) as (s2 & H1 & H2 & H3 & H4 & H5 & _ & H6 & H7); [rewrite E; discriminate|]. rewrite A2 in H3. exists s2. repeat split; try assumption; congruence. }
    destruct M as (s2 & -> & M1 & M2 & M3 & M4 & M5 & M6). cbn [rbind on_calls on_call]. unfold before_step. rewrite M4, M3, M1. cbn [negb passert rbind]. unfold after_step. cbn [with_completed steps rewards closed save_completed episode_lengths episode_rewards]. rewrite M1. cbn [rbind].
    assert (LW : length w = S (length (removelast w))) by (rewrite W at 1; rewrite app_length; cbn; lia). assert (SW : sum w = (fold_left Qplus (removelast w) 0 + last w 0)%Q) by (unfold sum; rewrite W at 1; now rewrite fold_left_app).
    change (match w with [] => [] | _ => [length w] end) with [length w]. change (match w with [] => [] | _ => [sum w] end) with [sum w]. rewrite LW, SW, M2. clear LW SW W. eexists. split; [reflexivity|]. destruct d; unfold save_complete, gym_save_complete; cbn [steps rewards closed save_completed episode_lengths episode_rewards with_completed done].
    + unfold at_rest, all_lengths at 1, all_rewards at 1, save_complete. cbn [steps rewards closed save_completed episode_lengths episode_rewards with_completed done]. rewrite M5, M6. split; [split; [exact M4|]; split; discriminate|split; reflexivity].
    + unfold at_rest, all_lengths at 1, all_rewards at 1, save_complete, gym_save_complete. cbn [steps rewards closed save_completed episode_lengths episode_rewards with_completed done]. rewrite M5, M6. split; [split; [exact M4|]; split; [intros _; split; [reflexivity|eauto]|intros _; split; [discriminate|discriminate]]|split; reflexivity].
Qed.
Lemma played_ok es : forall s, at_rest s -> exists s', on_calls s (played es) = Ok s' /\ at_rest s' /\
  all_lengths s' = all_lengths s ++ map (fun e => length (fst e)) (with_steps es) /\ all_rewards s' = all_rewards s ++ map (fun e => sum (fst e)) (with_steps es).
Proof.
  induction es as [|e es IH]; intros s R; [exists s; cbn; rewrite !app_nil_r; auto|]. cbn [played flat_map]. rewrite on_calls_app. destruct (episode_ok e s R) as (s1 & -> & R1 & L1 & Q1). cbn [rbind]. destruct (IH s1 R1) as (s2 & E & R2 & L2 & Q2). exists s2. split; [exact E|]. split; [exact R2|].
  rewrite L2, L1, Q2, Q1, <- !app_assoc. unfold with_steps. cbn [filter]. destruct e as [[|r l] d]; split; reflexivity.
Qed.

(** Whatever episodes are played, with resets in the middle or not, after closing the lengths and returns of exactly the episodes with at least one step are recorded, once each and in order. *)
Theorem C112_recorded es : exists s, on_calls initial (played es) = Ok s /\
  episode_lengths (close s) = map (fun e => length (fst e)) (with_steps es) /\ episode_rewards (close s) = map (fun e => sum (fst e)) (with_steps es) /\ closed (close s) = true.
Proof.
  destruct (played_ok es initial) as (s & E & _ & L & R); [split; [reflexivity|]; split; discriminate|]. exists s. split; [exact E|]. split; [exact L|]. split; [exact R|reflexivity].
Qed.
(** Before closing, all of them but the one in progress. *)
Theorem C112_before_closing es l : exists s, on_calls initial (played (es ++ [(l, false)])) = Ok s /\
  episode_lengths s = map (fun e => length (fst e)) (with_steps es) /\ episode_rewards s = map (fun e => sum (fst e)) (with_steps es).
Proof.
  destruct (played_ok es initial) as (s & E & R & L & Q); [split; [reflexivity|]; split; discriminate|]. unfold played. rewrite flat_map_app, on_calls_app. change (flat_map calls_of es) with (played es). rewrite E. cbn [rbind flat_map]. rewrite app_nil_r.
  destruct (episode_ok (l, false) s R) as (s' & E' & R' & L' & Q'). exists s'. split; [exact E'|]. rewrite L in L'. rewrite Q in Q'. cbn [fst] in *. destruct R' as (_ & P1 & P2). unfold all_lengths, all_rewards, save_complete in *. cbn [initial episode_lengths episode_rewards save_completed] in *.
  destruct l as [|r l].
  - rewrite app_nil_r in L', Q'. assert (P : save_completed s' = true). { cbn [calls_of fst on_calls on_call] in E'. destruct (before_reset s) as [s0|] eqn:B; [|discriminate]. cbn in E'. injection E' as <-. cbn. unfold before_reset in B. destruct (passert _); [|discriminate]. cbn [rbind] in B. destruct R as (_ & S1 & S2).
      destruct (done s) as [[|]|] eqn:D; [| |]; cbn [rbind] in B.
      - injection B as <-. cbn. destruct (save_completed s); [reflexivity|]. destruct S1 as [S1 _]; [reflexivity|discriminate].
      - destruct (steps s) as [n|]; [|discriminate]. cbn [rbind] in B. injection B as <-. destruct (save_completed s) eqn:P; [destruct (0 <? n); unfold save_complete; cbn; rewrite ?P; cbn; (reflexivity || exact P)|]. destruct S1 as [_ [m M]]; [reflexivity|]. injection M as ->. cbn [Nat.ltb Nat.leb]. unfold save_complete. rewrite P. reflexivity.
      - injection B as <-. cbn. destruct (save_completed s); [reflexivity|]. destruct S1 as [S1 _]; [reflexivity|discriminate]. }
    rewrite P in L', Q'. now split.
  - assert (P : save_completed s' = false).
    { unfold calls_of in E'. cbn [fst snd] in E'. rewrite app_comm_cons, on_calls_app in E'. destruct (on_calls s _) as [s0|]; [|discriminate]. cbn [rbind on_calls on_call] in E'. destruct (before_step s0) as [s1|]; [|discriminate]. cbn [rbind] in E'. unfold after_step in E'. cbn [with_completed steps] in E'. destruct (steps s1); [|discriminate]. cbn in E'. injection E' as <-. reflexivity. }
    rewrite P in L', Q'. destruct P1 as [_ [n N]]; [exact P|]. unfold gym_save_complete in L', Q'. rewrite N in L', Q'. cbn in L', Q'. apply app_inj_tail in L', Q'. now destruct L' as [-> _], Q' as [-> _].
Qed.
(** A step of an episode that is over, or before the first reset, is refused. *)
Theorem C112_refused es l r r' d : on_calls initial (played (es ++ [(r :: l, true)]) ++ [Step r' d]) = Err RuntimeError /\ on_calls initial [Step r' d] = Err RuntimeError.
Proof.
  split; [|reflexivity]. unfold played. rewrite flat_map_app, <- app_assoc, on_calls_app. change (flat_map calls_of es) with (played es). destruct (played_ok es initial) as (s & E & R & _ & _); [split; [reflexivity|]; split; discriminate|]. rewrite E. cbn [rbind flat_map]. rewrite app_nil_r.
  destruct (episode_ok (r :: l, true) s R) as (s' & E' & (C & _ & _) & _ & _). rewrite on_calls_app, E'. cbn [rbind on_calls on_call]. unfold before_step. rewrite C. cbn [negb passert rbind].
  assert (D : done s' = Some true).
  { unfold calls_of in E'. cbn [fst snd] in E'. rewrite app_comm_cons, on_calls_app in E'. destruct (on_calls s _) as [s0|]; [|discriminate]. cbn [rbind on_calls on_call] in E'. destruct (before_step s0) as [s1|]; [|discriminate]. cbn [rbind] in E'. unfold after_step in E'. cbn [with_completed steps] in E'. destruct (steps s1); [|discriminate]. cbn in E'. injection E' as <-. reflexivity. }
  rewrite D. reflexivity.
Qed.

(** Four episodes: two steps to the end, one step cut off by a reset, a reset without a step, one step in progress when closed. *)
Example C112_ex : exists s, on_calls initial [Reset; Step 1 false; Step 2 true; Reset; Step 5 false; Reset; Reset; Step 7 false] = Ok s /\ episode_lengths s = [2; 1] /\ episode_lengths (close s) = [2; 1; 1] /\
  Forall2 Qeq (episode_rewards (close s)) [3; 5; 7]%Q.
Proof. eexists. split; [vm_compute; reflexivity|]. split; [reflexivity|]. split; [reflexivity|]. repeat constructor. Qed.
Example C112_ex_played : played [([1; 2]%Q, true); ([5%Q], false); ([], false); ([7%Q], false)] = [Reset; Step 1 false; Step 2 true; Reset; Step 5 false; Reset; Reset; Step 7 false].
Proof. reflexivity. Qed.

Print Assumptions C112_recorded.
Print Assumptions C112_before_closing.
Print Assumptions C112_refused.
