(** C40: training bookkeeping of DQN, DDPG (interval = Some target_update_interval), TD3 and SAC (interval = None). *)
From Verif Require Import Base P_Base M_OffPolicy S_OffPolicy P_PrioritizedProps P_OffPolicy.

(** Any calls that do not raise: the step counter grows by one per environment observed in training mode; at each of these steps the
    target network is synchronised first if the new count is a multiple of the interval, and the updater is called with the new count. *)
Theorem C40_schedule {O A R} interval (s s' : agent O A) (cs : list (call O A R)) events : calls interval s cs = Ok (s', events) ->
  let n := list_sum (map (fun c => match c with Observe obs _ _ _ => length obs | _ => 0 end) (in_training (training s) cs)) in
  t s' = t s + n /\
  filter is_schedule events = flat_map (fun T => match interval with Some k => if T mod k =? 0 then [SyncTarget] else [] | None => [] end ++ [UpdateIfNecessary T]) (seq (S (t s)) n).
Proof. exact (all_time interval cs s s' events). Qed.

(** Calls made in evaluation mode have no effect: leaving them out gives the same outcome (up to the mode). *)
Theorem C40_evaluation {O A R} interval (s : agent O A) (cs : list (call O A R)) :
  rmap (fun r => (t (fst r), last (fst r), snd r)) (calls interval s cs) =
  rmap (fun r => (t (fst r), last (fst r), snd r)) (calls interval (set_training s true) (in_training (training s) cs)).
Proof. rewrite eval_erase. destruct (calls interval (set_training s true) (in_training (training s) cs)) as [[s' e]|x]; reflexivity. Qed.

(** Rounds of act and observe, with evaluation anywhere in between: nothing is raised, and for every environment in turn: synchronise if
    due, store the transition of this round, end the episode if done or reset, call the updater. *)
Theorem C40_training {O A R} interval (s : agent O A) (cs : list (call O A R)) rounds : interval <> Some 0 -> in_training (training s) cs = flat_map round_calls rounds ->
  exists s', calls interval s cs = Ok (s', expected interval (t s) rounds) /\ t s' = t s + list_sum (map (@length _) rounds).
Proof.
  intros Hi E. rewrite eval_erase, E. destruct (rounds_ok interval rounds (set_training s true) Hi eq_refl) as (s' & Es & _). rewrite Es. eexists. split; [reflexivity|].
  destruct (all_time _ _ _ _ _ Es) as [Ht _]. cbn [set_training t training] in *. rewrite Ht. f_equal. unfold env_steps. clear. induction rounds as [|r rounds IH]; [reflexivity|]. cbn. rewrite map_length. unfold list_sum in IH. rewrite <- IH. reflexivity.
Qed.

(** Per environment: exactly one transition per round, with the observation and action of that round, in order, followed by the end of
    the episode exactly when the round was done or reset. *)
Theorem C40_per_env {O A R} interval (s : agent O A) (cs : list (call O A R)) rounds i : interval <> Some 0 -> in_training (training s) cs = flat_map round_calls rounds ->
  exists s' events, calls interval s cs = Ok (s', events) /\
    filter (about i) events = flat_map (fun r => match nth_error r i with
      | Some e => Append i (mkT (obs_of e) (action_of e) (reward_of e) (next_of e) (done_of e)) :: (if done_of e || reset_of e then [StopEpisode i] else [])
      | None => [] end) rounds.
Proof. intros Hi E. destruct (C40_training interval s cs rounds Hi E) as (s' & Es & _). exists s', (expected interval (t s) rounds). split; [exact Es|]. apply about_expected. Qed.

(** Two environments, interval 3, evaluation between an act and its observe. *)
Example C40_ex :
  let r1 := [(1, 10, 5, 2, false, false); (3, 11, 6, 4, true, false)] in
  let r2 := [(2, 12, 7, 5, false, true); (6, 13, 8, 7, false, false)] in
  let cs := round_calls r1 ++ [Act [2; 6] [12; 13]; SetTraining false; Act [50] [60]; Observe [51] [0] [true] [false]; SetTraining true; Observe [5; 7] [7; 8] [false; false] [true; false]] in
  in_training true cs = flat_map round_calls [r1; r2] /\
  rmap snd (calls (Some 3) init cs) = Ok [Append 0 (mkT 1 10 5 2 false); UpdateIfNecessary 1; Append 1 (mkT 3 11 6 4 true); StopEpisode 1; UpdateIfNecessary 2;
     SyncTarget; Append 0 (mkT 2 12 7 5 false); StopEpisode 0; UpdateIfNecessary 3; Append 1 (mkT 6 13 8 7 false); UpdateIfNecessary 4].
Proof. split; reflexivity. Qed.

Print Assumptions C40_schedule.
Print Assumptions C40_evaluation.
Print Assumptions C40_training.
Print Assumptions C40_per_env.
