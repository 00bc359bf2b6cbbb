(** C118: DQN, DDPG, TD3 and SAC trained in a vector environment store what happened in each environment, episode by episode. *)
From Coq Require Import QArith.
From Verif Require Import Base P_Base M_RandomAccessQueue M_Prioritized M_ReplayBuffer S_ReplayBuffer P_ReplayBuffer M_OffPolicy S_OffPolicy P_OffPolicy M_Train M_VectorEnv M_VecLoop S_VecLoop P_VecLoop M_VecAgents S_VecAgents P_VecAgents.
Close Scope Q_scope. Open Scope nat_scope.

(** The run: train_agent_batch on the environments [envs] with a new agent whose networks, explorer etc. are [pl]. *)
Definition off_training {E O A Sd V Pl X} (G : genv E O A (Q * bool * bool) Sd V) (interval : option nat) (choose : list O -> Pl -> Pl * list A) (learn : list (M_OffPolicy.event O A Q) -> Pl -> Pl)
    (hooks : list (nat -> Pl -> Pl * result unit)) (evaluate : option (nat -> nat -> Pl * X -> (Pl * X) * result (option Q))) (best : X -> Q) P envs last pl x :=
  vtrain G (plug_act choose off_ask) (plug_observe (off_tell interval) learn) off_set_t (map lift_hook hooks) (option_map lift_eval evaluate) best P envs last (off_new pl) x.

(** Whatever the environments, the choice of actions, the learning, the hooks and the evaluator do, and whether the run returns or an exception ends it: the agent itself has raised nothing, and for
    every environment the episodes recorded in the replay buffer are the episodes played there, transition by transition: all of them finished except possibly the last. *)
Theorem C118_episodes {E O A Sd V Pl X} (G : genv E O A (Q * bool * bool) Sd V) interval choose learn hooks evaluate best P envs last (pl : Pl) (x : X) w r :
  (forall obss pl pl' actions, choose obss pl = (pl', actions) -> length actions = length obss) -> interval <> Some 0 -> envs <> [] -> length last = length envs ->
  off_training G interval choose learn hooks evaluate best P envs last pl x = (w, r) ->
  length (fst (vw_envs w)) = length envs /\
  exists agent events, core (vw_agent w) = Ok (agent, events) /\
  forall i v log, nth_error (fst (vw_envs w)) i = Some (v, log) ->
    let recorded p := map off_transition (lived (a_max_episode_len P) p) in
    exists eps p, vplays log = eps ++ [p] /\ Forall (whole (a_max_episode_len P)) eps /\
      (whole (a_max_episode_len P) p /\ episodes i (buffer_calls events) = (map recorded (eps ++ [p]), []) \/
       ongoing (a_max_episode_len P) p /\ episodes i (buffer_calls events) = (map recorded eps, recorded p)).
Proof.
  intros Hc Hi He Hl H. destruct (off_events G interval choose learn hooks evaluate best Hc P envs last pl x w r Hi He Hl H) as (L & rounds & c & Cc & Fr & Ce & Hv). split; [exact L|].
  exists c, (expected interval (a_offset P) rounds). split; [exact Ce|]. intros i v log Ev. destruct (Hv i v log Ev) as (Ec & eps & p & Ep & Fe & Hp). exists eps, p. split; [exact Ep|]. split; [exact Fe|].
  rewrite episodes_filter, buffer_filter, expected_column, Ec, Ep. destruct (episodes_lived (a_max_episode_len P) i eps p Fe Hp) as [[-> Ho]|[-> Hw]]; [right|left]; (split; [assumption|reflexivity]).
Qed.
Print Assumptions C118_episodes.

(** n-step contents.  There is a list of windows, each with the environment it comes from, such that whenever an update is made (and at any other moment) the replay buffer holds the last [capacity]
    of the windows listed so far; the windows of an environment are, in order, one for each transition of the finished episodes played there, and the complete ones of an unfinished episode. *)
Definition windows_of_run {E O A} (P : train_args) (n : nat) (envs : list (E * list (lcall O A))) (L : list (nat * list (trans (M_OffPolicy.transition O A Q)))) : Prop :=
  Forall (fun e => fst e < length envs) L /\
  forall i v log, nth_error envs i = Some (v, log) ->
    let recorded p := map off_transition (lived (a_max_episode_len P) p) in
    exists eps p, vplays log = eps ++ [p] /\ Forall (whole (a_max_episode_len P)) eps /\
      (whole (a_max_episode_len P) p /\ map snd (filter (fun e => fst e =? i) L) = flat_map (fun q => windows n (recorded q)) (eps ++ [p]) \/
       ongoing (a_max_episode_len P) p /\ map snd (filter (fun e => fst e =? i) L) = flat_map (fun q => windows n (recorded q)) eps ++ full_windows n (recorded p)).
Theorem C118_contents {E O A Sd V Pl X} (G : genv E O A (Q * bool * bool) Sd V) interval choose learn hooks evaluate best P envs last (pl : Pl) (x : X) w r cap n :
  (forall obss pl pl' actions, choose obss pl = (pl', actions) -> length actions = length obss) -> interval <> Some 0 -> envs <> [] -> length last = length envs -> 0 < n ->
  off_training G interval choose learn hooks evaluate best P envs last pl x = (w, r) ->
  exists agent events L, core (vw_agent w) = Ok (agent, events) /\ windows_of_run P n (fst (vw_envs w)) L /\
  forall before after, events = before ++ after -> exists k, (after = [] -> k = length L) /\
    (exists b0 b, replay_buffer cap n = Ok b0 /\ rb_run raq_append b0 (buffer_calls before) = Ok b /\ raq_iter (memory b) = trunc cap (map snd (firstn k L))) /\
    (cap <> Some 0 -> exists b0 b, prioritized_replay_buffer cap n = Ok b0 /\ rb_run pb_append_default b0 (buffer_calls before) = Ok b /\ data (memory b) = trunc cap (map snd (firstn k L))).
Proof.
  intros Hc Hi He Hl Hn H. destruct (off_events G interval choose learn hooks evaluate best Hc P envs last pl x w r Hi He Hl H) as (L & rounds & c & Cc & Fr & Ce & Hv).
  exists c, (expected interval (a_offset P) rounds), (log n (buffer_calls (expected interval (a_offset P) rounds))). split; [exact Ce|]. split; [split|].
  - apply log_keys; [exact Hn|]. intros e Hge. rewrite buffer_filter, expected_column, (column_over e (length envs) rounds Fr) by lia. reflexivity.
  - intros i v lg Ev. destruct (Hv i v lg Ev) as (Ec & eps & p & Ep & Fe & Hp). exists eps, p. split; [exact Ep|]. split; [exact Fe|]. rewrite log_env by exact Hn. rewrite Ep in Ec.
    exact (expected_stored interval (a_offset P) n i (a_max_episode_len P) rounds eps p Hn Ec Fe Hp).
  - intros before after Eb. exists (length (log n (buffer_calls before))).
    assert (El : firstn (length (log n (buffer_calls before))) (log n (buffer_calls (expected interval (a_offset P) rounds))) = log n (buffer_calls before)).
    { rewrite Eb, buffer_calls_app, log_app, firstn_app, firstn_all, Nat.sub_diag. cbn [firstn]. now rewrite app_nil_r. }
    split; [intros ->; rewrite Eb, app_nil_r; reflexivity|]. rewrite El. split; [exact (replay_buffer_windows _ cap n _ Hn)|]. intros Hcap. exact (prioritized_replay_buffer_windows _ cap n _ Hn Hcap).
Qed.
Print Assumptions C118_contents.

(** The schedule: with [steps] rounds of one step per environment, the step counter ends at step_offset + the number of steps taken in all environments together; one update is considered after each
    of these steps, and target networks are synchronised (DQN, DDPG) at the multiples of the interval. *)
Theorem C118_schedule {E O A Sd V Pl X} (G : genv E O A (Q * bool * bool) Sd V) interval choose learn hooks evaluate best P envs last (pl : Pl) (x : X) w r :
  (forall obss pl pl' actions, choose obss pl = (pl', actions) -> length actions = length obss) -> interval <> Some 0 -> envs <> [] -> length last = length envs ->
  off_training G interval choose learn hooks evaluate best P envs last pl x = (w, r) ->
  exists agent events rounds, core (vw_agent w) = Ok (agent, events) /\ length (vw_calls w) = 2 * rounds /\ M_OffPolicy.t agent = a_offset P + rounds * length envs /\
    filter is_schedule events = flat_map (fun T => match interval with Some k => if T mod k =? 0 then [SyncTarget] else [] | None => [] end ++ [UpdateIfNecessary T]) (seq (S (a_offset P)) (rounds * length envs)).
Proof.
  intros Hc Hi He Hl H. destruct (off_events G interval choose learn hooks evaluate best Hc P envs last pl x w r Hi He Hl H) as (L & rounds & c & Cc & Fr & Ce & Hv).
  exists c, (expected interval (a_offset P) rounds), (length rounds). split; [exact Ce|]. pose proof (off_core_calls G interval choose learn hooks evaluate best _ _ _ _ _ _ _ H) as K. rewrite Ce, Cc, rounds_calls in K.
  destruct (all_time interval _ _ _ _ (eq_sym K)) as [Kt Ks]. cbn [M_OffPolicy.t M_OffPolicy.training M_OffPolicy.set_t M_OffPolicy.init] in Kt, Ks. rewrite in_training_rounds in Kt, Ks.
  assert (N : list_sum (map (fun c0 => match c0 with Observe obs _ _ _ => length obs | _ => 0 end) (flat_map (@round_calls O A Q) rounds)) = length rounds * length envs).
  { clear - Fr. induction Fr as [|q rounds Hq F IH]; [reflexivity|]. cbn [flat_map]. rewrite map_app, list_sum_app, IH. cbn. rewrite map_length. unfold S_OffPolicy.env_step, vstep in *. rewrite Hq. lia. }
  split; [rewrite Cc; clear; induction rounds as [|q rounds IH]; [reflexivity|]; cbn [flat_map]; rewrite app_length, IH; cbn; lia|].
  change (env_steps (flat_map (@round_calls O A Q) rounds)) with (list_sum (map (fun c0 => match c0 with Observe obs _ _ _ => length obs | _ => 0 end) (flat_map (@round_calls O A Q) rounds))) in Kt, Ks. rewrite N in Kt, Ks. split; assumption.
Qed.
Print Assumptions C118_schedule.

(** Example: two environments that count their steps; an episode of the first ends after two steps, the second never ends but is cut after three; the run ends after ten steps, and each
    environment is in its last episode.  Replay buffer with n = 2 and room for four windows; target networks synchronised every four steps. *)
Definition C118_env : genv (nat * nat) nat nat (Q * bool * bool) unit unit :=
  mkGenv (fun v => ((fst v, 0), 10 * fst v)) (fun a v => ((fst v, S (snd v)), (10 * fst v + S (snd v), (inject_Z (Z.of_nat a), (fst v =? 1) && (S (snd v) =? 2), false)))) (fun _ v => (v, tt)) (fun v => v).
Definition C118_choose (obss : list nat) (k : nat) : nat * list nat := (S k, map (fun _ => k) obss).
Definition C118_run := off_training (X := unit) C118_env (Some 4) C118_choose (fun _ k => k) [] None (fun _ => 0%Q) (mkArgs 10 0 None (Some 3) None false) [(1, 0); (2, 0)] [None; None] 0 tt.
Example C118_example_length : forall obss pl pl' actions, C118_choose obss pl = (pl', actions) -> length actions = length obss.
Proof. intros obss pl pl' actions H. injection H as _ <-. apply map_length. Qed.
Example C118_example : exists w agent events b0 b, C118_run = (w, Ok []) /\ core (vw_agent w) = Ok (agent, events) /\ M_OffPolicy.t agent = 10 /\
  filter is_schedule events = [UpdateIfNecessary 1; UpdateIfNecessary 2; UpdateIfNecessary 3; SyncTarget; UpdateIfNecessary 4; UpdateIfNecessary 5; UpdateIfNecessary 6; UpdateIfNecessary 7; SyncTarget; UpdateIfNecessary 8; UpdateIfNecessary 9; UpdateIfNecessary 10] /\
  (let es := episodes 0 (buffer_calls events) in (map (map (fun x => (M_OffPolicy.tr_state (payload x), M_OffPolicy.tr_next_state (payload x)))) (fst es), length (snd es))) = ([[(10, 11); (11, 12)]; [(10, 11); (11, 12)]], 1) /\
  (let es := episodes 1 (buffer_calls events) in (map (map (fun x => (M_OffPolicy.tr_state (payload x), M_OffPolicy.tr_next_state (payload x)))) (fst es), length (snd es))) = ([[(20, 21); (21, 22); (22, 23)]], 2) /\
  replay_buffer (Some 4) 2 = Ok b0 /\ rb_run raq_append b0 (buffer_calls events) = Ok b /\
  map (map (fun x => (M_OffPolicy.tr_state (payload x), M_OffPolicy.tr_next_state (payload x)))) (raq_iter (memory b)) = [[(22, 23)]; [(10, 11); (11, 12)]; [(11, 12)]; [(20, 21); (21, 22)]].
Proof. do 5 eexists. repeat (split; [vm_compute; reflexivity|]). vm_compute. reflexivity. Qed.
