(** C119: PPO and TRPO trained in a vector environment learn from what happened in each environment, episode by episode, every step once. *)
From Coq Require Import QArith Permutation.
From Verif Require Import Base P_Base M_PPO S_PPO M_Train M_VectorEnv M_VecLoop S_VecLoop M_VecAgents S_VecAgents P_VecPPO.
Close Scope Q_scope. Open Scope nat_scope.

(** The run: train_agent_batch on the environments [envs] with a new agent whose networks, random numbers etc. are [pl]. *)
Definition ppo_training {E O A Sd V Pl X} (G : genv E O A (Q * bool * bool) Sd V) (recurrent : option (option nat)) (update_interval : nat) (choose : list O -> Pl -> Pl * list A) (learn : option (M_PPO.dataset O A) -> Pl -> Pl)
    (hooks : list (nat -> Pl -> Pl * result unit)) (evaluate : option (nat -> nat -> Pl * X -> (Pl * X) * result (option Q))) (best : X -> Q) P envs last pl x :=
  vtrain G (plug_act choose (ppo_ask recurrent update_interval)) (plug_observe (ppo_tell recurrent update_interval) learn) (fun _ s => s) (map lift_hook hooks) (option_map lift_eval evaluate) best P envs last (ppo_new pl) x.

(** Whatever the environments, the choice of actions, the learning, the hooks and the evaluator do, and whether the run returns or an exception ends it: the agent itself has raised nothing, and the
    steps of all episodes of all environments are, each once, those of the datasets of the updates and fewer than update_interval still waiting. *)
Theorem C119_once {E O A Sd V Pl X} (G : genv E O A (Q * bool * bool) Sd V) recurrent update_interval choose learn hooks evaluate best P envs last (pl : Pl) (x : X) w r :
  (forall obss pl pl' actions, choose obss pl = (pl', actions) -> length actions = length obss) -> (forall m, recurrent = Some (Some m) -> 0 < m) -> 0 < update_interval -> envs <> [] -> length last = length envs ->
  ppo_training G recurrent update_interval choose learn hooks evaluate best P envs last pl x = (w, r) ->
  exists store datasets waiting, core (vw_agent w) = Ok (store, datasets) /\ length waiting < update_interval /\
    Permutation (flat_map (fun v => map ppo_transition (flat_map (lived (a_max_episode_len P)) (vplays (snd v)))) (fst (vw_envs w))) (concat (map (fun d => used (Ok d)) datasets) ++ waiting).
Proof. intros Hc Hr Hu He Hl H. exact (ppo_once G recurrent update_interval choose learn hooks evaluate best Hc Hr Hu P envs last pl x w r He Hl H). Qed.
Print Assumptions C119_once.

(** Every update gets at least update_interval steps and fewer than update_interval + the number of environments, and these come as sequences each of which is a stretch of consecutive steps of one
    episode of one environment (advantages are computed along these sequences; for a recurrent agent with a length limit, they are cut to that length; for a feedforward agent, put together). *)
Theorem C119_sequences {E O A Sd V Pl X} (G : genv E O A (Q * bool * bool) Sd V) recurrent update_interval choose learn hooks evaluate best P envs last (pl : Pl) (x : X) w r :
  (forall obss pl pl' actions, choose obss pl = (pl', actions) -> length actions = length obss) -> (forall m, recurrent = Some (Some m) -> 0 < m) -> 0 < update_interval -> envs <> [] -> length last = length envs ->
  ppo_training G recurrent update_interval choose learn hooks evaluate best P envs last pl x = (w, r) ->
  exists store datasets, core (vw_agent w) = Ok (store, datasets) /\ length datasets = length (vw_calls w) /\
  forall d, In (Some d) datasets -> update_interval <= length (used (Ok (Some d))) < update_interval + length envs /\
    exists sequences, match recurrent, d with
                 | None, Flat l => l = concat sequences
                 | Some None, Sequences l => l = sequences
                 | Some (Some m), Sequences l => cut l sequences /\ Forall (fun s => 0 < length s <= m) l
                 | _, _ => False
                 end /\
    Forall (fun s => s <> [] /\ exists i v log p, nth_error (fst (vw_envs w)) i = Some (v, log) /\ In p (vplays log) /\ piece s (map ppo_transition (lived (a_max_episode_len P) p))) sequences.
Proof. intros Hc Hr Hu He Hl H. exact (ppo_sequences G recurrent update_interval choose learn hooks evaluate best Hc Hr Hu P envs last pl x w r He Hl H). Qed.
Print Assumptions C119_sequences.

(** Example: two environments that count their steps; an episode of the first ends after two steps, the second never ends but is cut after three.  update_interval 5 (an update comes after three
    rounds with six steps); a recurrent agent without and with a length limit. *)
Definition C119_env : genv (nat * nat) nat nat (Q * bool * bool) unit unit :=
  mkGenv (fun v => ((fst v, 0), 10 * fst v)) (fun a v => ((fst v, S (snd v)), (10 * fst v + S (snd v), (inject_Z (Z.of_nat a), (fst v =? 1) && (S (snd v) =? 2), false)))) (fun _ v => (v, tt)) (fun v => v).
Definition C119_choose (obss : list nat) (k : nat) : nat * list nat := (S k, map (fun _ => k) obss).
Definition C119_run recurrent := ppo_training (X := unit) C119_env recurrent 5 C119_choose (fun _ k => k) [] None (fun _ => 0%Q) (mkArgs 14 0 None (Some 3) None false) [(1, 0); (2, 0)] [None; None] 0 tt.
Example C119_example_length : forall obss pl pl' actions, C119_choose obss pl = (pl', actions) -> length actions = length obss.
Proof. intros obss pl pl' actions H. injection H as _ <-. apply map_length. Qed.
Definition C119_shape (d : option (M_PPO.dataset nat nat)) : list (list (list (nat * nat * nat))) :=
  let f t := (t_state t, t_action t, t_next_state t) in match d with None => [] | Some (Flat l) => [[map f l]] | Some (Sequences l) => [map (map f) l] end.
Example C119_example : exists w st ds, C119_run (Some None) = (w, Ok []) /\ core (vw_agent w) = Ok (st, ds) /\
  flat_map C119_shape ds = [[[(10, 0, 11); (11, 1, 12)]; [(20, 0, 21); (21, 1, 22); (22, 2, 23)]; [(10, 2, 11)]]; [[(11, 3, 12)]; [(10, 4, 11); (11, 5, 12)]; [(20, 3, 21); (21, 4, 22); (22, 5, 23)]]].
Proof. do 3 eexists. repeat (split; [vm_compute; reflexivity|]). vm_compute. reflexivity. Qed.
Example C119_example_cut : exists w st ds, C119_run (Some (Some 2)) = (w, Ok []) /\ core (vw_agent w) = Ok (st, ds) /\
  flat_map C119_shape ds = [[[(10, 0, 11); (11, 1, 12)]; [(20, 0, 21); (21, 1, 22)]; [(22, 2, 23)]; [(10, 2, 11)]]; [[(11, 3, 12)]; [(10, 4, 11); (11, 5, 12)]; [(20, 3, 21); (21, 4, 22)]; [(22, 5, 23)]]].
Proof. do 3 eexists. repeat (split; [vm_compute; reflexivity|]). vm_compute. reflexivity. Qed.
