(** C133: A2C trained in a vector environment: an update after every update_steps rounds, on exactly these rounds, with returns that stay within each environment's episodes. *)
From Coq Require Import QArith.
From Verif Require Import Base P_Base M_A2C M_Train M_VectorEnv M_VecLoop S_VecLoop M_VecA2C S_VecA2C P_VecA2C.
Close Scope Q_scope. Open Scope nat_scope.

(** The run: train_agent_batch on the environments [envs] with a new agent whose model, optimizer and random numbers are [pl]. *)
Definition a2c_training {E O A Sd V Pl X} (G : genv E O A (Q * bool * bool) Sd V) (use_gae : bool) (gamma tau : Q) (update_steps : nat) (decide : list O -> Pl -> Pl * (list A * list Q))
    (value : option (list O) -> Pl -> list Q) (learn : lesson O A Pl -> Pl -> Pl) (hooks : list (nat -> Pl -> Pl * result unit))
    (evaluate : option (nat -> nat -> Pl * X -> (Pl * X) * result (option Q))) (best : X -> Q) P envs last pl x :=
  vtrain G (a2c_act use_gae gamma tau update_steps (length envs) decide value learn) (a2c_observe use_gae gamma tau update_steps (length envs) value learn) a2c_set_t
    (map policy_hook hooks) (option_map policy_eval evaluate) best P envs last (a2c_new pl) x.

(** Whatever the environments, the model, the gradient steps, the hooks and the evaluator do, and whether the run returns or an exception ends it: the agent itself has raised nothing.  The steps of all
    episodes of all environments, in rounds, are divided into chunks of update_steps rounds with fewer than update_steps rounds left over, and there was one update for each chunk, in order: it saw the
    observations, the actions and the observation reached last, and its returns are right: sums along the episode that stop where the episode ends. *)
Theorem C133_lessons {E O A Sd V Pl X} (G : genv E O A (Q * bool * bool) Sd V) use_gae gamma tau update_steps decide value learn hooks evaluate best P envs last (pl : Pl) (x : X) w r :
  (forall obss pl pl' answer, decide obss pl = (pl', answer) -> length (fst answer) = length obss) -> 1 <= update_steps -> envs <> [] -> length last = length envs -> a_offset P = 0 ->
  a2c_training G use_gae gamma tau update_steps decide value learn hooks evaluate best P envs last pl x = (w, r) ->
  exists core rounds chunks rest, a_core (vw_agent w) = Ok core /\
    (forall i v log, nth_error (fst (vw_envs w)) i = Some (v, log) -> column i rounds = flat_map (lived (a_max_episode_len P)) (vplays log)) /\ length (fst (vw_envs w)) = length envs /\
    length (a_values (vw_agent w)) = length rounds /\ Forall (fun r : list (vstep O A) => length r = length envs) rounds /\ combine rounds (a_values (vw_agent w)) = concat chunks ++ rest /\
    Forall (fun c : list (list (vstep O A) * list Q) => length c = update_steps) chunks /\ length rest < update_steps /\
    Forall2 (right_lesson use_gae gamma tau (length envs) value) chunks (a_lessons (vw_agent w)).
Proof. intros Hd Hu He Hl Ho H. exact (a2c_lessons G use_gae gamma tau update_steps (length envs) decide value learn hooks evaluate best Hd Hu P envs last pl x w r eq_refl He Hl Ho H). Qed.
Print Assumptions C133_lessons.

(** Example: two environments that count their steps and pay the number reached; an episode of the first ends after two steps, the second never ends but is cut after three.  update_steps 2, discount 1/2,
    six rounds; the model gives every observation the value 100 at first and 10 more after every update.  In the second chunk the second environment is cut after the first step: its return is
    that step's reward; the others have the bootstrap. *)
Definition C133_env : genv (nat * nat) nat nat (Q * bool * bool) unit unit :=
  mkGenv (fun v => ((fst v, 0), 10 * fst v)) (fun a v => ((fst v, S (snd v)), (10 * fst v + S (snd v), (inject_Z (Z.of_nat (S (snd v))), (fst v =? 1) && (S (snd v) =? 2), false)))) (fun _ v => (v, tt)) (fun v => v).
Definition C133_decide (obss : list nat) (p : Q) : Q * (list nat * list Q) := (p, (map (fun o => o + 1) obss, map (fun _ => p) obss)).
Definition C133_value (obss : option (list nat)) (p : Q) : list Q := match obss with Some l => map (fun _ => p) l | None => [] end.
Definition C133_run use_gae := a2c_training (X := unit) C133_env use_gae (1#2) (1#2) 2 C133_decide C133_value (fun _ p => (p + 10)%Q) [] None (fun _ => 0%Q) (mkArgs 12 0 None (Some 3) None false) [(1, 0); (2, 0)] [None; None] 100%Q tt.
Example C133_example_length : forall obss pl pl' answer, C133_decide obss pl = (pl', answer) -> length (fst answer) = length obss.
Proof. intros obss pl pl' answer H. injection H as _ <-. apply map_length. Qed.
Definition C133_shape (l : lesson nat nat Q) := (r_states (l_rollout l), r_actions (l_rollout l), Qred (l_policy l), map (map Qred) (l_returns l)).
Example C133_example : exists w c, C133_run false = (w, Ok []) /\ a_core (vw_agent w) = Ok c /\
  map C133_shape (a_lessons (vw_agent w)) =
  [([Some [10; 20]; Some [11; 21]; Some [12; 22]], [Some [11; 21]; Some [12; 22]], 100%Q, [[2%Q; 2%Q]; [27%Q; 52%Q]]);
   ([Some [10; 22]; Some [11; 20]; Some [12; 21]], [Some [11; 23]; Some [12; 21]], 110%Q, [[2%Q; 2%Q]; [3%Q; 56%Q]]);
   ([Some [10; 21]; Some [11; 22]; Some [12; 23]], [Some [11; 22]; Some [12; 23]], 120%Q, [[2%Q; 2%Q]; [(7#2)%Q; 3%Q]])].
Proof. do 2 eexists. repeat (split; [vm_compute; reflexivity|]). vm_compute. reflexivity. Qed.
Example C133_example_gae : exists w c, C133_run true = (w, Ok []) /\ a_core (vw_agent w) = Ok c /\
  map (fun l => map (map Qred) (l_returns l)) (a_lessons (vw_agent w)) = [[[(53#2)%Q; 2%Q]; [39%Q; 52%Q]]; [[29%Q; 2%Q]; [3%Q; 56%Q]]; [[(63#2)%Q; 2%Q]; [(131#4)%Q; 3%Q]]].
Proof. do 2 eexists. repeat (split; [vm_compute; reflexivity|]). vm_compute. reflexivity. Qed.
