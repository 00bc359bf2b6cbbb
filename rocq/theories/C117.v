(** C117: training in a vector environment shows the agent what happened in each environment. *)
From Coq Require Import QArith.
From Verif Require Import Base M_Train M_VectorEnv M_VecLoop S_VecLoop P_VecLoop.
Close Scope Q_scope. Open Scope nat_scope.

(** For any environments and any agent (that returns one action per observation), hooks and evaluator, whether train_agent_batch returns or an exception ends it: the agent was called in rounds,
    each with one step per environment; the steps of the i-th environment in these rounds are, in order, the steps of its episodes; every episode ran to its end and not further, except that the
    last may be unfinished. *)
Theorem C117_shown {E Ob Ac Sd V S X : Type} (G : genv E Ob Ac (Q * bool * bool) Sd V) act observe (set_t : nat -> S -> S) hooks evaluate (best : X -> Q) P envs last s x w r :
  (forall obss s s' actions, act obss s = (s', Ok actions) -> length actions = length obss) -> envs <> [] -> length last = length envs ->
  vtrain G act observe set_t hooks evaluate best P envs last s x = (w, r) ->
  length (fst (vw_envs w)) = length envs /\
  exists rounds, vw_calls w = flat_map asked_and_told rounds /\ Forall (fun r => length r = length envs) rounds /\
  forall i v log, nth_error (fst (vw_envs w)) i = Some (v, log) ->
    column i rounds = flat_map (lived (a_max_episode_len P)) (vplays log) /\
    exists eps p, vplays log = eps ++ [p] /\ Forall (whole (a_max_episode_len P)) eps /\ (whole (a_max_episode_len P) p \/ ongoing (a_max_episode_len P) p).
Proof. exact (vtrain_told G act observe set_t hooks evaluate best P envs last s x w r). Qed.
Print Assumptions C117_shown.

(** Example: two environments that count their steps; an episode of the first ends after two steps, the second never ends but is cut after three.  The agent's action is the number of calls so far. *)
Definition C117_env : genv (nat * nat) nat nat (Q * bool * bool) unit unit :=
  mkGenv (fun v => ((fst v, 0), 10 * fst v)) (fun a v => ((fst v, S (snd v)), (10 * fst v + S (snd v), (inject_Z (Z.of_nat a), (fst v =? 1) && (S (snd v) =? 2), false)))) (fun _ v => (v, tt)) (fun v => v).
Definition C117_act (obss : list nat) (k : nat) : nat * result (list nat) := (S k, Ok (map (fun _ => k) obss)).
Definition C117_run := vtrain C117_env C117_act (fun _ _ _ _ k => (k, Ok tt)) (fun _ k => k) [] None (fun _ : unit => 0%Q) (mkArgs 10 0 None (Some 3) None false) [(1, 0); (2, 0)] [None; None] 0 tt.
Example C117_example_length : forall obss s s' actions, C117_act obss s = (s', Ok actions) -> length actions = length obss.
Proof. intros obss s s' actions H. injection H as _ <-. apply map_length. Qed.
Example C117_example : exists w, C117_run = (w, Ok []) /\
  map (fun v => map (fun p : vplay nat nat => (fst p, map (fun x => (fst (fst x), snd (fst x))) (snd p))) (vplays (snd v))) (fst (vw_envs w)) =
    [[(10, [(0, 11); (1, 12)]); (10, [(2, 11); (3, 12)]); (10, [(4, 11)])]; [(20, [(0, 21); (1, 22); (2, 23)]); (20, [(3, 21); (4, 22)])]] /\
  firstn 6 (vw_calls w) = [CAct [10; 20] [0; 0]; CObserve [11; 21] [0; 0]%Q [false; false] [false; false];
                           CAct [11; 21] [1; 1]; CObserve [12; 22] [1; 1]%Q [true; false] [false; false];
                           CAct [10; 22] [2; 2]; CObserve [11; 23] [2; 2]%Q [false; false] [false; true]].
Proof. eexists. split; [vm_compute; reflexivity|]. split; vm_compute; reflexivity. Qed.
