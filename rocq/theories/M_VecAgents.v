(** The agents of M_OffPolicy (DQN, DDPG, TD3, SAC) and M_PPO (PPO, TRPO) as agents of a training run in a vector environment (M_VecLoop).

    Simplifications.  Those of M_OffPolicy and M_PPO.  What an agent needs to choose actions (networks, normaliser, explorer, random numbers) is [Pl]: [choose] gives the actions, [learn] is what
    updates make of it.  Hooks act on it.  An evaluator may change it as well; its calls of the agent are made in evaluation mode, in which the rest does not change (C40_evaluation, C33). *)
From Coq Require Import QArith.
From Verif Require Import Base M_Train M_VectorEnv M_VecLoop M_OffPolicy M_PPO.
Close Scope Q_scope. Open Scope nat_scope.

Section Agents.
Context {O A Pl X C : Type}.

(** [core] is the bookkeeping, or the exception it raised. *)
Record plugged := mkPlug { core : result C; policy : Pl }.
Context (choose : list O -> Pl -> Pl * list A).
Definition lift_hook (h : nat -> Pl -> Pl * result unit) (t : nat) (s : plugged) : plugged * result unit := let (p, r) := h t (policy s) in (mkPlug (core s) p, r).
Definition lift_eval (f : nat -> nat -> Pl * X -> (Pl * X) * result (option Q)) (t k : nat) (sx : plugged * X) : (plugged * X) * result (option Q) :=
  let '((p, x), r) := f t k (policy (fst sx), snd sx) in ((mkPlug (core (fst sx)) p, x), r).
(** batch_act and batch_observe in training mode: [ask] and [tell] are the bookkeeping; [tell] also returns what there is to learn from. *)
Definition plug_act (ask : C -> list O -> list A -> result C) (obss : list O) (s : plugged) : plugged * result (list A) :=
  match core s with
  | Err x => (s, Err x)
  | Ok c => let (p, actions) := choose obss (policy s) in
            match ask c obss actions with Ok c => (mkPlug (Ok c) p, Ok actions) | Err x => (mkPlug (Err x) p, Err x) end
  end.
Definition plug_observe {D} (tell : C -> list O -> list Q -> list bool -> list bool -> result (C * D)) (learn : D -> Pl -> Pl) (obss : list O) (rs : list Q) (dones resets : list bool) (s : plugged) : plugged * result unit :=
  match core s with
  | Err x => (s, Err x)
  | Ok c => match tell c obss rs dones resets with Ok (c, d) => (mkPlug (Ok c) (learn d (policy s)), Ok tt) | Err x => (mkPlug (Err x) (policy s), Err x) end
  end.
End Agents.
Arguments plugged : clear implicits.

(** DQN, DDPG, TD3, SAC: the bookkeeping and the calls made on the replay buffer, the target network and the updater so far. *)
Section OffPolicy.
Context {O A Pl : Type} (interval : option nat).
Definition off_core : Type := M_OffPolicy.agent O A * list (M_OffPolicy.event O A Q).
Definition off_ask (c : off_core) (obss : list O) (actions : list A) : result off_core := Ok (M_OffPolicy.batch_act (fst c) obss actions, snd c).
Definition off_tell (c : off_core) (obss : list O) (rs : list Q) (dones resets : list bool) : result (off_core * list (M_OffPolicy.event O A Q)) :=
  '(a, e) <- M_OffPolicy.batch_observe interval (fst c) obss rs dones resets ;; Ok ((a, snd c ++ e), e).
(** agent.t = step_offset *)
Definition off_set_t (t : nat) (s : plugged Pl off_core) : plugged Pl off_core := mkPlug (rmap (fun c => (M_OffPolicy.set_t (fst c) t, snd c)) (core s)) (policy s).
Definition off_new (pl : Pl) : plugged Pl off_core := mkPlug (Ok (M_OffPolicy.init, [])) pl.
End OffPolicy.

(** PPO, TRPO: the stored transitions, and for every call made so far the dataset of the update made in it. *)
Section PPO.
Context {O A Pl : Type} (recurrent : option (option nat)) (update_interval : nat).
Definition ppo_core : Type := M_PPO.store O A * list (option (M_PPO.dataset O A)).
Definition ppo_ask (c : ppo_core) (obss : list O) (actions : list A) : result ppo_core :=
  let (s, r) := M_PPO.call recurrent update_interval (fst c) (BatchAct true obss actions) in d <- r ;; Ok (s, snd c ++ [d]).
Definition ppo_tell (c : ppo_core) (obss : list O) (rs : list Q) (dones resets : list bool) : result (ppo_core * option (M_PPO.dataset O A)) :=
  let (s, r) := M_PPO.call recurrent update_interval (fst c) (BatchObserve true obss rs dones resets) in d <- r ;; Ok ((s, snd c ++ [d]), d).
(** PPO and TRPO have no attribute t. *)
Definition ppo_new (pl : Pl) : plugged Pl ppo_core := mkPlug (Ok (M_PPO.store_init, [])) pl.
End PPO.
