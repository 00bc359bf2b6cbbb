(** Model of one iteration of PPO (pfrl/agents/ppo.py:460-632: _update_obs_normalizer, _update, _update_once_recurrent, _update_recurrent) and of TRPO (pfrl/agents/trpo.py:318-413: _update,
    _update_recurrent, _update_vf_recurrent, _update_vf_once_recurrent, _update_obs_normalizer, _update_vf; 422-434, 463 and 479-541: _update_policy and _update_policy_recurrent; 608-634 of
    _line_search), as far as the inputs of the networks and of the observation normaliser go.
    batch_states and the normaliser are uninterpreted.  The losses are C79 and C80, the step and the line search C75 and C43, the minibatches C32. *)
From Verif Require Import Base M_Batch M_PPO M_Recurrent M_PPOData.

Section Update.
Context {Ob F B N X : Type}.
(** batch_states(states, device, phi) *)
Definition batcher := (Ob -> F) -> list Ob -> B.
Context (state : X -> Ob) (experience : N -> B -> N) (normalise : N -> B -> B).

Inductive network := Policy | ValueFunction | Both.
(** What happens: the normaliser experiences a batch, or a network is given inputs, one batch for every sequence, made of these transitions (a single batch if the network is not recurrent). *)
Inductive event := Experience (b : B) | Forward (w : network) (rows : list (B * list X)).

(** if self.obs_normalizer: states = self.obs_normalizer(states, update=False) *)
Definition normalised (n : option N) (b : B) : B := match n with None => b | Some n => normalise n b end.
(** _update_obs_normalizer, called if self.obs_normalizer: the events and the normaliser afterwards *)
Definition update_normalizer (bs : batcher) (phi : Ob -> F) (n : option N) (dataset : list X) : list event * option N :=
  match n with None => ([], None) | Some n => let b := bs phi (map state dataset) in ([Experience b], Some (experience n b)) end.
Definition input (bs : batcher) (phi : Ob -> F) (n : option N) (data : list X) : B * list X := (normalised n (bs phi (map state data)), data).

(** ppo.py:465-532.  [perms]: the results of random.sample. *)
Definition ppo_update (self_bs : batcher) phi n (minibatch_size epochs : nat) (perms : list (list X)) (dataset : list X) : result (list event) :=
  let (e, n) := update_normalizer self_bs phi n dataset in
  _ <- passert (0 <? length dataset) ;;
  batches <- yield_minibatches dataset minibatch_size epochs perms ;;
  Ok (e ++ map (fun b => Forward Both [input self_bs phi n b]) batches).
(** ppo.py:534-606: one minibatch of sequences *)
Definition ppo_once_recurrent (self_bs : batcher) phi n (episodes : list (list X)) : event := Forward Both (map (input self_bs phi n) (sort_desc episodes)).
(** ppo.py:608-632.  [shuffled]: the dataset after random.shuffle, in every epoch. *)
Definition ppo_update_recurrent (self_bs : batcher) phi n (minibatch_size : nat) (shuffled : list (list (list X))) (dataset : list (list X)) : result (list event) :=
  let flat := concat dataset in
  let (e, n) := update_normalizer self_bs phi n flat in
  _ <- passert (0 <? length flat) ;;
  batches <- rmapM (fun d => yield_subset d minibatch_size) shuffled ;;
  Ok (e ++ map (ppo_once_recurrent self_bs phi n) (concat batches)).

(** trpo.py:318-324, 382-413, 422-434, 463, 627-634.  [module_bs] is the function batch_states imported into the module (trpo.py:24); [k]: how often the line search evaluates the policy. *)
Definition trpo_update (module_bs self_bs : batcher) phi n (vf_batch_size vf_epochs k : nat) (perms : list (list X)) (dataset : list X) : result (list event) :=
  let (e, n) := update_normalizer module_bs phi n dataset in
  _ <- passert (0 <? length dataset) ;;
  let policy := repeat (Forward Policy [input module_bs phi n dataset]) 2 ++ repeat (Forward Policy [input self_bs phi n dataset]) k in
  batches <- yield_minibatches dataset vf_batch_size vf_epochs perms ;;
  Ok (e ++ policy ++ map (fun b => Forward ValueFunction [input module_bs phi n b]) batches).
(** trpo.py:326-380, 479-555, 608-624 *)
Definition trpo_update_recurrent (module_bs self_bs : batcher) phi n (vf_batch_size k : nat) (shuffled : list (list (list X))) (dataset : list (list X)) : result (list event) :=
  let flat := flatten_sequences_time_first (map (map Some) dataset) in
  let (e, n) := update_normalizer module_bs phi n flat in
  let policy := repeat (Forward Policy (map (input self_bs phi n) (sort_desc dataset))) (2 + k) in
  batches <- rmapM (fun d => yield_subset d vf_batch_size) shuffled ;;
  Ok (e ++ policy ++ map (fun b => Forward ValueFunction (map (input self_bs phi n) (sort_desc b))) (concat batches)).
End Update.
