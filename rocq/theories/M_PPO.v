(** Model of the data handling of PPO and TRPO: GAE, sequence splitting, minibatches, and the transition store.
    pfrl/agents/ppo.py, pfrl/agents/trpo.py (which imports the helpers of ppo.py and repeats the store verbatim). *)
From Coq Require Import QArith.
From Verif Require Import Base.
Open Scope nat_scope.

(** * Advantages: ppo.py:36-47 _add_advantage_and_value_target_to_episode.
    The loop walks over reversed(episode) carrying [adv] and writes two keys into each transition; here the walk over the reversed
    list carries [adv] and the (adv, v_teacher) pairs already produced, so the result is aligned with the episode.
    Simplification: floats are rationals. *)
Record gae_in := { g_reward : Q; g_nonterminal : Q; g_v : Q; g_next_v : Q }.

(* ppo.py:40-44 *)
Definition td_err (gamma : Q) (x : gae_in) : Q := (g_reward x + (gamma * g_nonterminal x * g_next_v x) - g_v x)%Q.

(* ppo.py:39-47 *)
Fixpoint gae_loop (gamma lambd adv : Q) (reversed : list gae_in) (acc : list (Q * Q)) : list (Q * Q) :=
  match reversed with
  | [] => acc
  | x :: t => let adv' := (td_err gamma x + gamma * lambd * adv)%Q in gae_loop gamma lambd adv' t ((adv', (adv' + g_v x)%Q) :: acc)
  end.
Definition gae (gamma lambd : Q) (episode : list gae_in) : list (Q * Q) := gae_loop gamma lambd 0%Q (rev episode) [].

(* ppo.py:50-53 _add_advantage_and_value_target_to_episodes *)
Definition gae_episodes (gamma lambd : Q) (episodes : list (list gae_in)) : list (list (Q * Q)) := map (gae gamma lambd) episodes.

Section Sequences.
  Context {T : Type}.
  Implicit Types (s : list T) (ss : list (list T)).

  (** * Splitting: ppo.py:145-154 _limit_sequence_length.  The inner while loop shortens the sequence by max_len > 0 each time; the
      fuel (the length of the sequence) is never exhausted (proved). *)
  Fixpoint limit_one (fuel max_len : nat) s (acc : list (list T)) : result (list (list T)) :=
    if max_len <? length s
    then match fuel with
         | O => Err OutOfFuel
         | S f => limit_one f max_len (skipn max_len s) (acc ++ [firstn max_len s])
         end
    else if (0 <? length s) && (length s <=? max_len) then Ok (acc ++ [s]) else Err AssertionError.
  Fixpoint limit_loop (max_len : nat) ss (acc : list (list T)) : result (list (list T)) :=
    match ss with
    | [] => Ok acc
    | s :: t => acc' <- limit_one (length s) max_len s acc ;; limit_loop max_len t acc'
    end.
  Definition limit_sequence_length ss (max_len : nat) : result (list (list T)) :=
    _ <- passert (0 <? max_len) ;; limit_loop max_len ss [].

  (** * Recurrent minibatches: ppo.py:157-178 _yield_subset_of_sequences_with_fixed_number_of_items.
      [stack = list(reversed(sequences))] is used from its end, so the model keeps it head first. *)
  (* ppo.py:163-166: while count < n_items and stack *)
  Fixpoint take_subset (n_items count : nat) (stack subset : list (list T)) : nat * list (list T) * list (list T) :=
    match stack with
    | s :: stack' => if count <? n_items then take_subset n_items (count + length s) stack' (subset ++ [s]) else (count, stack, subset)
    | [] => (count, stack, subset)
    end.
  (* sum(len(seq) for seq in subset) *)
  Fixpoint n_transitions ss : nat := match ss with [] => 0 | s :: t => length s + n_transitions t end.
  (* ppo.py:160-178; the generator's yields are collected.  In 168-173 [seq[:-k]] and [seq[-k:]] with k = n_exceeds > 0. *)
  Fixpoint subset_loop (fuel n_items : nat) (stack : list (list T)) : result (list (list (list T))) :=
    match stack with
    | [] => Ok []
    | _ =>
      match fuel with
      | O => Err OutOfFuel
      | S f =>
        let '(count, stack, subset) := take_subset n_items 0 stack [] in
        '(stack, subset) <-
          (if n_items <? count then
             let n_exceeds := count - n_items in
             _ <- passert (0 <? n_exceeds) ;;
             '(initial, last) <- py_pop subset ;;
             Ok (lastn n_exceeds last :: stack, initial ++ [firstn (length last - n_exceeds) last])
           else Ok (stack, subset)) ;;
        if n_transitions subset =? n_items then
          rest <- subset_loop f n_items stack ;; Ok (subset :: rest)
        else
          _ <- passert (length stack =? 0) ;; Ok []
      end
    end.
  Definition subset_fuel ss : nat := length ss + n_transitions ss.
  Definition yield_subset ss (n_items : nat) : result (list (list (list T))) :=
    _ <- passert (0 <? n_items) ;; subset_loop (subset_fuel ss) n_items ss.

  (** * Flat minibatches: ppo.py:247-257 _yield_minibatches.  [perms] are the results of the successive calls
      random.sample(dataset, k=len(dataset)); running out of them is reported as [StopIteration]. *)
  (* ppo.py:252-253 *)
  Fixpoint fill_buf (minibatch_size : nat) (buf : list T) (perms : list (list T)) : result (list T * list (list T)) :=
    if length buf <? minibatch_size
    then match perms with [] => Err StopIteration | p :: perms' => fill_buf minibatch_size (p ++ buf) perms' end
    else Ok (buf, perms).
  (* ppo.py:251-257; [total] is len(dataset) * num_epochs.  minibatch_size = 0 would make buf[-0:] the whole buffer; callers exclude it. *)
  Fixpoint minibatch_loop (fuel total minibatch_size n : nat) (buf : list T) (perms : list (list T)) : result (list (list T)) :=
    if n <? total then
      match fuel with
      | O => Err OutOfFuel
      | S f =>
        '(buf, perms) <- fill_buf minibatch_size buf perms ;;
        _ <- passert (minibatch_size <=? length buf) ;;
        rest <- minibatch_loop f total minibatch_size (n + minibatch_size) (firstn (length buf - minibatch_size) buf) perms ;;
        Ok (lastn minibatch_size buf :: rest)
      end
    else Ok [].
  Definition yield_minibatches (dataset : list T) (minibatch_size num_epochs : nat) (perms : list (list T)) : result (list (list T)) :=
    _ <- passert (0 <? length dataset) ;;
    minibatch_loop (length dataset * num_epochs) (length dataset * num_epochs) minibatch_size 0 [] perms.
End Sequences.

(** * The transition store.  ppo.py:378-458, 673-808; trpo.py:243-316, 705-835 (identical up to the update itself). *)
Section Store.
  Context {Ob Act : Type}.

  (* ppo.py:773-779.  The recurrent states added at 780-786 are not modelled. *)
  Record transition := { t_state : Ob; t_action : Act; t_reward : Q; t_next_state : Ob; t_nonterminal : Q }.

  Record store := {
    memory : list (list transition);
    last_episode : list transition;                   (* never filled by the batch API; kept as in the code *)
    batch_last_episode : option (list (list transition));
    batch_last_state : list (option Ob);
    batch_last_action : list (option Act)
  }.

  (* ppo.py:378-391 *)
  Definition store_init : store :=
    {| memory := []; last_episode := []; batch_last_episode := None; batch_last_state := []; batch_last_action := [] |}.

  (* ppo.py:402-405 *)
  Definition initialize_batch_variables (num_envs : nat) (s : store) : store :=
    {| memory := memory s; last_episode := last_episode s; batch_last_episode := Some (repeat [] num_envs);
       batch_last_state := repeat None num_envs; batch_last_action := repeat None num_envs |}.

  (* ppo.py:706-739 _batch_act_train.  The network and the sampling of actions are an oracle: [acts] are the sampled actions. *)
  Definition batch_act_train (obs : list Ob) (acts : list Act) (s : store) : result store :=
    let num_envs := length obs in
    let s := match batch_last_episode s with None => initialize_batch_variables num_envs s | Some _ => s end in
    bl <- match batch_last_episode s with Some bl => Ok bl | None => Err TypeError end ;;
    _ <- passert (length bl =? num_envs) ;;
    _ <- passert (length (batch_last_state s) =? num_envs) ;;
    _ <- passert (length (batch_last_action s) =? num_envs) ;;
    Ok {| memory := memory s; last_episode := last_episode s; batch_last_episode := Some bl;
          batch_last_state := map Some obs; batch_last_action := map Some acts |}.

  (* ppo.py:759-793, the body of the loop of _batch_observe_train for index i *)
  Definition observe_one (i : nat) (row : option Ob * option Act * Q * Ob * bool * bool) (s : store) : result store :=
    let '(state, action, reward, next_state, done, reset) := row in
    bl <- match batch_last_episode s with Some bl => Ok bl | None => Err TypeError end ;;
    ep <- match nth_error bl i with Some ep => Ok ep | None => Err IndexError end ;;
    ep <- match state with
          | Some st =>
            match action with
            | Some a => Ok (ep ++ [{| t_state := st; t_action := a; t_reward := reward; t_next_state := next_state;
                                      t_nonterminal := if done then 0%Q else 1%Q |}])
            | None => Err AssertionError
            end
          | None => Ok ep
          end ;;
    let bl := list_set bl i ep in
    '(mem, bl) <-
      (if done || reset then
         _ <- passert (negb (length ep =? 0)) ;; Ok (memory s ++ [ep], list_set bl i [])
       else Ok (memory s, bl)) ;;
    Ok {| memory := mem; last_episode := last_episode s; batch_last_episode := Some bl;
          batch_last_state := list_set (batch_last_state s) i None; batch_last_action := list_set (batch_last_action s) i None |}.

  Fixpoint observe_loop (i : nat) (rows : list (option Ob * option Act * Q * Ob * bool * bool)) (s : store) : result store :=
    match rows with
    | [] => Ok s
    | r :: t => s' <- observe_one i r s ;; observe_loop (S i) t s'
    end.

  (* zip of the six lists: stops at the shortest *)
  Fixpoint zip6 {A B C D E F} (a : list A) (b : list B) (c : list C) (d : list D) (e : list E) (f : list F) : list (A * B * C * D * E * F) :=
    match a, b, c, d, e, f with
    | a0 :: a, b0 :: b, c0 :: c, d0 :: d, e0 :: e, f0 :: f => (a0, b0, c0, d0, e0, f0) :: zip6 a b c d e f
    | _, _, _, _, _, _ => []
    end.

  (* ppo.py:450-458 _flush_last_episode *)
  Fixpoint flush_batch (bl : list (list transition)) (mem : list (list transition)) : list (list transition) * list (list transition) :=
    match bl with
    | [] => ([], mem)
    | ep :: t =>
      match ep with
      | [] => let (bl', mem') := flush_batch t mem in ([] :: bl', mem')
      | _ => let (bl', mem') := flush_batch t (mem ++ [ep]) in ([] :: bl', mem')
      end
    end.
  Definition flush_last_episode (s : store) : store :=
    let mem := match last_episode s with [] => memory s | ep => memory s ++ [ep] end in
    let (bl, mem) :=
      match batch_last_episode s with
      | Some bl => let (bl', mem') := flush_batch bl mem in (Some bl', mem')
      | None => (None, mem)
      end in
    {| memory := mem; last_episode := []; batch_last_episode := bl; batch_last_state := batch_last_state s;
       batch_last_action := batch_last_action s |}.

  (* What an update receives: the flat dataset (_make_dataset, 229-244) or the sequences (_make_dataset_recurrent, 197-226).  The
     keys the dataset construction adds to the transitions (log_prob, v_pred, adv, ...) are not part of the store model. *)
  Inductive dataset := Flat (l : list transition) | Sequences (l : list (list transition)).

  (* ppo.py:407-448; [recurrent] is None for a feedforward agent, Some max_recurrent_sequence_len otherwise (trpo.py: 265-306). *)
  Definition make_dataset (recurrent : option (option nat)) (mem : list (list transition)) : result dataset :=
    match recurrent with
    | None => Ok (Flat (concat mem))
    | Some None => Ok (Sequences mem)
    | Some (Some m) => rmap Sequences (limit_sequence_length mem m)
    end.
  Definition dataset_size (s : store) : nat :=
    n_transitions (memory s) + length (last_episode s) + match batch_last_episode s with None => 0 | Some bl => n_transitions bl end.
  Definition update_if_dataset_is_ready (recurrent : option (option nat)) (update_interval : nat) (s : store)
    : result (store * option dataset) :=
    let size := dataset_size s in
    if update_interval <=? size then
      let s := flush_last_episode s in
      d <- make_dataset recurrent (memory s) ;;
      _ <- match d with Flat l => passert (length l =? size) | Sequences _ => Ok tt end ;;
      Ok ({| memory := []; last_episode := last_episode s; batch_last_episode := batch_last_episode s;
             batch_last_state := batch_last_state s; batch_last_action := batch_last_action s |},
          Some d)
    else Ok (s, None).

  (* ppo.py:756-810 _batch_observe_train *)
  Definition batch_observe_train (recurrent : option (option nat)) (update_interval : nat)
      (obs : list Ob) (rewards : list Q) (dones resets : list bool) (s : store) : result (store * option dataset) :=
    s <- observe_loop 0 (zip6 (batch_last_state s) (batch_last_action s) rewards obs dones resets) s ;;
    update_if_dataset_is_ready recurrent update_interval s.

  (* ppo.py:673-683: act and observe calls, with the value of agent.training at the call.  In evaluation mode (685-704, 742-754) nothing
     of the store is touched. *)
  Inductive op :=
  | BatchAct (training : bool) (obs : list Ob) (acts : list Act)
  | BatchObserve (training : bool) (obs : list Ob) (rewards : list Q) (dones resets : list bool).

  (* One call: the new store, and either the dataset consumed by an update during the call, or nothing; or the exception. *)
  Definition call (recurrent : option (option nat)) (update_interval : nat) (s : store) (o : op) : store * result (option dataset) :=
    match o with
    | BatchAct true obs acts =>
      match batch_act_train obs acts s with Ok s' => (s', Ok None) | Err e => (s, Err e) end
    | BatchObserve true obs rewards dones resets =>
      match batch_observe_train recurrent update_interval obs rewards dones resets s with Ok (s', d) => (s', Ok d) | Err e => (s, Err e) end
    | BatchAct false _ _ | BatchObserve false _ _ _ _ => (s, Ok None)
    end.
End Store.
Arguments transition : clear implicits.
Arguments store : clear implicits.
Arguments dataset : clear implicits.
Arguments op : clear implicits.
