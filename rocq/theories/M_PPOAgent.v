(** Model of a whole PPO or TRPO agent, feedforward or recurrent, with its recurrent states, its parameters and its updates: pfrl/agents/ppo.py:373-458 and 673-810 (trpo.py:238-316 and 700-835
    repeat this up to the update itself).  The dataset is made with M_PPOData (values, log-probabilities, advantages) and M_PPO (splitting of sequences).

    Simplifications.  [cell p obs h] is what the network makes of one observation in the recurrent state h: the action distribution with the value, and the next recurrent state; p is all that an
    update changes (parameters, statistics of obs_normalizer, state of the optimizer), and phi, batch_states and obs_normalizer(update=False) are part of [cell].  A feedforward network is a [cell]
    used in the state [zero] only.  A batched recurrent state is None or the list of the states of the environments (M_RecDQN: forward, at_, reset_states).  batch_last_state and batch_last_action are
    kept together; they are set and cleared together.  [learn] stands for _update / _update_recurrent (462-630).  Statistics are left out. *)
From Coq Require Import QArith.
From Verif Require Import Base M_Batch M_PPO M_PPOData M_RecDQN.
Close Scope Q_scope. Open Scope nat_scope.

Section Agent.
Context {Ob Act Dist HS Pm : Type}.
Notation ptr := (ptr Ob Act HS).
Context (cell : Pm -> Ob -> HS -> (Dist * Q) * HS) (zero : HS) (log_prob : Dist -> Act -> Q) (mode : Dist -> Act) (act_deterministically : bool).
(** None: recurrent=False; Some m: recurrent=True with max_recurrent_sequence_len = m. *)
Context (recurrent : option (option nat)) (update_interval : nat) (gamma lambd : Q) (learn : Pm -> list (list ptr) -> Pm).

(** ppo.py:378-396; last_episode is never filled by the batch API. *)
Record ppo := mkPpo {
  o_p : Pm; o_mem : list (list ptr); o_bl : option (list (list ptr)); o_last : list (option (Ob * Act));
  o_train : option (list HS); o_prev : option (list HS); o_test : option (list HS); o_training : bool }.
Definition ppo_init (p : Pm) : ppo := mkPpo p [] None [] None None None true.

(** self.model(b_state) or one_step_forward(self.model, b_state, states): ppo.py:693-698, 722-733 *)
Definition outputs (p : Pm) (obs : list Ob) (hs : option (list HS)) : result (list (Dist * Q) * option (list HS)) :=
  match recurrent with
  | None => Ok (map (fun o => fst (cell p o zero)) obs, hs)
  | Some _ => '(ys, hs) <- forward cell zero p obs hs ;; Ok (ys, Some hs)
  end.
Definition is_none {X} (o : option X) : bool := match o with None => true | Some _ => false end.

(** ppo.py:673-677, 685-740 (402-405 at the first call); [sampler i d] is the action sampled from d for the i-th environment. *)
Definition batch_act (s : ppo) (obs : list Ob) (sampler : nat -> Dist -> Act) : result (ppo * list (Dist * Q) * list Act) :=
  let draw ys := map (fun iy => sampler (fst iy) (fst (snd iy))) (combine (seq 0 (length ys)) ys) in
  if o_training s then
    let bl := match o_bl s with None => repeat [] (length obs) | Some bl => bl end in
    let last := match o_bl s with None => repeat None (length obs) | Some _ => o_last s end in
    _ <- passert (length bl =? length obs) ;;
    _ <- passert (length last =? length obs) ;;
    _ <- passert (is_none recurrent || is_none (o_prev s)) ;;
    '(ys, hs) <- outputs (o_p s) obs (o_train s) ;;
    Ok (mkPpo (o_p s) (o_mem s) (Some bl) (map Some (combine obs (draw ys))) hs (match recurrent with None => o_prev s | Some _ => o_train s end) (o_test s) true, ys, draw ys)
  else
    '(ys, hs) <- outputs (o_p s) obs (o_test s) ;;
    Ok (mkPpo (o_p s) (o_mem s) (o_bl s) (o_last s) (o_train s) (o_prev s) hs false, ys, if act_deterministically then map (fun y => mode (fst y)) ys else draw ys).

(** ppo.py:759-795: one iteration of the loop. *)
Definition observe_one (s : ppo) (i : nat) (row : option (Ob * Act) * outcome Ob) : result ppo :=
  let '(last, (obs, r, done, reset)) := row in
  bl <- match o_bl s with Some bl => Ok bl | None => Err TypeError end ;;
  ep <- match nth_error bl i with Some ep => Ok ep | None => Err IndexError end ;;
  ep <- match last with
        | Some (o, a) =>
            before <- match recurrent with None => Ok None | Some _ => at_ (o_prev s) i end ;;
            after <- match recurrent with None => Ok None | Some _ => at_ (o_train s) i end ;;
            Ok (ep ++ [mkPtr o a r obs (if done then 0%Q else 1%Q) before after 0 0 0 0 0])
        | None => Ok ep
        end ;;
  '(mem, bl) <- (if done || reset then _ <- passert (negb (length ep =? 0)) ;; Ok (o_mem s ++ [ep], list_set bl i []) else Ok (o_mem s, list_set bl i ep)) ;;
  Ok (mkPpo (o_p s) mem (Some bl) (list_set (o_last s) i None) (o_train s) (o_prev s) (o_test s) (o_training s)).
Fixpoint observe_loop (s : ppo) (i : nat) (rows : list (option (Ob * Act) * outcome Ob)) : result ppo :=
  match rows with [] => Ok s | r :: rows => s <- observe_one s i r ;; observe_loop s (S i) rows end.

(** The transitions of the episodes as objects: the k-th transition of the dataset is at address k. *)
Fixpoint addresses (k : nat) (eps : list (list ptr)) : list (list nat) :=
  match eps with [] => [] | ep :: eps => seq k (length ep) :: addresses (k + length ep) eps end.
(** ppo.py:197-244: the episodes with values, log-probabilities, advantages and targets. *)
Definition with_values (p : Pm) (eps : list (list ptr)) : result (list (list ptr)) :=
  let refs := addresses 0 eps in
  heap <- (match recurrent with
           | None => make_values (fun o => fst (cell p o zero)) log_prob (fun o => o) gamma lambd (concat eps) refs
           | Some _ => make_values_recurrent (cell p) zero log_prob (fun o => o) gamma lambd (concat eps) refs
           end) ;;
  rmapM (rmapM (deref heap)) refs.
(** What can be seen of an update: what it was made with, the episodes, and the sequences passed to the update (a feedforward agent gets them put together). *)
Record update := mkUpdate { u_p : Pm; u_episodes : list (list ptr); u_data : list (list ptr) }.

(** ppo.py:407-458 *)
Definition flushed (bl : list (list ptr)) : list (list ptr) := filter (fun ep => negb (length ep =? 0)) bl.
Definition update_if_ready (s : ppo) : result (ppo * option update) :=
  let size := n_transitions (o_mem s) + match o_bl s with None => 0 | Some bl => n_transitions bl end in
  if update_interval <=? size then
    let mem := o_mem s ++ match o_bl s with None => [] | Some bl => flushed bl end in
    eps <- with_values (o_p s) mem ;;
    data <- match recurrent with
            | None => Ok [concat eps]
            | Some None => Ok eps
            | Some (Some m) => limit_sequence_length eps m
            end ;;
    _ <- match recurrent with None => passert (length (concat data) =? size) | Some _ => Ok tt end ;;
    Ok (mkPpo (learn (o_p s) data) [] (option_map (map (fun _ => [])) (o_bl s)) (o_last s) (o_train s) (o_prev s) (o_test s) (o_training s), Some (mkUpdate (o_p s) eps data))
  else Ok (s, None).

(** ppo.py:679-683, 742-810 *)
Definition batch_observe (s : ppo) (l : list (outcome Ob)) : result (ppo * option update) :=
  if o_training s then
    s <- observe_loop s 0 (combine (o_last s) l) ;;
    hs <- match recurrent with None => Ok (o_train s) | Some _ => reset_states zero (map ends l) (o_train s) end ;;
    update_if_ready (mkPpo (o_p s) (o_mem s) (o_bl s) (o_last s) hs None (o_test s) (o_training s))
  else
    hs <- match recurrent with None => Ok (o_test s) | Some _ => reset_states zero (map ends l) (o_test s) end ;;
    Ok (mkPpo (o_p s) (o_mem s) (o_bl s) (o_last s) (o_train s) (o_prev s) hs (o_training s), None).

(** What is done with the agent (Mode: eval_mode begins or ends, agent.py:63-70), and what can be seen of it. *)
Inductive event := Mode (training : bool) | Act_ (obs : list Ob) (sampler : nat -> Dist -> Act) | Observe (l : list (outcome Ob)).
Inductive seen :=
| Switched (training : bool)
| Acted (training : bool) (p : Pm) (obs : list Ob) (ys : list (Dist * Q)) (actions : list Act)
| Observed (training : bool) (l : list (outcome Ob)) (u : option update).
Definition step (s : ppo) (e : event) : result (ppo * seen) :=
  match e with
  | Mode b => Ok (mkPpo (o_p s) (o_mem s) (o_bl s) (o_last s) (o_train s) (o_prev s) (o_test s) b, Switched b)
  | Act_ obs sampler => '(s', ys, actions) <- batch_act s obs sampler ;; Ok (s', Acted (o_training s) (o_p s) obs ys actions)
  | Observe l => '(s', u) <- batch_observe s l ;; Ok (s', Observed (o_training s) l u)
  end.
Fixpoint run (s : ppo) (es : list event) : result (ppo * list seen) :=
  match es with [] => Ok (s, []) | e :: es => '(s, x) <- step s e ;; '(s, xs) <- run s es ;; Ok (s, x :: xs) end.
End Agent.
Arguments ppo : clear implicits. Arguments event : clear implicits. Arguments seen : clear implicits. Arguments update : clear implicits.
