(** Model of a recurrent DQN agent trained in a batch of environments: pfrl/agents/dqn.py:106-129 (_batch_reset_recurrent_states_when_episodes_end), 369-389 (update_from_episodes), 469-602
    (_evaluate_model_and_update_recurrent_states, batch_act, _batch_observe_train, _batch_observe_eval, batch_observe), with the episodic buffer of M_Episodic.

    Simplifications.  A batched recurrent state is None or the list of the states of the environments; that get_recurrent_state_at, mask_recurrent_state_at, recurrent_state_as_numpy and
    one_step_forward act on every environment's own part is C53, C54 and C55.  [cell p obs h] is what the network with parameters p makes of the observation obs in the state h: action values
    and the next state; [zero] is the state of zeros, which torch uses in place of None.  [learn] stands for batch_recurrent_experiences, the loss, backward and the optimizer.
    Statistics are left out. *)
From Coq Require Import QArith.
From Verif Require Import Base M_RandomAccessQueue M_SampleNK M_ReplayBuffer M_Episodic M_Batch M_Train.
Close Scope Q_scope. Open Scope nat_scope.

Section RecDQN.
Context {Ob Ac AV H Pm Op : Type}.
Context (cell : Pm -> Ob -> H -> AV * H) (zero : H) (greedy : AV -> Ac).

(** The entries of a stored transition, without next_action (None) and is_state_terminal (kept by [trans]). *)
Record rec := mkRec { r_state : Ob; r_action : Ac; r_reward : Q; r_next : Ob; r_before : option H; r_after : option H }.

Context (U : updater) (target_update_interval fuel : nat).
Context (learn : Pm -> Pm -> Op -> list (list (trans rec)) -> Pm * Op) (sync : Pm -> Pm -> Pm) (draws : nat -> oracle * (nat -> nat -> nat)).

(** dqn.py:207-268: the attributes; [q_last] is batch_last_obs with batch_last_action; [q_training] is set by eval_mode (agent.py:63-70). *)
Record rdqn := mkRdqn {
  q_model : Pm; q_target : Pm; q_opt : Op; q_t : nat; q_optim_t : nat; q_buf : ebuf rec; q_last : list (option (Ob * Ac));
  q_train : option (list H); q_prev : option (list H); q_test : option (list H); q_training : bool }.
Definition rdqn_init (p : Pm) (o : Op) (b : ebuf rec) : rdqn := mkRdqn p p o 0 0 b [] None None None true.

(** one_step_forward(model, xs, states): RuntimeError if the numbers of observations and states differ. *)
Definition unzip {X Y} (l : list (X * Y)) : list X * list Y := (map fst l, map snd l).
Definition forward (p : Pm) (obs : list Ob) (hs : option (list H)) : result (list AV * list H) :=
  match hs with
  | None => Ok (unzip (map (fun o => cell p o zero) obs))
  | Some hs => if length obs =? length hs then Ok (unzip (map (fun oh => cell p (fst oh) (snd oh)) (combine obs hs))) else Err RuntimeError
  end.
(** get_recurrent_state_at(states, i) *)
Definition at_ (hs : option (list H)) (i : nat) : result (option H) :=
  match hs with None => Ok None | Some hs => match nth_error hs i with Some h => Ok (Some h) | None => Err IndexError end end.
(** 119-129; [ends]: done or reset. *)
Definition ended_indices (ends : list bool) : list nat := filter (fun i => nth i ends false) (seq 0 (length ends)).
Definition reset_states (ends : list bool) (hs : option (list H)) : result (option (list H)) :=
  match ended_indices ends, hs with
  | [], _ => Ok hs
  | _, None => Ok None
  | l, Some hs => if forallb (fun i => i <? length hs) l then Ok (Some (map (fun ih => if existsb (Nat.eqb (fst ih)) l then zero else snd ih) (combine (seq 0 (length hs)) hs))) else Err IndexError
  end.

(** 490-507 with 473-488: [explorer i t av] is the explorer's choice for the i-th environment.  Also returns the action values. *)
Definition batch_act (s : rdqn) (obs : list Ob) (explorer : nat -> nat -> AV -> Ac) : result (rdqn * list AV * list Ac) :=
  '(avs, hs) <- forward (q_model s) obs (if q_training s then q_train s else q_test s) ;;
  if q_training s then
    let actions := map (fun ia => explorer (fst ia) (q_t s) (snd ia)) (combine (seq 0 (length avs)) avs) in
    Ok (mkRdqn (q_model s) (q_target s) (q_opt s) (q_t s) (q_optim_t s) (q_buf s) (map Some (combine obs actions)) (Some hs) (q_train s) (q_test s) true, avs, actions)
  else Ok (mkRdqn (q_model s) (q_target s) (q_opt s) (q_t s) (q_optim_t s) (q_buf s) (q_last s) (q_train s) (q_prev s) (Some hs) false, avs, map greedy avs).

(** replay_buffer.sample_episodes and 369-389 *)
Definition sample_episodes (s : rdqn) (n : nat) (len : option nat) : result (rdqn * list (list (trans rec))) :=
  let (o, offs) := draws (q_optim_t s) in eps <- eb_sample_episodes fuel o offs (q_buf s) n len ;; Ok (s, eps).
Definition update_from_episodes (s : rdqn) (eps : list (list (trans rec))) : result rdqn :=
  let (p, o) := learn (q_model s) (q_target s) (q_opt s) eps in
  Ok (mkRdqn p (q_target s) o (q_t s) (S (q_optim_t s)) (q_buf s) (q_last s) (q_train s) (q_prev s) (q_test s) (q_training s)).

(** 516-549: the iteration of the loop for the i-th environment; also returns the minibatches learned from. *)
Definition observe_one (s : rdqn) (i : nat) (obs : Ob) (r : Q) (done reset : bool) : result (rdqn * list (list (list (trans rec)))) :=
  let t := S (q_t s) in
  tgt <- (if target_update_interval =? 0 then Err ZeroDivisionError else Ok (if t mod target_update_interval =? 0 then sync (q_model s) (q_target s) else q_target s)) ;;
  l <- (match nth_error (q_last s) i with Some l => Ok l | None => Err IndexError end) ;;
  '(buf, last) <-
    match l with
    | Some (o, a) =>
        before <- at_ (q_prev s) i ;; after <- at_ (q_train s) i ;;
        b1 <- eb_append (q_buf s) i (mkTrans (mkRec o a r obs before after) done) ;;
        if reset || done then b2 <- eb_stop b1 i ;; Ok (b2, list_set (q_last s) i None) else Ok (b1, q_last s)
    | None => Ok (q_buf s, q_last s)
    end ;;
  let s1 := mkRdqn (q_model s) tgt (q_opt s) t (q_optim_t s) buf last (q_train s) (q_prev s) (q_test s) (q_training s) in
  '(_, s2, batches) <- update_if_necessary (fun s => raq_len (e_memory (q_buf s))) (fun s => raq_len (episodic_memory (q_buf s))) (fun _ _ => Err TypeError) sample_episodes update_from_episodes U s1 t ;;
  Ok (s2, batches).
(** What an environment returned and whether its episode ends: observation, reward, done, reset. *)
Definition outcome : Type := (Ob * Q * bool * bool)%type.
Definition ends (x : outcome) : bool := let '(_, _, d, e) := x in d || e.
Fixpoint observe_all (s : rdqn) (i : nat) (l : list outcome) : result (rdqn * list (list (list (trans rec)))) :=
  match l with
  | [] => Ok (s, [])
  | (obs, r, done, reset) :: l => '(s, b) <- observe_one s i obs r done reset ;; '(s, bs) <- observe_all s (S i) l ;; Ok (s, b ++ bs)
  end.
(** 509-592 *)
Definition batch_observe (s : rdqn) (l : list outcome) : result (rdqn * list (list (list (trans rec)))) :=
  if q_training s then
    '(s, bs) <- observe_all s 0 l ;;
    hs <- reset_states (map ends l) (q_train s) ;;
    Ok (mkRdqn (q_model s) (q_target s) (q_opt s) (q_t s) (q_optim_t s) (q_buf s) (q_last s) hs None (q_test s) true, bs)
  else
    hs <- reset_states (map ends l) (q_test s) ;;
    Ok (mkRdqn (q_model s) (q_target s) (q_opt s) (q_t s) (q_optim_t s) (q_buf s) (q_last s) (q_train s) (q_prev s) hs false, []).

(** What is done with the agent, and what can be seen of it: the parameters it acts with, the action values it computes, its actions, the minibatches it learns from. *)
Inductive event := Mode (training : bool) | Act (obs : list Ob) (explorer : nat -> nat -> AV -> Ac) | Observe (l : list outcome).
Inductive seen :=
| Switched (training : bool)
| Acted (training : bool) (p : Pm) (obs : list Ob) (avs : list AV) (actions : list Ac)
| Observed (training : bool) (l : list outcome) (learned : list (list (list (trans rec)))).
Definition step (s : rdqn) (e : event) : result (rdqn * seen) :=
  match e with
  | Mode b => Ok (mkRdqn (q_model s) (q_target s) (q_opt s) (q_t s) (q_optim_t s) (q_buf s) (q_last s) (q_train s) (q_prev s) (q_test s) b, Switched b)
  | Act obs explorer => '(s', avs, actions) <- batch_act s obs explorer ;; Ok (s', Acted (q_training s) (q_model s) obs avs actions)
  | Observe l => '(s', bs) <- batch_observe s l ;; Ok (s', Observed (q_training s) l bs)
  end.
Fixpoint run (s : rdqn) (es : list event) : result (rdqn * list seen) :=
  match es with
  | [] => Ok (s, [])
  | e :: es => '(s, x) <- step s e ;; '(s, xs) <- run s es ;; Ok (s, x :: xs)
  end.
End RecDQN.
Arguments rec : clear implicits. Arguments rdqn : clear implicits. Arguments outcome : clear implicits. Arguments event : clear implicits. Arguments seen : clear implicits.

(** The agent in train_agent.py:15-111 (M_Train), with one environment: [e_reset0] and [e_step0] of an environment that does not raise.  agent.py:157-165: act and observe of a BatchAgent are
    batch_act and batch_observe of one-element lists.  Without hooks and evaluator. *)
Section Train.
Context {Ob Ac AV H Pm Op E : Type}.
Context (cell : Pm -> Ob -> H -> AV * H) (zero : H) (greedy : AV -> Ac) (U : updater) (target_update_interval fuel : nat).
Context (learn : Pm -> Pm -> Op -> list (list (trans (rec Ob Ac H))) -> Pm * Op) (sync : Pm -> Pm -> Pm) (draws : nat -> oracle * (nat -> nat -> nat)).
Context (e_reset0 : E -> E * Ob) (e_step0 : Ac -> E -> E * outcome Ob) (explorer : nat -> nat -> AV -> Ac).
(** The environment, the agent, and what could be seen of it. *)
Definition rworld : Type := E * rdqn Ob Ac H Pm Op * list (seen Ob Ac AV H Pm).
Definition rstep (e : event Ob Ac AV) (w : rworld) : rworld * result unit :=
  match step cell zero greedy U target_update_interval fuel learn sync draws (snd (fst w)) e with
  | Ok (s, x) => ((fst (fst w), s, snd w ++ [x]), Ok tt)
  | Err x => (w, Err x)
  end.
Definition ruser : userland rworld Ob Ac := {|
  env_reset := fun w => let (v, o) := e_reset0 (fst (fst w)) in ((v, snd (fst w), snd w), Ok o);
  agent_act := fun obs w => let (w', r) := rstep (Act [obs] explorer) w in
    (w', _ <- r ;; match rev (snd w') with Acted _ _ _ _ [a] :: _ => Ok a | _ => Err IndexError end);
  env_step := fun a w => let (v, y) := e_step0 a (fst (fst w)) in ((v, snd (fst w), snd w), Ok y);
  agent_observe := fun obs r done reset w => rstep (Observe [(obs, r, done, reset)]) w;
  step_hooks := []; evaluator := None; max_score := fun _ => 0%Q; agent_has_t := true |}.
(** One call of train_agent; train_agent.py:43-45: agent.t = step_offset. *)
Definition rtrain (P : train_args) (w : rworld) : rworld * result (list Q) :=
  let s := snd (fst w) in
  let s := mkRdqn (q_model s) (q_target s) (q_opt s) (a_offset P) (q_optim_t s) (q_buf s) (q_last s) (q_train s) (q_prev s) (q_test s) (q_training s) in
  let '(w', _, r) := train_agent ruser P ((fst (fst w), s, snd w), 0) in (fst w', r).
End Train.
