(** Model of one ACER worker: pfrl/agents/acer.py 307-830.
    As in M_A3C.v: the network is an oracle; gradient, clipping and optimizer step are the oracle [opt]; [soft] is soft_copy_param with
    tau = 1 - trust_region_alpha (modelled in M_CopyParam.v); other workers write the shared and the average parameters between two calls.
    What the network outputs for one step (distribution, action value, state value) is named by what it is computed from: parameters, recurrent
    state, observation ([ctx]).  The replay buffer is the EpisodicReplayBuffer of M_Episodic.v.  Not modelled here: the loss itself
    (M_AcerLoss.v, M_AcerKL.v), phi/batch_states, assert_shared_memory, statistics. *)
From Coq Require Import QArith.
From Verif Require Import Base M_RandomAccessQueue M_SampleNK M_ReplayBuffer M_Episodic M_A3C.
Open Scope nat_scope.

Section Acer.
  Context {Ob Act P RS : Type}.
  Notation net := (net Ob P RS).

  Record ctx := { x_params : P; x_rs : option RS; x_obs : Ob }.
  (** A transition in the replay buffer; is_state_terminal is the [terminal] mark of [trans].  [b_mu] is the copied distribution. *)
  Record btr := { b_state : Ob; b_action : Act; b_reward : Q; b_next : Ob; b_mu : ctx }.
  Record acfg := { a_t_max : nat; a_recurrent : bool; disable_online_update : bool; n_times_replay : nat; replay_start_size : nat }.

  (** The arguments of update (554-592), the dicts as lists over range(t_start, t_stop). *)
  Record aupd := { u_R : Q; u_acts : list Act; u_rewards : list Q; u_values : list ctx; u_action_values : list ctx; u_distribs : list ctx;
                   u_mus : option (list ctx); u_avgs : list ctx }.

  Record ast := {
    a_training : bool; a_t : nat; a_t_start : nat;
    past_actions : dict Act; a_past_rewards : dict Q; past_values : dict ctx; past_action_distrib : dict ctx;
    past_action_values : dict ctx; past_avg_action_distrib : dict ctx;
    last_state : option Ob; last_action : option Act; last_action_distrib : option ctx;
    a_train_rs : option RS; a_shared_rs : option RS; a_test_rs : option RS;
    a_model : P; a_shared : P; a_average : P; replay : option (ebuf btr) }.

  (* 307-385 *)
  Definition a_init (p : P) (buf : option (ebuf btr)) : ast :=
    {| a_training := true; a_t := 0; a_t_start := 0; past_actions := []; a_past_rewards := []; past_values := []; past_action_distrib := [];
       past_action_values := []; past_avg_action_distrib := []; last_state := None; last_action := None; last_action_distrib := None;
       a_train_rs := None; a_shared_rs := None; a_test_rs := None; a_model := p; a_shared := p; a_average := p; replay := buf |}.

  (* 587-592: optimizer step on the shared model, then sync_parameters (396-402) *)
  Definition learn (opt : P -> aupd -> P) (soft : P -> P -> P) (u : aupd) (s : ast) : ast :=
    let shared := opt (a_shared s) u in
    {| a_training := a_training s; a_t := a_t s; a_t_start := a_t_start s; past_actions := past_actions s; a_past_rewards := a_past_rewards s;
       past_values := past_values s; past_action_distrib := past_action_distrib s; past_action_values := past_action_values s;
       past_avg_action_distrib := past_avg_action_distrib s; last_state := last_state s; last_action := last_action s;
       last_action_distrib := last_action_distrib s; a_train_rs := a_train_rs s; a_shared_rs := a_shared_rs s; a_test_rs := a_test_rs s;
       a_model := shared; a_shared := shared; a_average := soft (a_average s) shared; replay := replay s |}.

  (** One output of the network at each state of an episode, from the empty recurrent state (611-629); also the state reached. *)
  Definition forward_all (N : net) (rec : bool) (p : P) (obs : list Ob) : list ctx :=
    map (fun x => {| x_params := p; x_rs := fst x; x_obs := snd x |}) (if rec then unroll N p None obs else map (fun o => (None, o)) obs).
  Definition state_after (N : net) (rec : bool) (p : P) (obs : list Ob) : option RS :=
    if rec then fold_left (fun rs o => Some (advance N p rs o)) obs None else None.

  (* 594-666; [o] and [offs] are the random choices of sample_episodes.  The dicts built at 602-637 have the keys 0 .. len(episode)-1. *)
  Definition update_from_replay (N : net) (opt : P -> aupd -> P) (soft : P -> P -> P) (c : acfg)
      (o : nat -> oracle) (offs : nat -> nat -> nat) (s : ast) : result (ast * option aupd) :=
    match replay s with
    | None => Ok (s, None)
    | Some b =>
      if raq_len (e_memory b) <? replay_start_size c then Ok (s, None) else
      eps <- eb_sample_episodes 1 (o (raq_len (episodic_memory b))) offs b 1 (Some (a_t_max c)) ;;
      episode <- py_get eps 0 ;;
      let obs := map (fun x => b_state (payload x)) episode in
      let outs := forward_all N (a_recurrent c) (a_model s) obs in
      last <- py_get episode (-1) ;;
      let R := if terminal last then 0%Q
               else value N (a_model s) (state_after N (a_recurrent c) (a_model s) obs) (b_next (payload last)) in
      let u := {| u_R := R; u_acts := map (fun x => b_action (payload x)) episode; u_rewards := map (fun x => b_reward (payload x)) episode;
                  u_values := outs; u_action_values := outs; u_distribs := outs; u_mus := Some (map (fun x => b_mu (payload x)) episode);
                  u_avgs := forward_all N (a_recurrent c) (a_average s) obs |} in
      Ok (learn opt soft u s, Some u)
    end.

  (* 668-699 *)
  Definition update_on_policy (N : net) (opt : P -> aupd -> P) (soft : P -> P -> P) (c : acfg) (statevar : option Ob) (s : ast) : result (ast * option aupd) :=
    _ <- passert (a_t_start s <? a_t s) ;;
    '(s, u) <- (if disable_online_update c then Ok (s, None)
                else
                  let R := match statevar with None => 0%Q | Some o => value N (a_model s) (if a_recurrent c then a_train_rs s else None) o end in
                  let is := range (a_t_start s) (a_t s) in
                  acts <- dgets (past_actions s) is ;; rewards <- dgets (a_past_rewards s) is ;; values <- dgets (past_values s) is ;;
                  qs <- dgets (past_action_values s) is ;; ds <- dgets (past_action_distrib s) is ;; avgs <- dgets (past_avg_action_distrib s) is ;;
                  let u := {| u_R := R; u_acts := acts; u_rewards := rewards; u_values := values; u_action_values := qs; u_distribs := ds; u_mus := None; u_avgs := avgs |} in
                  Ok (learn opt soft u s, Some u)) ;;
    (* 387-394, 697-699 *)
    Ok ({| a_training := a_training s; a_t := a_t s; a_t_start := a_t s; past_actions := []; a_past_rewards := []; past_values := []; past_action_distrib := [];
           past_action_values := []; past_avg_action_distrib := []; last_state := last_state s; last_action := last_action s;
           last_action_distrib := last_action_distrib s; a_train_rs := a_train_rs s; a_shared_rs := a_shared_rs s; a_test_rs := a_test_rs s;
           a_model := a_model s; a_shared := a_shared s; a_average := a_average s; replay := replay s |}, u).

  (* 805-806 *)
  Fixpoint replays (N : net) (opt : P -> aupd -> P) (soft : P -> P -> P) (c : acfg) (draws : list ((nat -> oracle) * (nat -> nat -> nat))) (s : ast) : result (ast * list aupd) :=
    match draws with
    | [] => Ok (s, [])
    | (o, offs) :: draws =>
      '(s, u) <- update_from_replay N opt soft c o offs s ;;
      '(s, us) <- replays N opt soft c draws s ;;
      Ok (s, match u with Some u => u :: us | None => us end)
    end.

  (** What a call lets out: what the returned action was sampled from; the online update and the updates from replayed episodes. *)
  Inductive aout :=
  | ANothing
  | AChose (x : ctx)
  | AObserved (online : option aupd) (replayed : list aupd).

  (* 713-757; [a] is the sampled action *)
  Definition a_act_train (N : net) (c : acfg) (o : Ob) (a : Act) (s : ast) : ast * aout :=
    let x := {| x_params := a_model s; x_rs := if a_recurrent c then a_train_rs s else None; x_obs := o |} in
    let avg := {| x_params := a_average s; x_rs := if a_recurrent c then a_shared_rs s else None; x_obs := o |} in
    ({| a_training := a_training s; a_t := a_t s; a_t_start := a_t_start s; past_actions := dset (past_actions s) (a_t s) a; a_past_rewards := a_past_rewards s;
        past_values := dset (past_values s) (a_t s) x; past_action_distrib := dset (past_action_distrib s) (a_t s) x;
        past_action_values := dset (past_action_values s) (a_t s) x; past_avg_action_distrib := dset (past_avg_action_distrib s) (a_t s) avg;
        last_state := Some o; last_action := Some a; last_action_distrib := Some x;
        a_train_rs := if a_recurrent c then Some (advance N (a_model s) (a_train_rs s) o) else a_train_rs s;
        a_shared_rs := if a_recurrent c then Some (advance N (a_average s) (a_shared_rs s) o) else a_shared_rs s;
        a_test_rs := a_test_rs s; a_model := a_model s; a_shared := a_shared s; a_average := a_average s; replay := replay s |}, AChose x).

  (* 778-789.  append is called with mu = last_action_distrib; 788 stops the episode (append already did if done) *)
  Definition store (o : Ob) (r : Q) (done reset : bool) (b : ebuf btr) (ls : Ob) (la : Act) (mu : ctx) : result (ebuf btr) :=
    b <- eb_append b 0 (mkTrans {| b_state := ls; b_action := la; b_reward := r; b_next := o; b_mu := mu |} done) ;;
    if done || reset then eb_stop b 0 else Ok b.

  (* 774-815.  [draws]: the random choices of the replays, one pair per round *)
  Definition a_observe_train (N : net) (opt : P -> aupd -> P) (soft : P -> P -> P) (c : acfg)
      (o : Ob) (r : Q) (done reset : bool) (draws : list ((nat -> oracle) * (nat -> nat -> nat))) (s : ast) : result (ast * aout) :=
    match last_state s, last_action s with
    | Some ls, Some la =>
      buf <- (match replay s with
              | None => Ok None
              | Some b => match last_action_distrib s with
                          | Some mu => rmap Some (store o r done reset b ls la mu)
                          | None => Err AttributeError
                          end
              end) ;;
      let s := {| a_training := a_training s; a_t := S (a_t s); a_t_start := a_t_start s; past_actions := past_actions s;
                  a_past_rewards := dset (a_past_rewards s) (a_t s) r;
                  past_values := past_values s; past_action_distrib := past_action_distrib s; past_action_values := past_action_values s;
                  past_avg_action_distrib := past_avg_action_distrib s; last_state := last_state s; last_action := last_action s;
                  last_action_distrib := last_action_distrib s; a_train_rs := a_train_rs s; a_shared_rs := a_shared_rs s; a_test_rs := a_test_rs s;
                  a_model := a_model s; a_shared := a_shared s; a_average := a_average s; replay := buf |} in
      '(s, ou) <- (if (a_t s - a_t_start s =? a_t_max c) || done || reset
                   then '(s, u) <- update_on_policy N opt soft c (if done then None else Some o) s ;;
                        '(s, us) <- replays N opt soft c (firstn (n_times_replay c) draws) s ;;
                        Ok (s, AObserved u us)
                   else Ok (s, AObserved None [])) ;;
      Ok ({| a_training := a_training s; a_t := a_t s; a_t_start := a_t_start s; past_actions := past_actions s; a_past_rewards := a_past_rewards s;
             past_values := past_values s; past_action_distrib := past_action_distrib s; past_action_values := past_action_values s;
             past_avg_action_distrib := past_avg_action_distrib s; last_state := None; last_action := None; last_action_distrib := None;
             a_train_rs := if done || reset then None else a_train_rs s; a_shared_rs := if done || reset then None else a_shared_rs s; a_test_rs := a_test_rs s;
             a_model := a_model s; a_shared := a_shared s; a_average := a_average s; replay := replay s |}, ou)
    | _, _ => Err AssertionError
    end.

  Definition set_a_test_rs (rs : option RS) (s : ast) : ast :=
    {| a_training := a_training s; a_t := a_t s; a_t_start := a_t_start s; past_actions := past_actions s; a_past_rewards := a_past_rewards s;
       past_values := past_values s; past_action_distrib := past_action_distrib s; past_action_values := past_action_values s;
       past_avg_action_distrib := past_avg_action_distrib s; last_state := last_state s; last_action := last_action s;
       last_action_distrib := last_action_distrib s; a_train_rs := a_train_rs s; a_shared_rs := a_shared_rs s; a_test_rs := rs;
       a_model := a_model s; a_shared := a_shared s; a_average := a_average s; replay := replay s |}.
  Definition set_params (training : bool) (model shared average : P) (s : ast) : ast :=
    {| a_training := training; a_t := a_t s; a_t_start := a_t_start s; past_actions := past_actions s; a_past_rewards := a_past_rewards s;
       past_values := past_values s; past_action_distrib := past_action_distrib s; past_action_values := past_action_values s;
       past_avg_action_distrib := past_avg_action_distrib s; last_state := last_state s; last_action := last_action s;
       last_action_distrib := last_action_distrib s; a_train_rs := a_train_rs s; a_shared_rs := a_shared_rs s; a_test_rs := a_test_rs s;
       a_model := model; a_shared := shared; a_average := average; replay := replay s |}.

  Inductive aev :=
  | ASetTraining (b : bool)
  | AAct (o : Ob) (a : Act)
  | AObserve (o : Ob) (r : Q) (done reset : bool) (draws : list ((nat -> oracle) * (nat -> nat -> nat)))
  | AOthers (shared average : P)
  | ALoad (p : P).   (* 821-823: the model is read from a file, then copied to the shared model *)

  (* 701-711, 759-772, 817-823 *)
  Definition a_step (N : net) (opt : P -> aupd -> P) (soft : P -> P -> P) (c : acfg) (s : ast) (e : aev) : result (ast * aout) :=
    match e with
    | ASetTraining b => Ok (set_params b (a_model s) (a_shared s) (a_average s) s, ANothing)
    | AAct o a =>
      if a_training s then Ok (a_act_train N c o a s)
      else Ok (if a_recurrent c then set_a_test_rs (Some (advance N (a_model s) (a_test_rs s) o)) s else s,
               AChose {| x_params := a_model s; x_rs := if a_recurrent c then a_test_rs s else None; x_obs := o |})
    | AObserve o r d z draws =>
      if a_training s then a_observe_train N opt soft c o r d z draws s
      else Ok (if d || z then set_a_test_rs None s else s, ANothing)
    | AOthers sh av => Ok (set_params (a_training s) (a_model s) sh av s, ANothing)
    | ALoad p => Ok (set_params (a_training s) p p (a_average s) s, ANothing)
    end.

  Fixpoint a_runs (N : net) (opt : P -> aupd -> P) (soft : P -> P -> P) (c : acfg) (s : ast) (es : list aev) : result (ast * list aout) :=
    match es with
    | [] => Ok (s, [])
    | e :: es => '(s, o) <- a_step N opt soft c s e ;; '(s, os) <- a_runs N opt soft c s es ;; Ok (s, o :: os)
    end.
End Acer.
Arguments ctx : clear implicits.
Arguments btr : clear implicits.
Arguments aupd : clear implicits.
Arguments ast : clear implicits.
Arguments aout : clear implicits.
Arguments aev : clear implicits.
