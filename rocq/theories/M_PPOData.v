(** Model of pfrl/agents/ppo.py:58-142 (and trpo.py, which imports the same functions): the values and log-probabilities a dataset is made
    with, and of the recurrent states stored while acting (ppo.py:706-810).
    The feedforward model is a function of one (preprocessed, normalised) state.  A recurrent model is a step function; torch runs it over
    the sequences of a pack separately, each from its own initial state, and returns the outputs in packed order.
    Transitions are Python dicts, changed in place: [heap] holds them, episodes are lists of references. *)
From Coq Require Import QArith.
From Verif Require Import Base M_Batch M_Recurrent M_PPO.
Close Scope Q_scope.

Section Data.
Context {Ob Act F Dist HS : Type}.
Record ptr := mkPtr { p_state : Ob; p_action : Act; p_reward : Q; p_next_state : Ob; p_nonterminal : Q; p_rs : option HS; p_nrs : option HS;
  p_log_prob : Q; p_v : Q; p_next_v : Q; p_adv : Q; p_teacher : Q }.

(** Values the keys get: ppo.py:104-107, 140-142. *)
Definition annotate (x : ptr) (lp v nv : Q) : ptr :=
  mkPtr (p_state x) (p_action x) (p_reward x) (p_next_state x) (p_nonterminal x) (p_rs x) (p_nrs x) lp v nv (p_adv x) (p_teacher x).
Definition deref (heap : list ptr) (a : nat) : result ptr := match nth_error heap a with Some x => Ok x | None => Err IndexError end.

(** for transition, log_prob, v, next_v in zip(...): ppo.py:101-107, 137-142 *)
Fixpoint write_all (heap : list ptr) (rows : list (nat * (Q * (Q * Q)))) : list ptr :=
  match rows with
  | [] => heap
  | (a, (lp, (v, nv))) :: rows =>
      write_all (match nth_error heap a with Some x => list_set heap a (annotate x lp v nv) | None => heap end) rows
  end.

(** ppo.py:110-142 _add_log_prob_and_value_to_episodes.  [feat]: phi, batch_states and obs_normalizer(update=False) on one state. *)
Definition add_values (model : F -> Dist * Q) (log_prob : Dist -> Act -> Q) (feat : Ob -> F) (heap : list ptr) (eps : list (list nat)) :
  result (list ptr) :=
  let dataset := concat eps in
  trs <- rmapM (deref heap) dataset ;;
  let outs := map (fun x => model (feat (p_state x))) trs in
  let nouts := map (fun x => model (feat (p_next_state x))) trs in
  let lps := map (fun q => log_prob (fst (fst q)) (snd q)) (combine outs (map p_action trs)) in
  Ok (write_all heap (combine dataset (combine lps (combine (map snd outs) (map snd nouts))))).

(** A recurrent model on one sequence; None is the zero state (torch, when no state is given; with the states of other sequences,
    concatenate_recurrent_states puts zeros: C53). *)
Fixpoint rnn_run (step : F -> HS -> (Dist * Q) * HS) (h : HS) (xs : list F) : list (Dist * Q) :=
  match xs with [] => [] | x :: xs => let (y, h') := step x h in y :: rnn_run step h' xs end.
Definition hid (h0 : HS) (o : option HS) : HS := match o with Some h => h | None => h0 end.
(** utils/recurrent.py:159-174 pack_and_forward *)
Definition pack_and_forward (step : F -> HS -> (Dist * Q) * HS) (h0 : HS) (seqs : list (list F)) (rs : list (option HS)) : result (list (Dist * Q)) :=
  _ <- torch_pack seqs ;;
  p <- torch_pack (map (fun q => rnn_run step (hid h0 (fst q)) (snd q)) (combine rs seqs)) ;; Ok (p_data p).

(** sorted(episodes, key=len, reverse=True): stable, also with reverse *)
Fixpoint insert_desc {X} (x : list X) (l : list (list X)) : list (list X) :=
  match l with [] => [x] | y :: t => if length y <=? length x then x :: y :: t else y :: insert_desc x t end.
Definition sort_desc {X} (l : list (list X)) : list (list X) := fold_right insert_desc [] l.

(** ppo.py:58-107 _add_log_prob_and_value_to_episodes_recurrent *)
Definition add_values_recurrent (step : F -> HS -> (Dist * Q) * HS) (h0 : HS) (log_prob : Dist -> Act -> Q) (feat : Ob -> F)
  (heap : list ptr) (eps : list (list nat)) : result (list ptr) :=
  let eps := sort_desc eps in
  trs <- rmapM (rmapM (deref heap)) eps ;;
  let flat := flatten_sequences_time_first (map (map Some) eps) in
  flat_trs <- rmapM (deref heap) flat ;;
  rs <- rmapM (fun ep => x <- py_get ep 0 ;; Ok (p_rs x)) trs ;;
  nrs <- rmapM (fun ep => x <- py_get ep 0 ;; Ok (p_nrs x)) trs ;;
  outs <- pack_and_forward step h0 (map (map (fun x => feat (p_state x))) trs) rs ;;
  nouts <- pack_and_forward step h0 (map (map (fun x => feat (p_next_state x))) trs) nrs ;;
  let lps := map (fun q => log_prob (fst (fst q)) (snd q)) (combine outs (map p_action flat_trs)) in
  Ok (write_all heap (combine flat (combine lps (combine (map snd outs) (map snd nouts))))).

(** ppo.py:36-56 on the heap: the advantages and targets computed by M_PPO.gae, written in place. *)
Definition gae_of (x : ptr) : gae_in := {| g_reward := p_reward x; g_nonterminal := p_nonterminal x; g_v := p_v x; g_next_v := p_next_v x |}.
Definition with_adv (x : ptr) (q : Q * Q) : ptr :=
  mkPtr (p_state x) (p_action x) (p_reward x) (p_next_state x) (p_nonterminal x) (p_rs x) (p_nrs x) (p_log_prob x) (p_v x) (p_next_v x) (fst q) (snd q).
Fixpoint write_adv (heap : list ptr) (rows : list (nat * (Q * Q))) : list ptr :=
  match rows with
  | [] => heap
  | (a, q) :: rows => write_adv (match nth_error heap a with Some x => list_set heap a (with_adv x q) | None => heap end) rows
  end.
Fixpoint add_advantages (gamma lambd : Q) (heap : list ptr) (eps : list (list nat)) : result (list ptr) :=
  match eps with
  | [] => Ok heap
  | ep :: eps =>
      trs <- rmapM (deref heap) ep ;;
      add_advantages gamma lambd (write_adv heap (combine ep (gae gamma lambd (map gae_of trs)))) eps
  end.

(** ppo.py:229-244 _make_dataset and 197-226 _make_dataset_recurrent, as far as the values of the keys go. *)
Definition make_values (model : F -> Dist * Q) log_prob feat (gamma lambd : Q) heap eps : result (list ptr) :=
  heap <- add_values model log_prob feat heap eps ;; add_advantages gamma lambd heap eps.
Definition make_values_recurrent step h0 log_prob (feat : Ob -> F) (gamma lambd : Q) heap eps : result (list ptr) :=
  heap <- add_values_recurrent step h0 log_prob feat heap eps ;; add_advantages gamma lambd heap eps.

(** The recurrent part of _batch_act_train (706-740) followed by _batch_observe_train (756-808) for one round: for every environment the
    states stored in its transition (recurrent_state, next_recurrent_state) and the states carried on; those of ended environments are
    masked with zeros.  [st]: train_recurrent_states, None before the first act. *)
Definition act_round (step : F -> HS -> (Dist * Q) * HS) (h0 : HS) (feat : Ob -> F) (st : option (list HS)) (obs : list Ob) (ended : list bool) :
  list (option HS * HS) * option (list HS) :=
  let prev := match st with None => map (fun _ => None) obs | Some l => map Some l end in
  let next := map (fun q => snd (step (feat (fst q)) (hid h0 (snd q)))) (combine obs prev) in
  (combine prev next, Some (map (fun q => if snd q : bool then h0 else fst q) (combine next ended))).
Fixpoint act_rounds (step : F -> HS -> (Dist * Q) * HS) (h0 : HS) (feat : Ob -> F) (st : option (list HS)) (rounds : list (list Ob * list bool)) :
  list (list (option HS * HS)) :=
  match rounds with
  | [] => []
  | (obs, ended) :: rounds => let (stored, st') := act_round step h0 feat st obs ended in stored :: act_rounds step h0 feat st' rounds
  end.

(** ppo.py:484-492, 519-527 (_update): what the loss is given for one transition of a minibatch: the new and the stored log-probability
    and value.  [feat']: as [feat], but with the statistics of obs_normalizer after _update_obs_normalizer (470-471). *)
Definition loss_inputs (model : F -> Dist * Q) (log_prob : Dist -> Act -> Q) (feat' : Ob -> F) (x : ptr) : (Q * Q) * (Q * Q) :=
  let y := model (feat' (p_state x)) in ((log_prob (fst y) (p_action x), p_log_prob x), (snd y, p_v x)).
(** ppo.py:540-604 (_update_once_recurrent) for one sequence of the minibatch (the order is that of pack_and_forward, as above). *)
Definition loss_inputs_recurrent (step : F -> HS -> (Dist * Q) * HS) (h0 : HS) (log_prob : Dist -> Act -> Q) (feat' : Ob -> F) (seq : list ptr) :
  list ((Q * Q) * (Q * Q)) :=
  match seq with
  | [] => []
  | x0 :: _ => map (fun q => ((log_prob (fst (fst q)) (p_action (snd q)), p_log_prob (snd q)), (snd (fst q), p_v (snd q))))
                   (combine (rnn_run step (hid h0 (p_rs x0)) (map (fun x => feat' (p_state x)) seq)) seq)
  end.
End Data.
Arguments ptr : clear implicits.
