(** Specification for C18, C19: projections of the record of an asynchronous run. *)
From Verif Require Import Base M_Train M_Async S_Train.
Open Scope nat_scope.

(** The global step numbers obtained, with the process that obtained them, in order. *)
Definition obtained (tr : list (nat * aev)) : list (nat * nat) :=
  flat_map (fun '(i, e) => match e with AGot t => [(i, t)] | _ => [] end) tr.
Definition obtained_by (i : nat) (tr : list (nat * aev)) : list nat := map snd (filter (fun '(j, _) => j =? i) (obtained tr)).
(** Processes that saved the final agent. *)
Definition finishers (tr : list (nat * aev)) : list nat :=
  flat_map (fun '(i, e) => match e with AUser (ESave _ Finish) => [i] | _ => [] end) tr.
(** Hook calls: hook number and step number. *)
Definition ahook_calls (i : nat) (tr : list (nat * aev)) : list (nat * nat) :=
  flat_map (fun '(j, e) => match e with AUser (EHook h t) => if j =? i then [(t, h)] else [] | _ => [] end) tr.
(** What environment and agent of process [i] see: the calls of that process, without the evaluations. *)
Definition aview (i : nat) (tr : list (nat * aev)) : list ev :=
  flat_map (fun '(j, e) => if j =? i then match e with AUser (EEval _ _ _) => [] | AUser u => [u] | _ => [] end else []) tr.
Definition returned (k : worker) : Prop := wk_pc k = PcDone.
Definition protocol_args (P : async_args) : train_args := mkArgs (as_steps P) 0 None (as_max_episode_len P) (as_successful P) false.
