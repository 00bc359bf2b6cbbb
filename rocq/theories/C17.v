(** C17: train_agent_batch. *)
From Verif Require Import Base M_Train S_Train P_TrainBatch.

(** Whatever the user code does, with at least one environment and a vectorized environment that answers for every member: if
    train_agent_batch returns it made n >= 1 iterations, each advancing the counter by the number of environments, and n is the
    least number of iterations reaching [steps] (unless an evaluation reached the successful score); every hook was called for
    every step number in order; checkpoints were saved at exactly the multiples of the frequency, followed by one final
    snapshot; if user code raised there is one "_except" snapshot instead of the final one.  Seen from each single environment i
    ([view_of i]) the calls obey the same protocol as in C16: in particular it is reset exactly when its own episode ended. *)
Theorem C17_train_agent_batch {W Ob A} (U : buserland W Ob A) (P : train_args) :
  env_complete U -> 0 < num_envs U -> forall w t0 s' tr res,
  train_agent_batch U P (w, t0) = (s', tr, res) ->
  match res with
  | Ok hist =>
      exists n, 1 <= n /\ snd s' = a_offset P + n * num_envs U /\ bsteps_made tr = n /\
      (forall m, 1 <= m < n -> a_offset P + m * num_envs U < a_steps P) /\
      (a_steps P <= snd s' \/
       ((exists l0, beval_times tr = l0 ++ [snd s']) /\ exists sc, a_successful P = Some sc /\ Qle sc (bmax_score U (fst s')))) /\
      bhook_calls tr = flat_map (fun t => map (pair t) (seq 0 (length (bstep_hooks U)))) (seq (S (a_offset P)) (n * num_envs U)) /\
      bsaves tr = map (fun t => (t, Checkpoint)) (filter (multiple_of (a_checkpoint_freq P)) (seq (S (a_offset P)) (n * num_envs U)))
                  ++ [(snd s', Finish)] /\
      hist = beval_scores tr
  | Err _ =>
      tr = [BReset None] \/
      bsaves tr = map (fun t => (t, Checkpoint)) (filter (multiple_of (a_checkpoint_freq P)) (seq (S (a_offset P)) (snd s' - a_offset P)))
                  ++ [(snd s', Except)]
  end /\ forall i, i < num_envs U -> exists p, advances P Idle (view_of i tr) p.
Proof. intros H1 H2 w t0 s' tr res. exact (train_batch_ok U P H1 H2 w t0 s' tr res). Qed.

(** If no user code raises, train_agent_batch returns. *)
Theorem C17_train_agent_batch_returns {W Ob A} (U : buserland W Ob A) (P : train_args) :
  env_complete U -> 0 < num_envs U -> bnever_raises U -> forall w t0,
  exists s' tr hist, train_agent_batch U P (w, t0) = (s', tr, Ok hist).
Proof. intros H1 H2 H3 w t0. exact (train_batch_total U P H1 H2 w t0 H3). Qed.

(** Three environments with episodes of different lengths, offset 5, steps 13: three iterations, counter 14. *)
Definition C17_U : buserland nat nat nat := {|
  num_envs := 3; benv_reset := fun _ w => (w, Ok [0; 0; 0]); batch_act := fun o w => (w, Ok o);
  benv_step := fun _ w => (S w, Ok [(w, 1%Q, S w mod 2 =? 0, false); (w, 2%Q, false, S w mod 3 =? 0); (w, 3%Q, false, false)]);
  batch_observe := fun _ _ _ _ w => (w, Ok tt);
  bstep_hooks := [fun _ w => (w, Ok tt)];
  bevaluator := Some (fun t _ w => (w, Ok (if t mod 2 =? 0 then None else Some (inject_Z (Z.of_nat t)))));
  bmax_score := fun _ => 0%Q; bagent_has_t := true |}.
Definition C17_P := mkArgs 13 5 (Some 4) (Some 3) (Some (1#2)%Q) false.
Example C17_ex_complete : env_complete C17_U /\ 0 < num_envs C17_U /\ bnever_raises C17_U.
Proof.
  split; [|split].
  - intros a w w' outs H. cbn in H. injection H as _ <-. reflexivity.
  - cbv. lia.
  - split; [|split; [|split; [|split; [|split]]]].
    + intros m w. cbn. eauto.
    + intros o w. cbn. eauto.
    + intros a w. eexists. eexists. cbn [C17_U benv_step]. reflexivity.
    + intros o r d b w. cbn. eauto.
    + constructor; [intros t w; eauto|constructor].
    + intros f Hf. injection Hf as <-. intros t i w. eauto.
Qed.
Example C17_ex :
  let '(s, tr, r) := train_agent_batch C17_U C17_P (0, 0) in
  (s, bsteps_made tr, map fst (bhook_calls tr), bsaves tr, r, flat_map (fun e => match e with BReset m => [m] | _ => [] end) tr) =
  ((3, 14), 3, [6; 7; 8; 9; 10; 11; 12; 13; 14], [(8, Checkpoint); (12, Checkpoint); (14, Finish)], Ok [11#1]%Q,
   [None; Some [true; true; true]; Some [false; true; true]]).
Proof. vm_compute. reflexivity. Qed.
Print Assumptions C17_train_agent_batch.
Print Assumptions C17_train_agent_batch_returns.
