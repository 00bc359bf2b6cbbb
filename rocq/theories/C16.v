(** C16: train_agent. *)
From Verif Require Import Base M_Train S_Train P_Train.

(** Whatever the user code does: if train_agent returns, it made exactly the steps up to [steps] (or stopped right after an
    evaluation because the maximum score reached the successful score), called every hook once per step number, saved the
    checkpoints at the multiples of the frequency strictly before the last step and then one final snapshot, and returned the
    scores of the evaluations; if some user code raised, the only other save is one "_except" snapshot at the current step.  In
    both cases the calls obey the protocol [advances]: reset, act, step, observe (with the reward, done flag, and reset flag
    exactly when the episode length limit is reached or the environment asks), reset only after the end of an episode and never
    a step after it without a reset, evaluations only at the end of an episode (or at the last step) unless
    eval_during_episode. *)
Theorem C16_train_agent {W Ob A} (U : userland W Ob A) (P : train_args) w t0 s' tr res :
  train_agent U P (w, t0) = (s', tr, res) ->
  match res with
  | Ok hist =>
      let n := snd s' - a_offset P in
      a_offset P <= snd s' /\ steps_made tr = n /\
      (snd s' = Nat.max (a_offset P) (a_steps P) \/
       ((exists l0, eval_times tr = l0 ++ [snd s']) /\ exists sc, a_successful P = Some sc /\ Qle sc (max_score U (fst s')))) /\
      hook_calls tr = flat_map (fun t => map (pair t) (seq 0 (length (step_hooks U)))) (seq (S (a_offset P)) n) /\
      saves tr = map (fun t => (t, Checkpoint)) (filter (multiple_of (a_checkpoint_freq P)) (seq (S (a_offset P)) (n - 1)))
                 ++ [(snd s', Finish)] /\
      hist = eval_scores tr
  | Err _ =>
      tr = [EReset] \/
      (steps_made tr = snd s' - a_offset P /\
       exists k, saves tr = map (fun t => (t, Checkpoint)) (filter (multiple_of (a_checkpoint_freq P)) (seq (S (a_offset P)) k))
                            ++ [(snd s', Except)] /\ a_offset P + k <= snd s' <= S (a_offset P + k))
  end /\ exists p, advances P Idle tr p.
Proof. exact (train_agent_ok U P w t0 s' tr res). Qed.

(** If no user code raises, train_agent returns. *)
Theorem C16_train_agent_returns {W Ob A} (U : userland W Ob A) (P : train_args) w t0 :
  never_raises U -> exists s' tr hist, train_agent U P (w, t0) = (s', tr, Ok hist).
Proof. exact (train_agent_total U P w t0). Qed.

(** An environment ending every third step, asking for a reset at every fifth, two hooks, an evaluator; offset 10, steps 17. *)
Definition C16_U : userland nat nat nat := {|
  env_reset := fun w => (w, Ok 0); agent_act := fun o w => (w, Ok o);
  env_step := fun _ w => (S w, Ok (w, 1%Q, S w mod 3 =? 0, S w mod 5 =? 0));
  agent_observe := fun _ _ _ _ w => (w, Ok tt);
  step_hooks := [fun _ w => (w, Ok tt); fun _ w => (w, Ok tt)];
  evaluator := Some (fun t _ w => (w, Ok (if t mod 2 =? 0 then None else Some (inject_Z (Z.of_nat t)))));
  max_score := fun _ => 0%Q; agent_has_t := true |}.
Definition C16_P := mkArgs 17 10 (Some 2) (Some 2) (Some (1#2)%Q) false.
Example C16_ex :
  let '(s, tr, r) := train_agent C16_U C16_P (0, 0) in
  (s, steps_made tr, eval_times tr, saves tr, r) =
  ((7, 17), 7, [12; 13; 15; 16; 17], [(12, Checkpoint); (14, Checkpoint); (16, Checkpoint); (17, Finish)],
   Ok [13#1; 15#1; 17#1]%Q).
Proof. vm_compute. reflexivity. Qed.
Print Assumptions C16_train_agent.
Print Assumptions C16_train_agent_returns.
Example C16_ex_never_raises : never_raises C16_U.
Proof. cbv. repeat split; intros; eauto. - repeat constructor; intros; eauto. - injection H as <-; eauto. Qed.
