(** C23: fresh recurrent states at the start of evaluation episodes.  The agents keep a recurrent state for evaluation that is
    advanced by act and reset by observe with done or reset (e.g. pfrl/agents/dqn.py:483, 562-577; a3c.py:290, 302); nothing
    else resets it (stop_episode, dqn.py:790, is called nowhere). *)
From Verif Require Import Base M_Train S_Train M_Evaluator S_Evaluator P_BatchEval.

Definition C23_run {W Ob A} (U : userland W Ob A) maxlen (ok : mode -> Prop) (s : W * nat) (tr : list ev) (s' : W * nat) : Prop :=
  exists M fuel scores, ok M /\ run_episodes U M maxlen fuel s = (s', tr, Ok scores).
Definition C23_batch_run {W Ob A} (U : buserland W Ob A) maxlen (ok : mode -> Prop) (s : W * nat) (tr : list bev) (s' : W * nat) : Prop :=
  exists M fuel scores, ok M /\ batch_run_episodes U M maxlen fuel s = (s', tr, Ok scores).
Definition C23_positive (M : mode) : Prop := match M with NSteps n | NEpisodes n => 1 <= n end.

(** The full claim is false: two evaluations of two steps each on an environment with long episodes; the second starts with
    the recurrent state left over from the first. *)
Definition C23_U : userland nat nat nat := {|
  env_reset := fun w => (w, Ok 0); agent_act := fun o w => (w, Ok o); env_step := fun _ w => (S w, Ok (w, 1%Q, false, false));
  agent_observe := fun _ _ _ _ w => (w, Ok tt); step_hooks := []; evaluator := None; max_score := fun _ => 0%Q; agent_has_t := true |}.
Theorem C23_fresh_state_refuted :
  exists (U : userland nat nat nat) maxlen tr, runs (C23_run U maxlen C23_positive) tr /\ fresh_after true tr = None.
Proof.
  exists C23_U, None. eexists. split.
  - eapply runs_more with (s := (0, 0)) (s' := (2, 0)).
    + exists (NSteps 2), 2, [((2#1)%Q, 2)]. split; [exact (le_S _ _ (le_n 1))|]. cbv. reflexivity.
    + eapply runs_more with (s := (2, 0)) (s' := (4, 0)); [|constructor].
      exists (NSteps 2), 2, [((2#1)%Q, 2)]. split; [exact (le_S _ _ (le_n 1))|]. cbv. reflexivity.
  - vm_compute. reflexivity.
Qed.

(** What holds: with a single environment, for any series of runs with n_episodes; and within one run with n_steps. *)
Theorem C23_single_partial {W Ob A} (U : userland W Ob A) maxlen :
  (forall tr, runs (C23_run U maxlen (fun M => exists n, M = NEpisodes n /\ 1 <= n)) tr -> fresh_after true tr = Some true) /\
  (forall s tr s', C23_run U maxlen C23_positive s tr s' -> fresh_after true tr <> None).
Proof.
  split.
  - intros tr. apply (runs_fresh _ (fun x => x)); [reflexivity|reflexivity|]. intros [w t] t' s' (M & fuel & scores & (n & -> & Hn) & H).
    destruct (run_episodes_ok U (NEpisodes n) maxlen fuel w t s' t' scores Hn H) as (_ & _ & c & Hc & ->). exact Hc.
  - intros [w t] tr s' (M & fuel & scores & Hn & H).
    destruct (run_episodes_ok U M maxlen fuel w t s' tr scores ltac:(destruct M; exact Hn) H) as (_ & _ & c & Hc & _). congruence.
Qed.

(** With a vector of environments: for every series of runs of either kind, in every environment. *)
Theorem C23_batch_partial {W Ob A} (U : buserland W Ob A) maxlen :
  env_complete U -> 0 < num_envs U ->
  forall tr, runs (C23_batch_run U maxlen C23_positive) tr -> forall i, i < num_envs U -> fresh_after true (view_of i tr) = Some true.
Proof.
  intros H1 H2 tr Hr i Hi. revert Hr. apply (runs_fresh _ (view_of i)); [reflexivity|exact (P_TrainBatch.view_of_app i)|].
  intros [w t] t' s' (M & fuel & scores & Hn & H). refine (batch_fresh U M maxlen H1 H2 fuel w t s' t' scores _ H i Hi). destruct M; [exact Hn|exact I].
Qed.

Example C23_ex : fresh_after true (let '(_, tr, _) := run_episodes C23_U (NEpisodes 2) (Some 3) 10 (0, 0) in tr ++ tr) = Some true.
Proof. vm_compute. reflexivity. Qed.
Print Assumptions C23_fresh_state_refuted.
Print Assumptions C23_single_partial.
Print Assumptions C23_batch_partial.
