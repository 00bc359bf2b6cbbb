(** C22: evaluation with a vector of environments, and with a single one. *)
From Verif Require Import Base M_Train S_Train M_Evaluator S_Evaluator P_BatchEval.

(** With n_episodes: the scores returned are those of the first n episodes in the order in which they started (simultaneous
    starts in the order of the environments), all of them complete, and the run stops as soon as those are complete.  The
    ledger is computed from the rewards and flags that the environments answered. *)
Theorem C22_n_episodes {W Ob A} (U : buserland W Ob A) (maxlen : option nat) (n fuel : nat) :
  env_complete U -> 0 < num_envs U -> forall w t s' tr scores,
  batch_run_episodes U (NEpisodes n) maxlen fuel (w, t) = (s', tr, Ok scores) ->
  let led := ledger maxlen (num_envs U) (bsteps_of tr) in
  n <= length led /\ all_done (firstn n led) /\ scores = map score_of (firstn n led) /\ stops_at_first (NEpisodes n) maxlen (num_envs U) (bsteps_of tr).
Proof.
  intros H1 H2 w t s' tr scores H. destruct (batch_run_ok U (NEpisodes n) maxlen H1 H2 fuel w t s' tr scores I H) as ((X1 & X2 & X3) & X4 & _). auto.
Qed.

(** With n_steps. *)
Theorem C22_n_steps {W Ob A} (U : buserland W Ob A) (maxlen : option nat) (n fuel : nat) :
  env_complete U -> 0 < num_envs U -> 1 <= n -> forall w t s' tr scores,
  batch_run_episodes U (NSteps n) maxlen fuel (w, t) = (s', tr, Ok scores) ->
  within_budget n (ledger maxlen (num_envs U) (bsteps_of tr)) scores /\ stops_at_first (NSteps n) maxlen (num_envs U) (bsteps_of tr).
Proof.
  intros H1 H2 Hn w t s' tr scores H. destruct (batch_run_ok U (NSteps n) maxlen H1 H2 fuel w t s' tr scores Hn H) as (X1 & X2 & _). auto.
Qed.

(** During evaluation every environment sees the usual protocol (C16), except that in the last call the agent is told that all
    episodes are cut off. *)
Theorem C22_protocol {W Ob A} (U : buserland W Ob A) (maxlen : option nat) (M : mode) (fuel : nat) :
  env_complete U -> 0 < num_envs U -> (forall n, M = NSteps n -> 1 <= n) -> forall w t s' tr scores,
  batch_run_episodes U M maxlen fuel (w, t) = (s', tr, Ok scores) ->
  exists tr0 rs ds, tr = tr0 ++ [BObserve rs ds (repeat true (num_envs U))] /\
    forall i, i < num_envs U -> exists k r d b,
      advances (mkArgs 0 0 None maxlen None false) Idle (view_of i tr0) (Stepped k r d b) /\ nth_error rs i = Some r /\ nth_error ds i = Some d.
Proof.
  intros H1 H2 Hn w t s' tr scores H. refine (proj2 (proj2 (batch_run_ok U M maxlen H1 H2 fuel w t s' tr scores _ H))). destruct M; [exact (Hn _ eq_refl)|exact I].
Qed.

(** If no user code raises then evaluation returns: within n steps for n_steps; within n * max_episode_len + 1 steps for
    n_episodes with a length limit. *)
Theorem C22_returns {W Ob A} (U : buserland W Ob A) (maxlen : option nat) :
  env_complete U -> 0 < num_envs U -> bnever_raises U -> forall w t n,
  (1 <= n -> exists s' tr scores, batch_run_episodes U (NSteps n) maxlen n (w, t) = (s', tr, Ok scores)) /\
  (forall m, maxlen = Some m -> 1 <= m -> exists s' tr scores, batch_run_episodes U (NEpisodes n) maxlen (S (n * m)) (w, t) = (s', tr, Ok scores)).
Proof.
  intros H1 H2 H3 w t n. split.
  - intros Hn. exact (batch_run_total U (NSteps n) maxlen H1 H2 n w t H3 eq_refl Hn).
  - intros m Hm Hm1. exact (batch_run_total_ep U (NEpisodes n) maxlen H1 H2 m n w t H3 Hm Hm1 eq_refl).
Qed.

(** The loop for a single environment: n_episodes returns exactly the first n episodes and stops right there; n_steps makes
    exactly n steps and returns the complete episodes, or the running one if there is none. *)
Theorem C22_single {W Ob A} (U : userland W Ob A) (maxlen : option nat) (n fuel : nat) :
  1 <= n -> forall w t s' tr scores,
  (run_episodes U (NEpisodes n) maxlen fuel (w, t) = (s', tr, Ok scores) ->
     exists eps, ledger maxlen 1 (steps_of tr) = eps ++ [fresh 0] /\ all_done eps /\ length eps = n /\ scores = map score_of eps) /\
  (run_episodes U (NSteps n) maxlen fuel (w, t) = (s', tr, Ok scores) ->
     length (steps_of tr) = n /\
     exists eps e, ledger maxlen 1 (steps_of tr) = eps ++ [e] /\ all_done eps /\ ep_done e = false /\
       scores = match eps with [] => [score_of e] | _ => map score_of eps end).
Proof.
  intros Hn w t s' tr scores. split; intros H.
  - exact (proj1 (run_episodes_ok U (NEpisodes n) maxlen fuel w t s' tr scores Hn H)).
  - destruct (run_episodes_ok U (NSteps n) maxlen fuel w t s' tr scores Hn H) as (A0 & B & _). split; assumption.
Qed.

(** Three environments with episodes of length 4, 1 and 2: the third episode to start is the third environment's first one. *)
Definition C22_U : buserland nat nat nat := {|
  num_envs := 3; benv_reset := fun _ w => (w, Ok [0; 0; 0]); batch_act := fun o w => (w, Ok o);
  benv_step := fun _ w => (S w, Ok [(w, 1%Q, S w mod 4 =? 0, false); (w, 2%Q, true, false); (w, 3%Q, false, S w mod 2 =? 0)]);
  batch_observe := fun _ _ _ _ w => (w, Ok tt); bstep_hooks := []; bevaluator := None; bmax_score := fun _ => 0%Q; bagent_has_t := true |}.
Example C22_ex :
  (let '(_, tr, r) := batch_run_episodes C22_U (NEpisodes 4) None 10 (0, 0) in (r, length (bsteps_of tr))) = (Ok [((4#1)%Q, 4); ((2#1)%Q, 1); ((6#1)%Q, 2); ((2#1)%Q, 1)], 4) /\
  (let '(_, tr, r) := batch_run_episodes C22_U (NSteps 6) None 10 (0, 0) in (r, length (bsteps_of tr))) = (Ok [((4#1)%Q, 4); ((2#1)%Q, 1)], 4) /\
  (let '(_, tr, r) := batch_run_episodes C22_U (NSteps 3) None 10 (0, 0) in (r, length (bsteps_of tr))) = (Ok [((3#1)%Q, 3)], 3) /\
  (let '(_, tr, r) := batch_run_episodes C22_U (NSteps 3) (Some 2) 10 (0, 0) in (r, length (bsteps_of tr))) = (Ok [((2#1)%Q, 2); ((2#1)%Q, 1)], 2).
Proof. vm_compute. auto. Qed.
Example C22_ex_hyps : env_complete C22_U /\ 0 < num_envs C22_U /\ bnever_raises C22_U.
Proof.
  split; [|split].
  - intros a w w' outs H. cbn in H. injection H as _ <-. reflexivity.
  - cbv. lia.
  - split; [|split; [|split; [|split; [|split]]]].
    + intros m w. cbn. eauto.
    + intros o w. cbn. eauto.
    + intros a w. eexists. eexists. cbn [C22_U benv_step]. reflexivity.
    + intros o r d b w. cbn. eauto.
    + constructor.
    + intros f Hf. discriminate Hf.
Qed.
Print Assumptions C22_n_episodes.
Print Assumptions C22_n_steps.
Print Assumptions C22_protocol.
Print Assumptions C22_returns.
Print Assumptions C22_single.
