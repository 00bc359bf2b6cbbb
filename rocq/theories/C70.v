(** C70: an ACER worker learns on-policy from consecutive segments and off-policy from pieces of stored episodes. *)
From Coq Require Import QArith.
From Verif Require Import Base P_Base M_RandomAccessQueue P_RandomAccessQueue M_SampleNK S_SampleNK M_ReplayBuffer S_ReplayBuffer M_Episodic S_Episodic P_Episodic
  M_A3C M_Acer S_Acer P_Acer.
Open Scope nat_scope.

Definition buffer_of {T} (buf : option (option nat)) (b : option (ebuf T)) : Prop :=
  match buf with None => b = None | Some cap => exists b0, eb_init false cap = Ok b0 /\ b = Some b0 end.

(** For every network, optimizer, configuration, replay capacity and history of calls (training calls alternating; evaluation calls, mode switches,
    loads and writes of other workers anywhere): no exception, and the outputs are explained (S_Acer.v):
    - segments end with their t_max-th step or with done or reset, and then and only then updates are made;
    - the online update uses the outputs from which the actions were sampled, the average network's outputs at the same observations, the rewards, and
      the value of the state reached (0 if done, not if only reset); it carries no behaviour distribution;
    - every step is stored with the distribution its action was sampled from, also when that step is learned from online;
    - then n_times_replay updates, if the stored finished episodes have replay_start_size steps or more, none otherwise; each from a contiguous piece of
      one stored episode (min(t_max, its length) steps), the network run from the empty recurrent state, bootstrapped unless the piece ends terminally,
      with the stored behaviour distributions;
    - every update is followed by copying the shared parameters and moving the average towards them. *)
Theorem C70_worker {Ob Act P RS} (N : net Ob P RS) (opt : P -> aupd Ob Act P RS -> P) (soft : P -> P -> P) (c : acfg) (buf : option (option nat))
    (b : option (ebuf (btr Ob Act P RS))) (p : P) (es : list (aev Ob Act P)) :
  1 <= a_t_max c -> (buf <> None -> 1 <= replay_start_size c) -> buffer_of buf b -> a_alternating c true false es ->
  exists s os, a_runs N opt soft c (a_init p b) es = Ok (s, os) /\ a_explained N opt soft c buf (aview0 p) es os.
Proof.
  intros Ht Hr Hb Ha. apply (a_runs_explained N opt soft c buf Ht Hr es (a_init p b) (aview0 p) false); [|exact Ha|cbn; lia|cbn; split; [discriminate|congruence]].
  constructor; cbn; try reflexivity; try (intros [|]; discriminate).
  - auto.
  - unfold buf_ok. destruct buf as [cap|]; [|rewrite Hb; exact I]. destruct Hb as (b0 & E & ->).
    unfold eb_init in E. destruct (raq_init_spec (A := list (trans (btr Ob Act P RS))) None []) as (q & E2 & Hi & Hm). rewrite E2 in E. cbn [rbind] in E. injection E as <-.
    split; [reflexivity|]. split; [reflexivity|]. split; [reflexivity|]. cbn. rewrite Hi. cbn.
    split; [auto|]. split; [auto|]. split; [auto|]. destruct cap; [|reflexivity]. exists 0. cbn. repeat split; lia.
Qed.

(** Observations are numbers, parameters are lists of numbers (a history), recurrent states sum up the observations. *)
Definition ex_net : net nat (list nat) nat :=
  {| value := fun p rs o => inject_Z (Z.of_nat (length p + o)); advance := fun _ rs o => match rs with Some x => x + o | None => o end |}.
Definition ex_cfg (start : nat) : acfg := {| a_t_max := 2; a_recurrent := true; disable_online_update := false; n_times_replay := 1; replay_start_size := start |}.
Definition ex_opt (p : list nat) (u : aupd nat nat (list nat) nat) : list nat := length (u_acts u) :: p.
Definition ex_soft (a p : list nat) : list nat := 100 + length p :: a.
Definition ex_draw : list ((nat -> oracle) * (nat -> nat -> nat)) :=
  [(fun n => {| choice_norepl := [0]; draw := fun r => match r with 0 => [0; 0] | _ => [0] end |}, fun _ k => k - 1)].
Definition ex_es : list (aev nat nat (list nat)) :=
  [AAct 1 10; AObserve 2 4%Q false false ex_draw; AAct 2 20; AObserve 3 8%Q false false ex_draw;
   AAct 3 30; AObserve 5 16%Q false true ex_draw].
Definition ex_b : option (ebuf (btr nat nat (list nat) nat)) := match eb_init false (Some 5) with Ok b => Some b | Err _ => None end.

Example C70_ex_hyp : 1 <= a_t_max (ex_cfg 3) /\ 1 <= replay_start_size (ex_cfg 3) /\ buffer_of (Some (Some 5)) ex_b /\ a_alternating (ex_cfg 3) true false ex_es.
Proof.
  split; [cbn; lia|]. split; [cbn; lia|]. split; [eexists; split; reflexivity|].
  assert (D : draws_ok (ex_cfg 3) ex_draw).
  { split; [reflexivity|]. constructor; [|constructor]. split; cbn [fst snd choice_norepl draw].
    - intros n Hn. repeat split; cbn; auto; try lia; try (repeat constructor; cbn; intuition lia).
    - intros j k Hk. lia. }
  cbn. auto 20.
Qed.
(** The first update is online only (the episode is not finished); the second segment ends with a reset: an online update of one step, bootstrapped from the
    state reached, and an update from the last two steps of the stored episode, with the distributions then in use. *)
Definition at1 : ctx nat (list nat) nat := {| x_params := [0]; x_rs := None; x_obs := 1 |}.
Definition at2 : ctx nat (list nat) nat := {| x_params := [0]; x_rs := Some 1; x_obs := 2 |}.
Definition at3 : ctx nat (list nat) nat := {| x_params := [2; 0]; x_rs := Some 3; x_obs := 3 |}.
Example C70_ex : rmap snd (a_runs ex_net ex_opt ex_soft (ex_cfg 3) (a_init [0] ex_b) ex_es) = Ok
  [AChose at1; AObserved None []; AChose at2;
   AObserved (Some {| u_R := 4%Q; u_acts := [10; 20]; u_rewards := [4%Q; 8%Q]; u_values := [at1; at2]; u_action_values := [at1; at2]; u_distribs := [at1; at2];
                      u_mus := None; u_avgs := [at1; at2] |}) [];
   AChose at3;
   AObserved (Some {| u_R := 7%Q; u_acts := [30]; u_rewards := [16%Q]; u_values := [at3]; u_action_values := [at3]; u_distribs := [at3];
                      u_mus := None; u_avgs := [{| x_params := [102; 0]; x_rs := Some 3; x_obs := 3 |}] |})
     [let at2' := {| x_params := [1; 2; 0]; x_rs := None; x_obs := 2 |} in let at3' := {| x_params := [1; 2; 0]; x_rs := Some 2; x_obs := 3 |} in
      {| u_R := 8%Q; u_acts := [20; 30]; u_rewards := [8%Q; 16%Q]; u_values := [at2'; at3']; u_action_values := [at2'; at3']; u_distribs := [at2'; at3'];
         u_mus := Some [at2; at3]; u_avgs := [{| x_params := [103; 102; 0]; x_rs := None; x_obs := 2 |}; {| x_params := [103; 102; 0]; x_rs := Some 2; x_obs := 3 |}] |}]].
Proof. vm_compute. reflexivity. Qed.

(** The hypothesis on replay_start_size is needed: with 0, the first segment that ends before the episode does raises an AssertionError, because the
    buffer has no finished episode to sample. *)
Theorem C70_start_size_zero_fails :
  1 <= a_t_max (ex_cfg 0) /\ a_alternating (ex_cfg 0) true false ex_es /\
  a_runs ex_net ex_opt ex_soft (ex_cfg 0) (a_init [0] ex_b) ex_es = Err AssertionError.
Proof.
  split; [cbn; lia|]. split; [|vm_compute; reflexivity].
  assert (D : draws_ok (ex_cfg 0) ex_draw).
  { split; [reflexivity|]. constructor; [|constructor]. split; cbn [fst snd choice_norepl draw].
    - intros n Hn. repeat split; cbn; auto; try lia; try (repeat constructor; cbn; intuition lia).
    - intros j k Hk. lia. }
  cbn. auto 20.
Qed.

Print Assumptions C70_worker.
Print Assumptions C70_start_size_zero_fails.
