(** C69: an A3C worker learns on-policy from consecutive segments, whatever the other workers do. *)
From Coq Require Import QArith.
From Verif Require Import Base P_Base S_PPO M_A3C S_A3C P_A3C.
Open Scope nat_scope.

(** For every network, optimizer, configuration and history of calls (training calls alternating, evaluation calls, mode switches and writes of other
    workers to the shared parameters anywhere): no exception, and the outputs are explained (S_A3C.v):
    - every step belongs to exactly one segment; a segment ends with its t_max-th step or with done or reset, and then and only then an update is made;
    - the update evaluates the network at the parameters, recurrent states and observations from which the actions of the segment were sampled;
    - its returns are the discounted rewards up to the end of the segment plus the discounted value of the state reached, 0 if done (not if only reset);
    - the loss factors depend on the length of the segment as configured;
    - after the update, and only then, the worker acts with the shared parameters as they are right after its own optimizer step;
    - recurrent states start from None in each episode, separately for training and evaluation. *)
Theorem C69_worker {Ob Act P RS} (N : net Ob P RS) (opt : P -> upd Ob Act P RS -> P) (c : cfg) (p : P) (es : list (ev Ob Act P)) :
  1 <= t_max c -> alternating true false es ->
  exists s os, runs N opt c (init p) es = Ok (s, os) /\ explained N opt c (view0 p) es os.
Proof.
  intros Ht Ha. apply (runs_explained N opt c Ht es (init p) (view0 p) false); [apply rel_init|exact Ha|cbn; lia|cbn; split; [discriminate|congruence]].
Qed.

(** Consequence: between its own updates a worker does not see the writes of the others. *)
Theorem C69_isolated {Ob Act P RS} (N : net Ob P RS) (opt : P -> upd Ob Act P RS -> P) (c : cfg) (s : st Ob Act P RS) (e : ev Ob Act P) s' o :
  step N opt c s e = Ok (s', o) -> (forall u, o <> Updated u) -> model s' = model s.
Proof.
  intros H Hn. destruct e as [b|ob a|ob r d z|q]; cbn [step] in H.
  - injection H as <- <-. reflexivity.
  - destruct (training s); injection H as <- <-; [reflexivity|]. destruct (recurrent c); reflexivity.
  - destruct (training s); [|injection H as <- <-; unfold observe_eval; destruct (d || z); reflexivity].
    unfold observe_train in H. cbn [training t t_start past_obs past_action past_rewards past_recurrent_state train_rs test_rs model shared_model] in H.
    destruct (if process_idx c =? 0 then _ else _) as [[]|]; [cbn [rbind] in H|discriminate].
    destruct ((S (t s) - t_start s =? t_max c) || d || z).
    + destruct (update N opt c _ _) as [[s2 u]|]; [cbn [rbind] in H|discriminate]. injection H as <- <-. exfalso. apply (Hn u). reflexivity.
    + cbn [rbind] in H. injection H as <- <-. destruct (d || z); reflexivity.
  - injection H as <- <-. reflexivity.
Qed.

(** Observations are numbers, parameters are lists of numbers (a history), recurrent states sum up the observations. *)
Definition ex_net : net nat (list nat) nat :=
  {| value := fun p rs o => inject_Z (Z.of_nat (length p + o)); advance := fun _ rs o => match rs with Some x => x + o | None => o end |}.
Definition ex_cfg : cfg :=
  {| process_idx := 0; t_max := 2; gamma := (1#2)%Q; recurrent := true; pi_loss_coef := 1%Q; v_loss_coef := (1#2)%Q; keep_loss_scale_same := true; normalize_grad_by_t_max := false |}.
Definition ex_opt (p : list nat) (u : upd nat nat (list nat) nat) : list nat := length (u_actions u) :: p.
Definition ex_es : list (ev nat nat (list nat)) :=
  [CallAct 1 10; Others [77]; CallObserve 2 4%Q false false;
   SetTraining false; CallAct 9 90; CallObserve 9 9%Q true false; SetTraining true;
   CallAct 2 20; CallObserve 3 8%Q false false;
   CallAct 3 30; CallObserve 5 16%Q true false;
   CallAct 6 60].
Example C69_ex_hyp : 1 <= t_max ex_cfg /\ alternating true false ex_es.
Proof. cbn. repeat split. auto. Qed.
Example C69_ex : rmap snd (runs ex_net ex_opt ex_cfg (init [0]) ex_es) = Ok
  [Chose [0] None 1; Nothing; Nothing; Nothing; Chose [0] None 9; Nothing; Nothing; Chose [0] (Some 1) 2;
   Updated {| u_params := [0]; u_inputs := [(None, 1); (Some 1, 2)]; u_actions := [10; 20]; u_returns := [(36 # 4)%Q; (20 # 2)%Q]; u_pi_factor := 1%Q; u_v_factor := (1#2)%Q |};
   Chose [2; 77] (Some 3) 3;
   Updated {| u_params := [2; 77]; u_inputs := [(Some 3, 3)]; u_actions := [30]; u_returns := [(32 # 2)%Q]; u_pi_factor := (2#1)%Q; u_v_factor := (2#2)%Q |};
   Chose [1; 2; 77] None 6].
Proof. vm_compute. reflexivity. Qed.

Print Assumptions C69_worker.
Print Assumptions C69_isolated.
