(** C63: discrete action values. *)
From Coq Require Import QArith Lqa.
From Verif Require Import Base P_Base M_ActionValue S_Targets P_Targets S_Categorical.
Open Scope nat_scope.

(** The greedy action attains the maximum; no action is better; advantages are at most 0, and 0 for the greedy action. *)
Theorem C63_discrete (q : list Q) : q <> [] -> exists g m, greedy_action q = Ok g /\ max q = Ok m /\ is_argmax q g /\ is_max q m /\ evaluate_action q g = Ok m /\
  (forall a, a < length q -> exists v d, evaluate_action q a = Ok v /\ nth_error q a = Some v /\ compute_advantage q a = Ok d /\ (d == v - m)%Q /\ (d <= 0)%Q /\
     compute_double_advantage q a g = Ok d) /\
  (exists d, compute_advantage q g = Ok d /\ (d == 0)%Q).
Proof.
  intros H. destruct (argmax_ok q H) as (g & Eg & m & Hm & Hmax). exists g, m. unfold greedy_action at 1.
  assert (Em : max q = Ok m) by (unfold max, greedy_action; rewrite Eg; cbn [rbind]; unfold gather; rewrite Hm; reflexivity).
  assert (Ev : evaluate_action q g = Ok m) by (unfold evaluate_action, gather; rewrite Hm; reflexivity).
  split; [exact Eg|]. split; [exact Em|]. split; [exists m; auto|]. split; [split; [eapply nth_error_In; exact Hm|exact Hmax]|]. split; [exact Ev|]. split.
  - intros a Ha. destruct (nth_error q a) as [v|] eqn:N; [|apply nth_error_None in N; lia]. exists v, (v - m)%Q.
    assert (Ea : evaluate_action q a = Ok v) by (unfold evaluate_action, gather; rewrite N; reflexivity). split; [exact Ea|]. split; [reflexivity|].
    unfold compute_advantage, compute_double_advantage. rewrite Ea. cbn [rbind]. rewrite Em, Ev. split; [reflexivity|]. split; [reflexivity|]. split; [|reflexivity].
    specialize (Hmax v (nth_error_In _ _ N)). lra.
  - unfold compute_advantage. rewrite Ev. cbn [rbind]. rewrite Em. eexists. split; [reflexivity|]. ring.
Qed.

(** Distributional action values: the distribution called the maximum is the one of an action whose mean is largest. *)
Theorem C63_distributional (q_dist : list (list Q)) (z : list Q) : q_dist <> [] -> exists g p, argmax (dist_q_values q_dist z) = Ok g /\
  max_as_distribution q_dist z = Ok p /\ evaluate_action_as_distribution q_dist g = Ok p /\ nth_error q_dist g = Some p /\ forall p', In p' q_dist -> (mean_of p' z <= mean_of p z)%Q.
Proof.
  intros H. destruct (argmax_ok (dist_q_values q_dist z)) as (g & Eg & m & Hm & Hmax). { destruct q_dist; [congruence|discriminate]. }
  unfold dist_q_values in Hm. rewrite nth_error_map in Hm. destruct (nth_error q_dist g) as [p|] eqn:N; [|discriminate]. cbn in Hm. injection Hm as Hm. exists g, p.
  split; [exact Eg|]. unfold max_as_distribution, evaluate_action_as_distribution, gather. rewrite Eg. cbn [rbind]. rewrite N. repeat split. intros p' Hp. change (dot p' z <= dot p z)%Q. rewrite Hm. apply Hmax.
  apply in_map_iff. exists p'. auto.
Qed.

(** Quantile action values: the greedy action has the best average over the thresholds. *)
Theorem C63_quantile nA (quantiles : list (list Q)) : 0 < nA -> quantiles <> [] -> Forall (fun row => length row = nA) quantiles ->
  exists g zs, greedy_action (quantile_q_values quantiles) = Ok g /\ best_average quantiles g /\ evaluate_action_as_quantiles quantiles g = Ok zs /\
    Forall2 (fun row v => nth_error row g = Some v) quantiles zs.
Proof.
  intros Hn Hq F. destruct (quantile_greedy nA quantiles Hn Hq F) as (g & Eg & Hg & Hb). exists g, (column quantiles g). split; [exact Eg|]. split; [exact Hb|].
  split; [|exact (column_F2 nA _ _ F Hg)]. unfold evaluate_action_as_quantiles. rewrite (n_actions_ok nA _ Hq F). destruct (Nat.ltb_spec g nA); [reflexivity|lia].
Qed.

Example C63_ex : max [1; 3; 2; 3]%Q = Ok 3%Q /\ greedy_action [1; 3; 2; 3]%Q = Ok 1 /\
  max_as_distribution [[1; 0]; [1 # 2; 1 # 2]]%Q [-1; 1]%Q = Ok [1 # 2; 1 # 2]%Q /\
  greedy_action (quantile_q_values [[1; 0]; [0; 3]]%Q) = Ok 1.
Proof. vm_compute. repeat split. Qed.

Print Assumptions C63_discrete.
Print Assumptions C63_distributional.
Print Assumptions C63_quantile.
