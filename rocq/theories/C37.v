(** C37: n-step targets of the off-policy critics. *)
From Coq Require Import QArith Qminmax.
From Verif Require Import Base P_Base M_ReplayBuffer M_Batch S_Batch M_ActionValue M_Targets S_Targets P_Targets.
Open Scope nat_scope.

(** In all theorems [exps] is any list of non-empty windows of any lengths. *)
Theorem C37_dqn {S A} gamma (exps : list (list (trans (exper S A)))) (target_model : S -> list Q) : Forall (fun w => w <> []) exps -> (forall s, target_model s <> []) ->
  exists b, batch_experiences gamma exps = Ok b /\ exists ts, dqn_target target_model b = Ok ts /\
    Forall2 (fun w t => exists s a s' v, from_to w s a s' /\ is_max (target_model s') v /\ (t == nstep gamma w v)%Q) exps ts.
Proof. exact (fun H => dqn_ok gamma exps H target_model). Qed.

(** Double DQN: the online network chooses the action, the target network values it. *)
Theorem C37_double_dqn {S A} gamma (exps : list (list (trans (exper S A)))) (model target_model : S -> list Q) : Forall (fun w => w <> []) exps ->
  (forall s, model s <> [] /\ length (target_model s) = length (model s)) ->
  exists b, batch_experiences gamma exps = Ok b /\ exists ts, double_dqn_target model target_model b = Ok ts /\
    Forall2 (fun w t => exists s a s' i v, from_to w s a s' /\ is_argmax (model s') i /\ nth_error (target_model s') i = Some v /\ (t == nstep gamma w v)%Q) exps ts.
Proof. exact (fun H => double_dqn_ok gamma exps H model target_model). Qed.

(** IQN: one target per threshold tau', for the action that is best on average over the thresholds tau~. *)
Theorem C37_iqn {S A} gamma (exps : list (list (trans (exper S A)))) (Z : S -> list Q -> list (list Q)) nA (taus_tilde taus_prime : list (list Q)) :
  Forall (fun w => w <> []) exps -> 0 < nA ->
  (forall s taus, length (Z s taus) = length taus /\ Forall (fun row => length row = nA) (Z s taus)) ->
  length taus_tilde = length exps -> length taus_prime = length exps -> Forall (fun l => l <> []) taus_tilde -> Forall (fun l => l <> []) taus_prime ->
  exists b, batch_experiences gamma exps = Ok b /\ exists ts, iqn_target Z taus_tilde taus_prime b = Ok ts /\
    Forall2 (fun wtd t => let '(w, td, tp) := wtd in exists s a s' i, from_to w s a s' /\ best_average (Z s' td) i /\
               Forall2 (fun row x => exists z, nth_error row i = Some z /\ (x == nstep gamma w z)%Q) (Z s' tp) t)
      (combine (combine exps taus_tilde) taus_prime) ts.
Proof. exact (fun H => iqn_ok gamma exps H Z nA taus_tilde taus_prime). Qed.

(** TD3: the smaller of the two target critics at the (smoothed) next action. *)
Theorem C37_td3 {S A} gamma (exps : list (list (trans (exper S A)))) (q1 q2 : S -> A -> Q) (next_actions : list A) : Forall (fun w => w <> []) exps -> length next_actions = length exps ->
  exists b, batch_experiences gamma exps = Ok b /\
    Forall2 (fun wa t => exists s a s', from_to (fst wa) s a s' /\ (t == nstep gamma (fst wa) (Qmin (q1 s' (snd wa)) (q2 s' (snd wa))))%Q) (combine exps next_actions) (td3_target q1 q2 next_actions b).
Proof. exact (fun H => td3_ok gamma exps H q1 q2 next_actions). Qed.

(** SAC: the same minus temperature times the log-probability of the next action. *)
Theorem C37_sac {S A} gamma (exps : list (list (trans (exper S A)))) (q1 q2 : S -> A -> Q) (temperature : Q) (samples : list (A * Q)) : Forall (fun w => w <> []) exps -> length samples = length exps ->
  exists b, batch_experiences gamma exps = Ok b /\
    Forall2 (fun wa t => exists s a s', from_to (fst wa) s a s' /\
        (t == nstep gamma (fst wa) (Qmin (q1 s' (fst (snd wa))) (q2 s' (fst (snd wa))) - temperature * snd (snd wa)))%Q) (combine exps samples) (sac_target q1 q2 temperature samples b).
Proof. exact (fun H => sac_ok gamma exps H q1 q2 temperature samples). Qed.

Definition tr (s : nat) (r : Q) (tm : bool) : trans (exper nat nat) := mkTrans (mkEx s 0 r (S s) None) tm.

(** DDPG discounts the value of the state after an n-step window by gamma instead of gamma^n: for two rewards 0, gamma = 1/2 and value 1
    the target is 1/2 instead of 1/4. *)
Theorem C37_ddpg_refuted : exists (gamma : Q) (w : list (trans (exper nat nat))) (q : nat -> nat -> Q) b t,
  batch_experiences gamma [w] = Ok b /\ ddpg_target gamma q [0] b = [t] /\
  forall s a s', from_to w s a s' -> ~ (t == nstep gamma w (q s' 0%nat))%Q.
Proof.
  exists (1 # 2)%Q, [tr 1 0 false; tr 2 0 false], (fun _ _ => 1%Q). do 2 eexists. split; [vm_compute; reflexivity|]. split; [vm_compute; reflexivity|].
  intros s a s' _. vm_compute. discriminate.
Qed.

(** What holds for DDPG: windows of one transition. *)
Theorem C37_ddpg_partial {S A} gamma (exps : list (list (trans (exper S A)))) (q : S -> A -> Q) (next_actions : list A) : Forall (fun w => w <> []) exps ->
  Forall (fun w => length w = 1) exps -> length next_actions = length exps -> exists b, batch_experiences gamma exps = Ok b /\
    Forall2 (fun wa t => exists s a s', from_to (fst wa) s a s' /\ (t == nstep gamma (fst wa) (q s' (snd wa)))%Q) (combine exps next_actions) (ddpg_target gamma q next_actions b).
Proof. exact (fun H => ddpg_ok gamma exps H q next_actions). Qed.

(** A batch of a terminal window of three and a window of two. *)
Definition ex : list (list (trans (exper nat nat))) := [[tr 1 1 false; tr 2 1 false; tr 3 1 true]; [tr 7 2 false; tr 8 4 false]].
Example C37_ex : exists b, batch_experiences (1 # 2)%Q ex = Ok b /\
  rmap (map Qred) (dqn_target (fun s => [inject_Z (Z.of_nat s); 12%Q]) b) = Ok [7 # 4; 7]%Q /\
  rmap (map Qred) (double_dqn_target (fun s => [inject_Z (Z.of_nat s); 8%Q]) (fun s => [16%Q; 12%Q]) b) = Ok [7 # 4; 8]%Q /\
  map Qred (td3_target (fun s a => 12%Q) (fun s a => inject_Z (Z.of_nat a)) [5; 4] b) = [7 # 4; 5]%Q /\
  map Qred (ddpg_target (1 # 2)%Q (fun s a => 12%Q) [5; 4] b) = [7 # 4; 10]%Q /\
  rmap (map (map Qred)) (iqn_target (fun s taus => map (fun t => [t; (8 * t)%Q]) taus) [[1 # 2]; [1 # 2; 1 # 4]]%Q [[1 # 2]; [1 # 2; 1]]%Q b) = Ok [[7 # 4]; [5; 6]]%Q.
Proof. eexists. split; [vm_compute; reflexivity|]. vm_compute. repeat split. Qed.

Print Assumptions C37_dqn.
Print Assumptions C37_double_dqn.
Print Assumptions C37_iqn.
Print Assumptions C37_td3.
Print Assumptions C37_sac.
Print Assumptions C37_ddpg_refuted.
Print Assumptions C37_ddpg_partial.
