(** C136: exact fitting of the target distributions of categorical DQN, with a wide enough support, gives the action values and policies of DQN. *)
From Coq Require Import Setoid Reals QArith Qreals Qminmax Lra.
From Verif Require Import Base P_Base M_ReplayBuffer M_Batch M_ActionValue M_Targets M_Categorical S_Targets S_Categorical S_ValueIteration P_FittedTargets S_DistIteration P_DistIteration C134.
Close Scope Q_scope. Close Scope R_scope. Open Scope nat_scope.

(** The support: n atoms from [v_min] upwards, [delta] apart. *)
Definition top_atom (v_min delta : Q) (n : nat) : Q := (v_min + delta * inject_Z (Z.of_nat (n - 1)))%Q.
(** What is claimed of an iteration [d]: every table consists of probability distributions; their means are an exactly fitted sequence of DQN
    tables; the means and the policies that are greedy for them become optimal. *)
Definition solves (D : problem) (gamma v_min delta : Q) (n : nat) (d : nat -> nat -> list (list Q)) : Prop :=
  (forall k, dist_table D n (d k)) /\ iterates D gamma dqn_target (fun k => means (atoms v_min delta n) (d k)) /\
  exists U, best_values_approach D (fun k => means (atoms v_min delta n) (d k)) U /\ eventually_optimal D gamma (fun k => means (atoms v_min delta n) (d k)) U /\
    entries_approach D (fun k => means (atoms v_min delta n) (d k)) (fun s a => expected_value gamma U (outcomes D s a)).

Theorem C136_categorical_dqn D gamma v_min delta n d : well_formed D -> unit_interval gamma -> 2 <= n -> (0 < delta)%Q -> wide_enough D gamma v_min (top_atom v_min delta n) ->
  dist_iterates D gamma n (fun target_model => categorical_target target_model (atoms v_min delta n)) d -> solves D gamma v_min delta n d.
Proof.
  intros W Hg Hn Hd HW HI. destruct (means_follow D W gamma v_min delta n HW _ (rel_categorical gamma v_min delta n (proj1 Hg) Hn Hd) d HI) as [Td It].
  split; [exact Td|]. split; [exact It|]. exact (C134_dqn D gamma _ W Hg It).
Qed.
(** Categorical Double DQN, when the target network is a copy of the network *)
Theorem C136_categorical_double_dqn D gamma v_min delta n d : well_formed D -> unit_interval gamma -> 2 <= n -> (0 < delta)%Q -> wide_enough D gamma v_min (top_atom v_min delta n) ->
  dist_iterates D gamma n (fun target_model => categorical_double_target target_model target_model (atoms v_min delta n)) d -> solves D gamma v_min delta n d.
Proof.
  intros W Hg Hn Hd HW HI. destruct (means_follow D W gamma v_min delta n HW _ (rel_double gamma v_min delta n (proj1 Hg) Hn Hd) d HI) as [Td It].
  split; [exact Td|]. split; [exact It|]. exact (C134_dqn D gamma _ W Hg It).
Qed.
(** The iterations exist, from every table of distributions. *)
Theorem C136_iterates_exist D gamma v_min delta n d0 : well_formed D -> unit_interval gamma -> 2 <= n -> (0 < delta)%Q -> wide_enough D gamma v_min (top_atom v_min delta n) -> dist_table D n d0 ->
  (exists d, d 0 = d0 /\ dist_iterates D gamma n (fun target_model => categorical_target target_model (atoms v_min delta n)) d) /\
  (exists d, d 0 = d0 /\ dist_iterates D gamma n (fun target_model => categorical_double_target target_model target_model (atoms v_min delta n)) d).
Proof.
  intros W Hg Hn Hd HW H0. split; eexists (dist_iterated D gamma n _ d0); (split; [reflexivity|]).
  - exact (dist_iterated_ok D W gamma v_min delta n HW _ (rel_categorical gamma v_min delta n (proj1 Hg) Hn Hd) d0 H0).
  - exact (dist_iterated_ok D W gamma v_min delta n HW _ (rel_double gamma v_min delta n (proj1 Hg) Hn Hd) d0 H0).
Qed.
(** A support is wide enough if it contains 0 and every reward is within 1 - gamma times its ends. *)
Theorem C136_reward_range D gamma lo hi : unit_interval gamma -> (lo <= 0 <= hi)%Q ->
  (forall s a, s < states D -> a <= last_action D -> Forall (fun x => let '(_, (r, _, _)) := x in ((1 - gamma) * lo <= r <= (1 - gamma) * hi)%Q) (outcomes D s a)) -> wide_enough D gamma lo hi.
Proof.
  intros [Hg _] [Hlo Hhi] H s a Hs Ha. specialize (H s a Hs Ha). revert H. apply Forall_impl. intros [p [[r s'] tm]] [H1 H2].
  assert (X : (0 <= gamma * hi)%Q) by (apply Qmult_le_0_compat; assumption). assert (Y : (0 <= gamma * (- lo))%Q) by (apply Qmult_le_0_compat; [assumption|]; Lqa.lra).
  destruct tm; split; Lqa.lra.
Qed.

(** ** It is not enough that every return lies in the support *)
(** State 0: the first action earns 3/4 and leads to state 1, the second earns 15/16 and ends the episode.  State 1: 1/2 and the end. *)
Definition tight : problem := {| states := 2; last_action := 1; outcomes := fun s a =>
  match s, a with
  | 0, 0 => [(1%Q, ((3 # 4)%Q, 1, false))]
  | 0, _ => [(1%Q, ((15 # 16)%Q, 0, true))]
  | _, _ => [(1%Q, ((1 # 2)%Q, 0, true))]
  end |}.
Lemma tight_wf : well_formed tight.
Proof. intros s a Hs Ha. cbn in Hs, Ha. destruct s as [|[|s]]; [| |lia]; (destruct a as [|[|a]]; [| |lia]); (split; [reflexivity|]); repeat constructor; cbn; try discriminate; lia. Qed.
Lemma q34 : (Q2R (3 # 4) = 3 / 4)%R. Proof. unfold Q2R. cbn. lra. Qed.
Lemma q1516 : (Q2R (15 # 16) = 15 / 16)%R. Proof. unfold Q2R. cbn. lra. Qed.
Lemma q12 : (Q2R (1 # 2) = 1 / 2)%R. Proof. unfold Q2R. cbn. lra. Qed.
Lemma tight_values policy U : admissible tight policy -> value_of tight (1 # 2) policy U -> U 1 = (1 / 2)%R /\ U 0 = (if (policy 0%nat =? 0)%nat then 1 else 15 / 16)%R.
Proof.
  intros Adm V. assert (U1 : U 1 = (1 / 2)%R) by (rewrite (V 1 ltac:(cbn; lia)); cbn [tight outcomes expected_value]; rewrite q12; unfold Q2R; cbn; lra). split; [exact U1|].
  rewrite (V 0 ltac:(cbn; lia)). specialize (Adm 0 ltac:(cbn; lia)). cbn in Adm. destruct (policy 0) as [|[|p]]; [| |lia]; cbn [tight outcomes expected_value Nat.eqb]; rewrite ?U1, ?q34, ?q1516, ?q12; unfold Q2R; cbn; lra.
Qed.
(** All returns are between -1 and 1, the ends of the support -1, 0, 1, and yet categorical DQN may never find the optimal policy: values that are
    shared between atoms and shifted past the end of the support are cut off. *)
Theorem C136_returns_inside_not_enough :
  (forall policy U, admissible tight policy -> value_of tight (1 # 2) policy U -> forall s, s < states tight -> (-1 <= U s <= 1)%R) /\
  exists d, dist_iterates tight (1 # 2) 3 (fun target_model => categorical_target target_model (atoms (-1) 1 3)) d /\ (forall k, dist_table tight 3 (d k)) /\
    forall k policy U, greedy tight (means (atoms (-1) 1 3) (d k)) policy -> ~ optimal_with tight (1 # 2) policy U.
Proof.
  split.
  - intros policy U Adm V s Hs. destruct (tight_values policy U Adm V) as [U1 U0]. cbn in Hs. destruct s as [|[|s]]; [| |lia]; rewrite ?U0, ?U1; [destruct (policy 0 =? 0)|]; lra.
  - set (d := fun s : nat => match s with 0 => [[0; 1 # 8; 7 # 8]; [0; 1 # 16; 15 # 16]]%Q | _ => [[0; 1 # 2; 1 # 2]; [0; 1 # 2; 1 # 2]]%Q end). exists (fun _ => d).
    assert (Td : dist_table tight 3 d). { intros s Hs. cbn in Hs. destruct s as [|[|s]]; [| |lia]; (split; [reflexivity|]); repeat constructor; discriminate. }
    split; [|split; [intros _; exact Td|]].
    + split; [exact Td|]. intros _. split; [intros s Hs; now apply Td|]. intros s a Hs Ha. cbn in Hs, Ha. destruct s as [|[|s]]; [| |lia]; (destruct a as [|[|a]]; [| |lia]);
        (eexists; eexists [_]; split; [reflexivity|]; split; [reflexivity|]; split; [|constructor; [|constructor]; eexists; split; [vm_compute; reflexivity|vm_compute; reflexivity]]; intros j Hj; destruct j as [|[|[|j]]]; [| | |lia]; vm_compute; reflexivity).
    + intros _ policy U G (Adm & V & Opt). specialize (G 0 ltac:(cbn; lia)). assert (P1 : policy 0 = 1).
      { specialize (Adm 0 ltac:(cbn; lia)). cbn in Adm. destruct (policy 0) as [|[|p]]; [|reflexivity|lia]. exfalso. destruct G as (m & E & M). cbn in E. injection E as <-. specialize (M _ (or_intror (or_introl eq_refl))). vm_compute in M. now apply M. }
      destruct (tight_values policy U Adm V) as [_ U0]. rewrite P1 in U0. cbn [Nat.eqb] in U0.
      specialize (Opt (fun _ => 0) (fun s => match s with 0 => 1 | _ => 1 / 2 end)%R). assert (X : (1 <= U 0%nat)%R); [|rewrite U0 in X; lra]. apply (Opt) with (s := 0); [intros s _; cbn; lia| |cbn; lia].
      intros s Hs. cbn in Hs. destruct s as [|[|s]]; [| |lia]; cbn [tight outcomes expected_value]; rewrite ?q34, ?q12; unfold Q2R; cbn; lra.
Qed.

(** ** The problem of C134 with atoms 0, 4, 8 and uniform distributions at first *)
Definition uniform (s : nat) : list (list Q) := [[1 # 3; 1 # 3; 1 # 3]; [1 # 3; 1 # 3; 1 # 3]]%Q.
Example C136_two_uniform : dist_table two 3 uniform.
Proof. intros s _. split; [reflexivity|]. repeat constructor; discriminate. Qed.
Example C136_two_wide : wide_enough two (1 # 2) 0 (top_atom 0 4 3).
Proof. intros s a Hs Ha. cbn in Hs, Ha. destruct s as [|[|s]]; [| |lia]; (destruct a as [|[|a]]; [| |lia]); repeat constructor; discriminate. Qed.
Example C136_two_solved : exists d, d 0 = uniform /\ dist_iterates two (1 # 2) 3 (fun target_model => categorical_target target_model (atoms 0 4 3)) d /\ solves two (1 # 2) 0 4 3 d.
Proof.
  assert (H : unit_interval (1 # 2)) by (split; [discriminate|reflexivity]).
  destruct (C136_iterates_exist two (1 # 2) 0 4 3 uniform C134_two_wf H ltac:(lia) eq_refl C136_two_wide C136_two_uniform) as ((d & E & I) & _). exists d. split; [exact E|]. split; [exact I|].
  exact (C136_categorical_dqn two (1 # 2) 0 4 3 d C134_two_wf H ltac:(lia) eq_refl C136_two_wide I).
Qed.
Example C136_two_distributions : let d := dist_iterated two (1 # 2) 3 (fun target_model => categorical_target target_model (atoms 0 4 3)) uniform in
  map (map Qred) (d 1 0) = [[3 # 4; 1 # 4; 0]; [1 # 2; 1 # 2; 0]]%Q /\ map (map Qred) (d 2 0) = [[3 # 4; 1 # 4; 0]; [3 # 8; 5 # 8; 0]]%Q /\
  map (fun k => map (fun s => map Qred (means (atoms 0 4 3) (d k) s)) [0; 1]) [0; 1; 2; 3] = [[[4; 4]; [4; 4]]; [[1; 2]; [2; 8]]; [[1; 5 # 2]; [1; 8]]; [[1; 21 # 8]; [5 # 4; 8]]]%Q.
Proof. vm_compute. repeat split. Qed.

Print Assumptions C136_categorical_dqn.
Print Assumptions C136_categorical_double_dqn.
Print Assumptions C136_iterates_exist.
Print Assumptions C136_reward_range.
Print Assumptions C136_returns_inside_not_enough.
