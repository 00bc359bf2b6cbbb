(** C73: a loaded ACER agent continues as the saved one.  REFUTED. *)
From Coq Require Import QArith.
From Verif Require Import Base P_Base M_RandomAccessQueue M_SampleNK M_ReplayBuffer M_Episodic M_A3C M_Acer.
Open Scope nat_scope.

(** saved_attributes = ("model", "optimizer"): a snapshot holds the worker's model (the optimizer state is inside [opt] here). *)
Definition snapshot {Ob Act P RS} (s : ast Ob Act P RS) : P := a_model s.

(** No replay buffer, no recurrence; trust_region_alpha = 1/2. *)
Definition ex_net : net nat Q unit := {| value := fun p _ _ => p; advance := fun _ _ _ => tt |}.
Definition ex_cfg : acfg := {| a_t_max := 1; a_recurrent := false; disable_online_update := false; n_times_replay := 0; replay_start_size := 1 |}.
Definition ex_opt (p : Q) (u : aupd nat nat Q unit) : Q := Qred (p + 1).
Definition ex_soft (avg p : Q) : Q := Qred ((1#2) * avg + (1#2) * p).
Definition ex_training : list (aev nat nat Q) := [AAct 0 0; AObserve 1 0%Q true false []].
Definition ex_more : list (aev nat nat Q) := [AAct 2 0; AObserve 3 0%Q true false []].

(** Train one episode; load the snapshot into a new agent that was made exactly as the first; from there, the same calls lead to different updates: the
    average network, which the trust region is measured from, is the initial one in the loaded agent. *)
Theorem C73_load_refuted : exists s os1 os2 s1 s2,
  a_runs ex_net ex_opt ex_soft ex_cfg (a_init 0%Q None) ex_training = Ok (s, os1) /\
  a_runs ex_net ex_opt ex_soft ex_cfg s ex_more = Ok (s1, os2) /\
  exists os3, a_runs ex_net ex_opt ex_soft ex_cfg (a_init 0%Q None) (ALoad (snapshot s) :: ex_more) = Ok (s2, ANothing :: os3) /\ os3 <> os2.
Proof. eexists _, _, _, _, _. split; [vm_compute; reflexivity|]. split; [vm_compute; reflexivity|]. eexists. split; [vm_compute; reflexivity|]. discriminate. Qed.

(** What is missing is exactly the average network: the model and the shared model are restored, everything else is left as it was. *)
Theorem C73_load_partial {Ob Act P RS} (N : net Ob P RS) opt soft c (saved s : ast Ob Act P RS) :
  exists s', a_step N opt soft c s (ALoad (snapshot saved)) = Ok (s', ANothing) /\ a_model s' = a_model saved /\ a_shared s' = a_model saved /\
    a_average s' = a_average s /\ s' = set_params (a_training s) (a_model saved) (a_model saved) (a_average s) s.
Proof. eexists. repeat split. Qed.

(** So in evaluation a loaded agent acts as the saved one. *)
Definition evaluation {Ob Act P} (e : aev Ob Act P) : Prop := match e with AAct _ _ | AObserve _ _ _ _ _ | AOthers _ _ => True | _ => False end.
Theorem C73_evaluation_partial {Ob Act P RS} (N : net Ob P RS) opt soft c (saved s : ast Ob Act P RS) (es : list (aev Ob Act P)) : Forall evaluation es ->
  a_training saved = false -> a_training s = false -> a_test_rs saved = None -> a_test_rs s = None ->
  exists s1 s2 os, a_runs N opt soft c saved es = Ok (s1, os) /\ a_runs N opt soft c s (ALoad (snapshot saved) :: es) = Ok (s2, ANothing :: os).
Proof.
  intros He T1 T2 R1 R2. assert (G : forall es (x y : ast Ob Act P RS), Forall evaluation es -> a_training x = false -> a_training y = false -> a_test_rs x = a_test_rs y -> a_model x = a_model y ->
    exists x' y' os, a_runs N opt soft c x es = Ok (x', os) /\ a_runs N opt soft c y es = Ok (y', os)).
  { clear. induction es as [|e es IH]; intros x y He T1 T2 HR HM; [exists x, y, []; auto|]. inversion He as [|? ? H1 H2]. subst. cbn [a_runs].
    destruct e as [b|o a|o r d z draws|sh av|p]; try contradiction; cbn [a_step]; rewrite ?T1, ?T2; cbn [rbind].
    - destruct (IH (if a_recurrent c then set_a_test_rs (Some (advance N (a_model x) (a_test_rs x) o)) x else x) (if a_recurrent c then set_a_test_rs (Some (advance N (a_model y) (a_test_rs y) o)) y else y)) as (x' & y' & os & E1 & E2);
        try exact H2; try (destruct (a_recurrent c); assumption); [destruct (a_recurrent c); [cbn; congruence|exact HR]|].
      rewrite E1, E2, HM, HR. cbn [rbind]. eexists _, _, _. split; reflexivity.
    - destruct (IH (if d || z then set_a_test_rs None x else x) (if d || z then set_a_test_rs None y else y)) as (x' & y' & os & E1 & E2);
        try exact H2; try (destruct (d || z); assumption); [destruct (d || z); [reflexivity|exact HR]|].
      rewrite E1, E2. cbn [rbind]. eexists _, _, _. split; reflexivity.
    - destruct (IH (set_params false (a_model x) sh av x) (set_params false (a_model y) sh av y)) as (x' & y' & os & E1 & E2);
        try exact H2; try reflexivity; try assumption.
      rewrite E1, E2. cbn [rbind]. eexists _, _, _. split; reflexivity. }
  destruct (G es saved (set_params false (a_model saved) (a_model saved) (a_average s) s) He T1 eq_refl) as (x & y & os & E1 & E2); [cbn; congruence|reflexivity|].
  exists x, y, os. split; [exact E1|]. cbn [a_runs a_step rbind]. unfold snapshot. rewrite T2, E2. reflexivity.
Qed.

Example C73_ex_hyp : Forall evaluation [AAct 2 0; AObserve 3 0%Q true false []; AOthers 5%Q 6%Q; AAct 4 0] /\
  a_training (set_params false 7%Q 7%Q 7%Q (a_init (Ob := nat) (Act := nat) (RS := unit) 0%Q None)) = false.
Proof. repeat constructor. Qed.

Print Assumptions C73_load_refuted.
Print Assumptions C73_load_partial.
Print Assumptions C73_evaluation_partial.
