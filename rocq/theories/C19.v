(** C19: step_offset in asynchronous training. *)
From Verif Require Import Base M_Train S_Train M_Async S_Async P_Async.

(** The claim: the step numbers obtained are offset + 1, offset + 2, ... *)
Definition C19_claim : Prop := forall (P : async_args) processes offset xs g ws tr,
  1 <= as_steps P -> 1 <= processes ->
  train_agent_async processes offset P xs = ((g, ws), tr) ->
  map snd (obtained tr) = seq (S offset) (length (obtained tr)).

(** It is false: resuming at offset 10 with one process, the first step number is 1. *)
Definition C19_P := mkAsync 12 None None 0 false.
Definition C19_xs := repeat (SRun 0 (mkCh false 1 true false None)) 5.
Example C19_ex : map snd (obtained (snd (train_agent_async 1 10 C19_P C19_xs))) = [1].
Proof. vm_compute. reflexivity. Qed.
Theorem C19_resume_refuted : ~ C19_claim.
Proof.
  intros H. specialize (H C19_P 1 10 C19_xs). destruct (train_agent_async 1 10 C19_P C19_xs) as [[g ws] tr] eqn:E.
  specialize (H g ws tr ltac:(cbn; lia) (le_n 1) eq_refl). pose proof C19_ex as X. rewrite E in X. cbn [snd] in X. rewrite X in H.
  destruct (obtained tr) as [|a [|b l]]; discriminate.
Qed.

(** What holds instead: the numbers always start at 1, whatever the offset, and a run that completes without the stop event
    makes at least [steps] further steps rather than steps - offset. *)
Theorem C19_resume_partial (P : async_args) processes offset xs g ws tr :
  1 <= as_steps P -> 1 <= processes ->
  train_agent_async processes offset P xs = ((g, ws), tr) ->
  map snd (obtained tr) = seq 1 (sh_counter g) /\
  (Forall returned ws -> sh_stop g = false -> as_steps P <= sh_counter g).
Proof. intros H1 H2 H3. split; [exact (proj1 (async_ok P H1 processes offset xs g ws tr H2 H3))|exact (async_complete P H1 processes offset xs g ws tr H2 H3)]. Qed.
Print Assumptions C19_resume_refuted.
Print Assumptions C19_resume_partial.
