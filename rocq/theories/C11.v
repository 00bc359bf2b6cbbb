(** C11: persistent episodic buffer. *)
From Verif Require Import Base M_RandomAccessQueue M_ReplayBuffer S_ReplayBuffer M_Episodic S_Episodic P_Episodic.

(** The full claim: as for the in-memory buffer, stored transitions are those of the stored episodes. *)
Definition C11_claim : Prop := forall T cap (ops : list (rb_op T)), cap <> Some 0 ->
  exists b0 b, eb_init true cap = Ok b0 /\ eb_run b0 ops = Ok b /\
    raq_iter (e_memory b) = map (fun t => [t]) (concat (raq_iter (episodic_memory b))).

(** It is false: one episode longer than the capacity keeps all its transitions in the episode store but only the last
    ones in the transition store (the same happens as soon as the total length exceeds the capacity). *)
Theorem C11_persistent_episodic_refuted : ~ C11_claim.
Proof.
  intros H. destruct (H nat (Some 2) [RAppend 0 (mkTrans 1 false); RAppend 0 (mkTrans 2 false); RAppend 0 (mkTrans 3 true)])
    as (b0 & b & E0 & E & Hs); [discriminate|].
  vm_compute in E0. injection E0 as <-. vm_compute in E. injection E as <-. vm_compute in Hs. discriminate.
Qed.
Print Assumptions C11_persistent_episodic_refuted.

(** What the two stores hold instead: each keeps its own newest [capacity] items. *)
Theorem C11_contents : forall T cap (ops : list (rb_op T)),
  exists b0 b, eb_init true cap = Ok b0 /\ eb_run b0 ops = Ok b /\
    raq_iter (e_memory b) = trunc cap (map (fun t => [t]) (concat (finished ops))) /\
    raq_iter (episodic_memory b) = trunc cap (finished ops).
Proof. exact @persistent_episodic_contents. Qed.
Print Assumptions C11_contents.

(** The claim holds as long as all transitions of finished episodes fit (always, without a capacity). *)
Theorem C11_in_step_partial : forall T cap (ops : list (rb_op T)),
  match cap with None => True | Some c => total (finished ops) <= c end ->
  exists b0 b, eb_init true cap = Ok b0 /\ eb_run b0 ops = Ok b /\
    raq_iter (e_memory b) = map (fun t => [t]) (concat (raq_iter (episodic_memory b))) /\
    kept_within cap (finished ops) (raq_iter (episodic_memory b)).
Proof. exact @persistent_episodic_in_step. Qed.
Print Assumptions C11_in_step_partial.

Definition c11_ops : list (rb_op nat) :=
  [RAppend 0 (mkTrans 1 false); RAppend 0 (mkTrans 2 true); RAppend 1 (mkTrans 3 true); RAppend 0 (mkTrans 4 false)].
Example C11_case : total (finished c11_ops) <= 3 /\ map (map payload) (finished c11_ops) = [[1; 2]; [3]].
Proof. vm_compute. split; [lia|reflexivity]. Qed.
