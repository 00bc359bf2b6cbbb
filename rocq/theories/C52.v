(** C52: loading a v0.2 episodic buffer. *)
From Verif Require Import Base M_RandomAccessQueue M_ReplayBuffer S_ReplayBuffer M_Episodic S_Episodic P_Episodic.

(** The full claim: after loading an old file, storing goes on without errors. *)
Definition C52_claim : Prop := forall T cap (items : list (trans T)) (ops : list (rb_op T)) b0 b1,
  eb_init false cap = Ok b0 -> eb_load_v02 b0 items = Ok b1 -> is_ok (eb_run b1 ops) = true.
(** False: transitions after the last terminal one belong to no episode, so eviction runs out of episodes and raises
    IndexError while the transition store is still over capacity. *)
Theorem C52_load_v02_refuted : ~ C52_claim.
Proof.
  intros H. specialize (H nat (Some 1) [mkTrans 1 false; mkTrans 2 false] [RAppend 0 (mkTrans 3 true)] _ _ eq_refl eq_refl).
  vm_compute in H. discriminate.
Qed.
Print Assumptions C52_load_v02_refuted.

(** If the file ends with a terminal transition, everything is recovered and the two stores agree. *)
Theorem C52_load_v02_partial : forall T cap (b : ebuf T) items z,
  persistent b = false -> e_cap b = cap -> terminal z = true ->
  exists b', eb_load_v02 b (items ++ [z]) = Ok b' /\
    raq_iter (e_memory b') = map (fun t => [t]) (items ++ [z]) /\
    raq_iter (e_memory b') = flat (raq_iter (episodic_memory b')) /\
    maxlen (e_memory b') = None /\ maxlen (episodic_memory b') = None /\ persistent b' = false /\ e_cap b' = cap.
Proof. exact @load_v02_in_step. Qed.
Print Assumptions C52_load_v02_partial.

Example C52_case :
  (b0 <- eb_init false (Some 4) ;; b1 <- eb_load_v02 b0 [mkTrans 1 false; mkTrans 2 true; mkTrans 3 true] ;;
   Ok (map (map payload) (raq_iter (episodic_memory b1)))) = Ok [[1; 2]; [3]].
Proof. vm_compute. reflexivity. Qed.
