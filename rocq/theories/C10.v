(** C10: episodic buffer: transitions and episodes stay in step and within capacity. *)
From Verif Require Import Base M_RandomAccessQueue M_ReplayBuffer S_ReplayBuffer M_Episodic S_Episodic P_Episodic.

(** For every history: no operation fails; the stored transitions are the concatenation of the stored episodes; the
    stored episodes are the newest finished ones that fit into the capacity (whole oldest ones evicted, no more than
    necessary); unfinished episodes are untouched. *)
Theorem C10_in_step : forall T cap (ops : list (rb_op T)),
  exists b0 b, eb_init false cap = Ok b0 /\ eb_run b0 ops = Ok b /\
    raq_iter (e_memory b) = map (fun t => [t]) (concat (raq_iter (episodic_memory b))) /\
    kept_within cap (finished ops) (raq_iter (episodic_memory b)) /\
    (forall e, current b e = snd (episodes e ops)).
Proof. exact @episodic_in_step. Qed.
Print Assumptions C10_in_step.

(** Two environments, capacity 4: finishing the third episode evicts the first one. *)
Definition c10_ops : list (rb_op nat) :=
  [RAppend 0 (mkTrans 1 false); RAppend 1 (mkTrans 11 false); RAppend 0 (mkTrans 2 true); RAppend 1 (mkTrans 12 false);
   RStop 1; RAppend 0 (mkTrans 3 false); RAppend 1 (mkTrans 13 false); RAppend 0 (mkTrans 4 true)].
Example C10_case :
  (b0 <- eb_init false (Some 4) ;; b <- eb_run b0 c10_ops ;;
   Ok (map (map payload) (raq_iter (episodic_memory b)), map (map payload) (raq_iter (e_memory b)), map payload (current b 1)))
  = Ok ([[11; 12]; [3; 4]], [[11]; [12]; [3]; [4]], [13]).
Proof. vm_compute. reflexivity. Qed.
