(** C12: loading a saved buffer. *)
From Verif Require Import Base M_RandomAccessQueue M_ReplayBuffer S_ReplayBuffer M_Episodic S_Episodic P_Episodic.

(** Save and load restores exactly the stored experiences; the loader's unfinished windows are untouched. *)
Theorem C12_restores : forall T (a b : rbuf T (raq (list (trans T)))),
  exists b', rb_load b (rb_save a) = Ok b' /\ raq_iter (memory b') = raq_iter (memory a) /\
    num_steps b' = num_steps b /\ last_n b' = last_n b.
Proof. exact @rb_load_restores. Qed.
Print Assumptions C12_restores.

(** After the load and any later operations the buffer holds the newest of the loaded and the new windows, but bounded by
    the capacity of the buffer that was saved. *)
Theorem C12_after_load : forall T capA capB nA nB (opsA opsB ops : list (rb_op T)), 0 < nA -> 0 < nB ->
  exists a0 a b0 b b1 b2, replay_buffer capA nA = Ok a0 /\ rb_run raq_append a0 opsA = Ok a /\
    replay_buffer capB nB = Ok b0 /\ rb_run raq_append b0 opsB = Ok b /\
    rb_load b (rb_save a) = Ok b1 /\ rb_run raq_append b1 ops = Ok b2 /\
    raq_iter (memory b2) = trunc capA (raq_iter (memory a) ++ map snd (log_from nB opsB ops)).
Proof. exact @rb_load_then_run. Qed.
Print Assumptions C12_after_load.

(** The capacity claim: after a load, never more than the loader's capacity. *)
Definition C12_capacity_claim (allowed : option nat -> nat -> Prop) : Prop :=
  forall T capA capB nA nB (opsA opsB ops : list (rb_op T)), allowed capA capB -> 0 < nA -> 0 < nB ->
  forall a0 a b0 b b1 b2, replay_buffer capA nA = Ok a0 -> rb_run raq_append a0 opsA = Ok a ->
    replay_buffer (Some capB) nB = Ok b0 -> rb_run raq_append b0 opsB = Ok b ->
    rb_load b (rb_save a) = Ok b1 -> rb_run raq_append b1 ops = Ok b2 ->
    raq_len (memory b2) <= capB.
Theorem C12_capacity_refuted : ~ C12_capacity_claim (fun _ _ => True).
Proof.
  intros H. pose (o := RAppend 0 (mkTrans 1 false) : rb_op nat).
  specialize (H nat (Some 3) 1 1 1 [o; o; o] [] [o] I ltac:(lia) ltac:(lia)).
  specialize (H _ _ _ _ _ _ eq_refl eq_refl eq_refl eq_refl eq_refl eq_refl). vm_compute in H. lia.
Qed.
Print Assumptions C12_capacity_refuted.

(** It holds when the saved buffer's capacity was not larger. *)
Theorem C12_capacity_partial : C12_capacity_claim (fun capA capB => match capA with Some a => a <= capB | None => False end).
Proof.
  exact (fun T capA capB nA nB opsA opsB ops Hle HA HB a0 a b0 b b1 b2 =>
    rb_load_capacity capA capB nA nB opsA opsB ops Hle HA HB a0 a b0 b b1 b2).
Qed.
Print Assumptions C12_capacity_partial.

(** Episodic buffer: save and load restores both stores; the loader's capacity is enforced again when the next episode
    ends. *)
Theorem C12_episodic_restores_partial : forall T cap (a b : ebuf T) e,
  persistent b = false -> e_cap b = cap -> current b e <> [] ->
  maxlen (episodic_memory a) = None -> maxlen (e_memory a) = None ->
  raq_iter (e_memory a) = flat (raq_iter (episodic_memory a)) ->
  (raq_iter (e_memory (eb_load b (eb_save a))) = raq_iter (e_memory a) /\
   raq_iter (episodic_memory (eb_load b (eb_save a))) = raq_iter (episodic_memory a)) /\
  exists b', eb_stop (eb_load b (eb_save a)) e = Ok b' /\
    raq_iter (e_memory b') = flat (raq_iter (episodic_memory b')) /\
    kept_within cap (raq_iter (episodic_memory a) ++ [current b e]) (raq_iter (episodic_memory b')).
Proof. exact @eb_load_restores_enforces. Qed.
Print Assumptions C12_episodic_restores_partial.

Definition c12_small : list (rb_op nat) := [RAppend 0 (mkTrans 7 false); RAppend 0 (mkTrans 8 true); RAppend 0 (mkTrans 9 false)].
(** Saved with capacity 2, loaded into a buffer of capacity 5, then three more appends: still two experiences. *)
Example C12_case :
  (a0 <- replay_buffer (Some 2) 1 ;; a <- rb_run raq_append a0 c12_small ;;
   b0 <- replay_buffer (Some 5) 2 ;; b1 <- rb_load b0 (rb_save a) ;; b2 <- rb_run raq_append b1 c12_small ;;
   Ok (map (map payload) (raq_iter (memory b1)), map (map payload) (raq_iter (memory b2))))
  = Ok ([[8]; [9]], [[7; 8]; [8]]).
Proof. vm_compute. reflexivity. Qed.
(** An episodic buffer loaded with five transitions into capacity 3. *)
Example C12_case_episodic :
  (a0 <- eb_init false None ;;
   a <- eb_run a0 (map (fun n => RAppend 0 (mkTrans n (n =? 3))) [1; 2; 3; 4; 5] ++ [RStop 0]) ;;
   b0 <- eb_init false (Some 3) ;; b <- eb_run b0 [RAppend 0 (mkTrans 6 false)] ;;
   let b1 := eb_load b (eb_save a) in b2 <- eb_stop b1 0 ;;
   Ok (raq_len (e_memory b1), map (map payload) (raq_iter (episodic_memory b2)))) = Ok (5, [[4; 5]; [6]]).
Proof. vm_compute. reflexivity. Qed.
