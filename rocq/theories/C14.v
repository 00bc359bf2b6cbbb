(** C14: replay updates happen exactly on schedule. *)
From Verif Require Import Base M_RandomAccessQueue M_SampleNK S_SampleNK M_ReplayBuffer M_Batch P_Batch.

(** Non-episodic: for a ReplayBuffer whose contents update_func does not change, update_if_necessary(it) reports and
    performs n_times_update updates exactly when due, each on batchsize distinct stored experiences.  The only errors are
    those of update_func itself ([OutOfFuel]: the bound of the model on the generator loop, excluded by C02_terminates). *)
Theorem C14_schedule : forall A St fuel (mem : St -> raq A) (orc : St -> oracle) (upd_f : St -> list A -> result St)
   (n_eps : St -> nat) sample_eps (u : updater) (s : St) it,
  u_batchsize u <= u_start u -> u_episodic u = false -> 0 < u_interval u ->
  (forall s b s', upd_f s b = Ok s' -> raq_iter (mem s') = raq_iter (mem s)) ->
  (forall s, numpy_contract (length (raq_iter (mem s))) (u_batchsize u) (orc s)) ->
  let due := (u_start u <= length (raq_iter (mem s))) /\ Nat.divide (u_interval u) it in
  match update_if_necessary (fun s => raq_len (mem s)) n_eps
          (fun s n => xs <- rb_sample fuel (orc s) (mem s) n ;; Ok (s, xs)) sample_eps upd_f u s it with
  | Ok (did, s', bs) =>
      (did = true <-> due) /\ (did = false -> s' = s /\ bs = []) /\
      (did = true -> length bs = u_times u /\
         Forall (fun xs => exists ixs, distinct_sample (length (raq_iter (mem s))) (u_batchsize u) ixs /\
                   Forall2 (fun i x => nth_error (raq_iter (mem s)) i = Some x) ixs xs) bs)
  | Err e => due /\ (e = OutOfFuel \/ exists s1 xs, upd_f s1 xs = Err e)
  end.
Proof. exact @updater_sample_ok. Qed.
Print Assumptions C14_schedule.

(** Episodic: the schedule, for any buffer. *)
Theorem C14_schedule_episodic : forall B St (len n_eps : St -> nat) sample (sample_eps : St -> nat -> option nat -> result (St * B))
   (upd_f : St -> B -> result St) (u : updater) (s : St) it,
  u_episodic u = true -> 0 < u_interval u ->
  let due := u_start u <= len s /\ u_batchsize u <= n_eps s /\ Nat.divide (u_interval u) it in
  match update_if_necessary len n_eps sample sample_eps upd_f u s it with
  | Ok (did, s', bs) => (did = true <-> due) /\ (did = false -> s' = s /\ bs = []) /\ (did = true -> length bs = u_times u)
  | Err e => due /\ exists s1, (sample_eps s1 (u_batchsize u) (u_len u) = Err e) \/ exists xs, upd_f s1 xs = Err e
  end.
Proof. exact @updater_episodic_ok. Qed.
Print Assumptions C14_schedule_episodic.

(** The constructor rejects a batch larger than the start size. *)
Theorem C14_constructor : forall b e n st i l,
  updater_init b e n st i l = if b <=? st then Ok (mkUpd b e n st i l) else Err AssertionError.
Proof. intros. unfold updater_init. now destruct (b <=? st). Qed.
Print Assumptions C14_constructor.

Definition c14_run (it : nat) :=
  update_if_necessary (fun s : nat * raq nat => raq_len (snd s)) (fun _ => 0)
    (fun s n => xs <- rb_sample 5 {| choice_norepl := [2; 0]; draw := fun _ => [] |} (snd s) n ;; Ok (s, xs))
    (fun s _ _ => Err RuntimeError) (fun s b => Ok (S (fst s), snd s)) (mkUpd 2 false 3 4 5 None) (0, mkRaq None [] [7; 8; 9; 6]) it.
Example C14_case : c14_run 10 = Ok (true, (3, mkRaq None [] [7; 8; 9; 6]), [[9; 7]; [9; 7]; [9; 7]]) /\
  c14_run 11 = Ok (false, (0, mkRaq None [] [7; 8; 9; 6]), []).
Proof. vm_compute. split; reflexivity. Qed.
