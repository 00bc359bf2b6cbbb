(** C61: two successive training runs with the same A2C agent. *)
From Coq Require Import QArith.
From Verif Require Import Base P_Base M_A2C S_A2C P_A2C.
Open Scope nat_scope.

(** Once an agent has made more than update_steps + 1 steps before its last update, a further training run that starts at step 0 (the
    default) raises IndexError at the first act: t goes back to 0, t_start does not. *)
Theorem C61_second_run_refuted {Ob Act} (update_steps : nat) (s : a2c Ob Act) (obs : list Ob) (acts : list Act) (values : list Q) :
  (Z.of_nat update_steps + 1 < t_start s)%Z ->
  snd (call update_steps (set_offset 0 s) (BatchAct true obs acts values)) = Err IndexError.
Proof.
  intros H. cbn [call]. unfold batch_act_train, set_offset, flush_storage. cbn [t t_start sto Z.eqb get_sto rbind states]. unfold py_set.
  destruct (Z.ltb_spec (0 - t_start s) 0); [|lia]. rewrite repeat_length. destruct (Z.ltb_spec (0 - t_start s + Z.of_nat (update_steps + 1)) 0); [|lia]. reflexivity.
Qed.

(** Such a state is reached by ordinary training: two updates with two steps each. *)
Definition first_run : list (op nat nat) := concat (repeat [BatchAct true [1] [2] [0%Q]; BatchObserve true [3] [1%Q] [false] [false]] 4).
Theorem C61_second_run_reached_refuted : alternating false (first_run ++ first_run) /\
  Forall (fun r => is_ok r = true) (snd (run (call 2) a2c_init first_run)) /\
  hd_error (snd (run (call 2) (set_offset 0 (fst (run (call 2) a2c_init first_run))) first_run)) = Some (Err IndexError).
Proof. split; [vm_compute; repeat split|]. split; [vm_compute; repeat constructor|vm_compute; reflexivity]. Qed.

(** With only one update in the first run there is no exception, but the first steps of the second run are not used for any update. *)
Definition short_run : list (op nat nat) := concat (repeat [BatchAct true [1] [2] [0%Q]; BatchObserve true [3] [1%Q] [false] [false]] 2).
Theorem C61_second_run_skips_refuted :
  snd (run (call 2) (set_offset 0 (fst (run (call 2) a2c_init short_run))) short_run) = [Ok None; Ok None; Ok None; Ok None] /\
  nth_error (snd (run (call 2) a2c_init short_run)) 3 <> Some (Ok None).
Proof. split; [vm_compute; reflexivity|vm_compute; discriminate]. Qed.

(** What holds: a second run works if no update has been made in the first (t_start is still 0). *)
Theorem C61_second_run_partial {Ob Act} (update_steps : nat) (s : a2c Ob Act) (ops : list (op Ob Act)) : 1 <= update_steps -> t_start s = 0%Z -> alternating false ops ->
  snd (run (call update_steps) (set_offset 0 s) ops) = snd (run (ref_call update_steps) ref_init ops).
Proof.
  intros Hn Hs Ha. apply (storage_refines update_steps Hn ops false); [exact Ha|]. unfold inv, set_offset, ref_init. cbn [steps length chosen t t_start sto]. rewrite Hs.
  split; [lia|]. split; [reflexivity|]. split; [lia|]. split; [reflexivity|]. left. reflexivity.
Qed.

Print Assumptions C61_second_run_refuted.
Print Assumptions C61_second_run_reached_refuted.
Print Assumptions C61_second_run_skips_refuted.
Print Assumptions C61_second_run_partial.
