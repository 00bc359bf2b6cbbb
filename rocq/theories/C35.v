(** C35: A2C cannot be resumed with a step offset. *)
From Coq Require Import QArith.
From Verif Require Import Base P_Base M_A2C S_A2C P_A2C.
Open Scope nat_scope.

(** train_agent_batch sets agent.t to step_offset before the first call.  For every positive offset the first act of a new agent raises
    AttributeError: the storage is only created when t = 0. *)
Theorem C35_resume_refuted {Ob Act} (update_steps : nat) (offset : Z) (obs : list Ob) (acts : list Act) (values : list Q) : 1 <= update_steps -> (0 < offset)%Z ->
  snd (call update_steps (set_offset offset a2c_init) (BatchAct true obs acts values)) = Err AttributeError /\
  snd (call update_steps (set_offset 0 a2c_init) (BatchAct true obs acts values)) = Ok None.
Proof.
  intros Hn H. split.
  - cbn [call]. unfold batch_act_train, set_offset, a2c_init. cbn [t t_start sto]. destruct (Z.eqb_spec offset 0); [lia|]. reflexivity.
  - change (set_offset 0 (@a2c_init Ob Act)) with (@a2c_init Ob Act).
    destruct (inv_act update_steps Hn a2c_init ref_init obs acts values (inv_init update_steps Hn)) as (s' & E & _). rewrite E. reflexivity.
Qed.

(** What holds: with offset 0 a new agent works (C60), and an agent that stays in memory can be trained further with its own number of
    steps as the offset: the offset then changes nothing, so all updates are as in one long run. *)
Theorem C35_resume_partial {Ob Act} (update_steps : nat) (ops ops' : list (op Ob Act)) : 1 <= update_steps -> alternating false (ops ++ ops') ->
  let s := fst (run (call update_steps) (set_offset 0 a2c_init) ops) in
  snd (run (call update_steps) (set_offset 0 a2c_init) ops) ++ snd (run (call update_steps) (set_offset (t s) s) ops') =
  snd (run (ref_call update_steps) ref_init (ops ++ ops')).
Proof.
  intros Hn Ha. cbn zeta. change (set_offset 0 (@a2c_init Ob Act)) with (@a2c_init Ob Act).
  rewrite <- (storage_refines update_steps Hn (ops ++ ops') false a2c_init ref_init Ha (inv_init update_steps Hn)).
  rewrite run_app. destruct (run (call update_steps) a2c_init ops) as [s r] eqn:E. cbn [fst snd].
  replace (set_offset (t s) s) with s by (destruct s; reflexivity). destruct (run (call update_steps) s ops'). reflexivity.
Qed.

Print Assumptions C35_resume_refuted.
Print Assumptions C35_resume_partial.
