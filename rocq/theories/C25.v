(** C25: frame stacking. *)
From Verif Require Import Base P_Base M_Wrappers S_Wrappers P_Wrappers.
Open Scope nat_scope.

(** FrameStack: whatever commands were given before (and whatever is in the deque initially), if the environment was reset,
    then the last answer is the answer of the environment with the observation replaced by the stack of the last [k] frames
    of the current episode; the environment is driven exactly as without the wrapper. *)
Theorem C25_frame_stack {W Ob A J} (k : nat) (e : env W Ob A J) : 1 <= k -> forall w0 fr0 cmds,
  let '(w, rs) := run (env_do e) w0 cmds in
  let '((w', _), rs') := run (env_do (frame_stack k e)) (w0, fr0) cmds in
  w' = w /\ length rs' = length rs /\
  forall before r before' r' fs, rs = before ++ [r] -> rs' = before' ++ [r'] -> frames_of rs = Some fs -> r' = with_obs (stacked k fs) r.
Proof.
  intros Hk w0 fr0 cmds. pose proof (frame_stack_ok k Hk e w0 fr0 cmds) as H. unfold fs_rel in H.
  destruct (run (env_do e) w0 cmds) as [w rs]. destruct (run (env_do (frame_stack k e)) (w0, fr0) cmds) as [[w' fr] rs'].
  destruct H as (H1 & H2 & _ & H4). split; [exact H1|]. split; [exact H2|]. intros before r before' r' fs -> -> E.
  rewrite !rev_app_distr in H4. cbn [rev app] in H4. rewrite E in H4. exact H4.
Qed.

(** VectorFrameStack: the same for every member; [true] in the mask of reset means "do not reset". *)
Theorem C25_vector_frame_stack {W Ob A J} (n k : nat) (e : venv W Ob A J) : 1 <= n -> 1 <= k -> v_complete n e -> forall w0 cmds, masks_ok n cmds ->
  let '(w, rs) := run (venv_do e) w0 cmds in
  let '((w', _), rs') := run (venv_do (vector_frame_stack n k e)) (w0, repeat [] n) cmds in
  w' = w /\
  forall before r before' r' s, rs = before ++ [r] -> rs' = before' ++ [r'] -> vstacks k (combine cmds rs) (seq 0 n) = Some s -> r' = vwith_obs s r.
Proof.
  intros Hn Hk Hc w0 cmds Hm. pose proof (vector_frame_stack_ok n k Hn Hk e w0 Hc cmds Hm) as H. unfold vfs_rel in H.
  destruct (run (venv_do e) w0 cmds) as [w rs]. destruct (run (venv_do (vector_frame_stack n k e)) (w0, repeat [] n) cmds) as [[w' fr] rs'].
  destruct H as (H1 & _ & _ & H4). split; [exact H1|]. intros before r before' r' s E1 E2 E.
  assert (R1 : rev rs = r :: rev before) by (rewrite E1, rev_app_distr; reflexivity). assert (R2 : rev rs' = r' :: rev before') by (rewrite E2, rev_app_distr; reflexivity).
  rewrite R1, R2 in H4. exact (H4 s E).
Qed.

(** A counting environment: three frames are stacked; the second reset forgets the first episode. *)
Definition counter : env nat nat nat unit := mkEnv (fun w => (w + 10, Ok (w + 10))) (fun a w => (w + a, Ok (mkOut (w + a) 1%Q false false tt))).
Example C25_ex : run (env_do (frame_stack 3 counter)) (0, []) [CReset; CStep 1; CStep 1; CStep 1; CReset; CStep 2] =
  ((25, [23; 23; 25]),
   [RReset (Ok [10; 10; 10]); RStep (Ok (mkOut [10; 10; 11] 1%Q false false tt)); RStep (Ok (mkOut [10; 11; 12] 1%Q false false tt));
    RStep (Ok (mkOut [11; 12; 13] 1%Q false false tt)); RReset (Ok [23; 23; 23]); RStep (Ok (mkOut [23; 23; 25] 1%Q false false tt))]).
Proof. vm_compute. reflexivity. Qed.
Definition counters : venv nat nat nat unit :=
  mkVEnv (fun m w => (w + 10, Ok [w + 10; w + 10])) (fun a w => (w + 1, Ok [mkOut (w + 1) 1%Q false false tt; mkOut (w + 1) 1%Q false false tt])).
Example C25_ex_vector : run (venv_do (vector_frame_stack 2 2 counters)) (0, [[]; []]) [VCReset None; VCStep [0; 0]; VCReset (Some [true; false])] =
  ((21, [[10; 11]; [21; 21]]),
   [VRReset (Ok [[10; 10]; [10; 10]]); VRStep (Ok [mkOut [10; 11] 1%Q false false tt; mkOut [10; 11] 1%Q false false tt]); VRReset (Ok [[10; 11]; [21; 21]])])
  /\ v_complete 2 counters /\ vstacks 2 (combine [VCReset None; VCStep [0; 0]; VCReset (Some [true; false])] (snd (run (venv_do counters) 0 [VCReset None; VCStep [0; 0]; VCReset (Some [true; false])]))) (seq 0 2) = Some [[10; 11]; [21; 21]].
Proof. split; [vm_compute; reflexivity|]. split; [|vm_compute; reflexivity]. split; intros x w w' o H; injection H as _ <-; reflexivity. Qed.

Print Assumptions C25_frame_stack.
Print Assumptions C25_vector_frame_stack.
