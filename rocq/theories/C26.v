(** C26: ContinuingTimeLimit. *)
From Verif Require Import Base P_Base M_Wrappers S_Wrappers P_Wrappers.
Open Scope nat_scope.

(** After any commands (the environment under the wrapper records its calls in [h]), a step is rejected without touching the
    environment if there was no reset yet; otherwise it makes the same step of the environment and changes only needs_reset,
    which is set exactly if this is at least the [m]-th step since the last reset or the environment itself asks for a reset. *)
Theorem C26_step {W Ob A J} (m : nat) (e : env W Ob A J) : forall w0 cmds w h s rs a,
  run (env_do (continuing_time_limit m (logged e))) ((w0, []), None) cmds = (((w, h), s), rs) ->
  let '((wh1, _), r) := e_step (continuing_time_limit m (logged e)) a ((w, h), s) in
  match steps_since h with
  | None => r = Err AssertionError /\ wh1 = (w, h)
  | Some n =>
      let (w2, r2) := e_step e a w in
      wh1 = (w2, h ++ [(CStep a, RStep r2)]) /\
      match r2 with
      | Err x => r = Err x
      | Ok o => exists o', r = Ok o' /\ o_obs o' = o_obs o /\ o_rew o' = o_rew o /\ o_done o' = o_done o /\ o_info o' = o_info o /\
                           (o_needs o' = true <-> m <= S n \/ o_needs o = true)
      end
  end.
Proof.
  intros w0 cmds w h s rs a H. pose proof (time_limit_ok m e w0 cmds) as T. rewrite H in T. cbn zeta in T. cbn [fst snd] in T. destruct T as [-> T]. specialize (T a).
  destruct (e_step (continuing_time_limit m (logged e)) a ((w, h), steps_since h)) as [[wh1 s1] r]. cbn [fst] in T. destruct (steps_since h) as [n|]; [|exact T].
  destruct (e_step e a w) as [w2 [o|x]]; destruct T as [T1 T2]; (split; [exact T1|]); [|exact T2]. eexists. split; [exact T2|]. cbn [o_obs o_rew o_done o_needs o_info].
  repeat (split; [reflexivity|]). rewrite Bool.orb_true_iff, Nat.leb_le. reflexivity.
Qed.

(** reset is passed on unchanged. *)
Theorem C26_reset {W Ob A J} (m : nat) (e : env W Ob A J) (w : W) (s : option nat) :
  let '((w1, _), r) := e_reset (continuing_time_limit m e) (w, s) in e_reset e w = (w1, r).
Proof. cbn [e_reset continuing_time_limit]. destruct (e_reset e w) as [w1 r]. reflexivity. Qed.

Definition counter : env nat nat nat unit := mkEnv (fun w => (w + 10, Ok (w + 10))) (fun a w => (w + a, Ok (mkOut (w + a) 1%Q false false tt))).
Example C26_ex : snd (run (env_do (continuing_time_limit 2 counter)) (0, None) [CStep 1; CReset; CStep 1; CStep 1; CStep 1; CReset; CStep 1]) =
  [RStep (Err AssertionError); RReset (Ok 10); RStep (Ok (mkOut 11 1%Q false false tt)); RStep (Ok (mkOut 12 1%Q false true tt)); RStep (Ok (mkOut 13 1%Q false true tt));
   RReset (Ok 23); RStep (Ok (mkOut 24 1%Q false false tt))].
Proof. vm_compute. reflexivity. Qed.

Print Assumptions C26_step.
Print Assumptions C26_reset.
