(** C58: pfrl.utils.env_modifiers. *)
From Verif Require Import Base P_Base M_Wrappers S_Wrappers P_Wrappers.
Open Scope nat_scope.

(** make_timestep_limited: after any commands, a step is the step of the environment, with done also reported exactly if it
    is at least the [limit]-th one since the last reset. *)
Theorem C58_timestep_limited {W Ob A J} (e : env W Ob A J) (limit : nat) : forall w0 cmds w h s rs a,
  run (env_do (timestep_limited limit (logged e))) ((w0, []), 1) cmds = (((w, h), s), rs) ->
  let '((wh1, _), r) := e_step (timestep_limited limit (logged e)) a ((w, h), s) in
  let (w2, r2) := e_step e a w in
  wh1 = (w2, h ++ [(CStep a, RStep r2)]) /\
  match r2 with
  | Err x => r = Err x
  | Ok o => exists o', r = Ok o' /\ o_obs o' = o_obs o /\ o_rew o' = o_rew o /\ o_needs o' = o_needs o /\ o_info o' = o_info o /\
                       (o_done o' = true <-> limit <= S (steps_in_episode h) \/ o_done o = true)
  end.
Proof.
  intros w0 cmds w h s rs a H. pose proof (timestep_limited_ok e limit w0 cmds a) as T. rewrite H in T. cbn zeta in T. cbn [fst snd] in T.
  cbn [e_step timestep_limited logged] in *. destruct (e_step e a w) as [w2 [o|x]].
  - split; [reflexivity|]. eexists. split; [exact T|]. cbn [o_obs o_rew o_done o_needs o_info]. repeat (split; [reflexivity|]). rewrite Bool.orb_true_iff, Nat.leb_le. reflexivity.
  - split; [reflexivity|]. exact T.
Qed.

(** make_action_repeated: the action is repeated until done or [n] times, the rewards are added up, and the rest is the
    answer to the last step made. *)
Theorem C58_action_repeated {W Ob A J} (e : env W Ob A J) (n : nat) : 1 <= n -> forall a w h w' h' r,
  e_step (action_repeated n (logged e)) a (w, h) = ((w', h'), Ok r) ->
  exists outs lst, h' = h ++ step_calls a (outs ++ [lst]) /\ length outs < n /\ Forall (fun o => o_done o = false) outs /\
    (S (length outs) = n \/ o_done lst = true) /\ (o_rew r == rewards (outs ++ [lst]))%Q /\
    o_obs r = o_obs lst /\ o_done r = o_done lst /\ o_needs r = o_needs lst /\ o_info r = o_info lst.
Proof.
  intros Hn a w h w' h' r H. destruct (repeat_loop_ok e a n 0%Q w h None w' h' r Hn H) as (outs & lst & H1 & H2 & H3 & H4 & H5 & H6). exists outs, lst.
  split; [exact H1|]. split; [exact H2|]. split; [exact H3|]. split; [exact H4|]. split; [rewrite H5; apply Qplus_0_l|exact H6].
Qed.

Definition short : env (nat * nat) (nat * nat) nat unit :=
  mkEnv (fun '(g, t) => ((S g, 0), Ok (S g, 0))) (fun a '(g, t) => ((g, S t), Ok (mkOut (g, S t) 1%Q (S t =? 5) false tt))).
Example C58_ex : map (fun r => match r with RStep (Ok o) => Some (o_done o) | _ => None end)
    (snd (run (env_do (timestep_limited 2 short)) ((0, 0), 1) [CReset; CStep 0; CStep 0; CStep 0; CReset; CStep 0])) =
  [None; Some false; Some true; Some true; None; Some false].
Proof. vm_compute. reflexivity. Qed.
Example C58_ex_repeat : snd (run (env_do (action_repeated 3 short)) (0, 0) [CReset; CStep 0; CStep 0]) =
  [RReset (Ok (1, 0)); RStep (Ok (mkOut (1, 3) 3%Q false false tt)); RStep (Ok (mkOut (1, 5) 2%Q true false tt))].
Proof. vm_compute. reflexivity. Qed.

Print Assumptions C58_timestep_limited.
Print Assumptions C58_action_repeated.
