(** C28: EpisodicLifeEnv. *)
From Verif Require Import Base P_Base M_Wrappers S_Wrappers P_Wrappers.
Open Scope nat_scope.

(** [h] are the calls received by the game.  reset() after a step (which did not raise): if the game is over then the game is
    reset and the answer of the game is returned, otherwise exactly one no-op step is made and its observation is returned.
    Missing: reset() that directly follows another reset(), where the rule fails (see below). *)
Theorem C28_reset_partial {W Ob A J} (e : env W Ob A J) (lives : W -> Z) (noop : A) : forall w0 cmds a w h s rs o,
  let E := episodic_life (fun wl => lives (fst wl)) noop (logged e) in
  run (env_do E) ((w0, []), (0%Z, true)) (cmds ++ [CStep a]) = (((w, h), s), rs ++ [RStep (Ok o)]) ->
  let '((wh, _), r) := e_reset E ((w, h), s) in
  if game_over h then let (w1, r1) := e_reset e w in wh = (w1, h ++ [(CReset, RReset r1)]) /\ r = r1
  else let (w1, r1) := e_step e noop w in wh = (w1, h ++ [(CStep noop, RStep r1)]) /\ r = rmap o_obs r1.
Proof.
  intros w0 cmds a w h [lv nrr] rs o E H. destruct (episodic_after_step lives noop e w0 cmds a w h lv nrr rs o H) as [-> ->]. unfold E. cbn [e_reset e_step episodic_life logged fst].
  destruct (game_over h); [destruct (e_reset e w) as [w1 [r1|x]]|destruct (e_step e noop w) as [w1 [r1|x]]]; cbn; auto.
Qed.

(** The very first reset() resets the game. *)
Theorem C28_first_reset_partial {W Ob A J} (e : env W Ob A J) (lives : W -> Z) (noop : A) (w0 : W) :
  let E := episodic_life (fun wl => lives (fst wl)) noop (logged e) in
  let '((wh, _), r) := e_reset E ((w0, []), (0%Z, true)) in let (w1, r1) := e_reset e w0 in wh = (w1, [(CReset, RReset r1)]) /\ r = r1.
Proof. cbn [e_reset episodic_life logged]. destruct (e_reset e w0) as [w1 [r1|x]]; cbn; auto. Qed.

(** A step passes everything on except done, which is also reported if the number of lives dropped (compared with the state
    before the step) to a positive number.  It holds after any commands the last of which did not raise. *)
Theorem C28_step {W Ob A J} (e : env W Ob A J) (lives : W -> Z) (noop : A) : forall w0 cmds a w h s rs r0,
  let E := episodic_life (fun wl => lives (fst wl)) noop (logged e) in
  run (env_do E) ((w0, []), (0%Z, true)) cmds = (((w, h), s), rs ++ [r0]) -> ok_reply r0 = true ->
  let '((wh, _), r) := e_step E a ((w, h), s) in
  let (w1, r1) := e_step e a w in
  wh = (w1, h ++ [(CStep a, RStep r1)]) /\
  match r1 with
  | Err x => r = Err x
  | Ok o => exists o', r = Ok o' /\ o_obs o' = o_obs o /\ o_rew o' = o_rew o /\ o_needs o' = o_needs o /\ o_info o' = o_info o /\
                       (o_done o' = true <-> o_done o = true \/ (0 < lives w1 < lives w)%Z)
  end.
Proof.
  intros w0 cmds a w h [lv nrr] rs r0 E H Hok. pose proof (episodic_lives lives noop e w0 cmds w h lv nrr rs r0 H Hok) as ->. unfold E. cbn [e_step episodic_life logged fst].
  destruct (e_step e a w) as [w1 [o|x]]; cbn [fst]; (split; [reflexivity|]); [|reflexivity]. eexists. split; [reflexivity|]. cbn [o_obs o_rew o_done o_needs o_info].
  repeat (split; [reflexivity|]). destruct ((lives w1 <? lives w)%Z && (0 <? lives w1)%Z) eqn:El.
  - split; [intros _; right; lia|reflexivity].
  - split; [left; assumption|]. intros [Hd|Hl]; [exact Hd|]. lia.
Qed.

(** A game given as the list of what the next steps do (lives left, done); reset continues with the list. *)
Definition script : env (Z * list (Z * bool)) nat nat unit :=
  mkEnv (fun '(_, l) => ((3%Z, l), Ok 100))
        (fun a '(lv, l) => match l with (lv', d) :: l => ((lv', l), Ok (mkOut a 1%Q d false tt)) | [] => ((lv, []), Ok (mkOut a 1%Q true false tt)) end).
Definition EL := episodic_life (fun wl : (Z * list (Z * bool)) * list (cmd nat * reply nat unit) => fst (fst wl)) 0 (logged script).
Definition start (l : list (Z * bool)) : ((Z * list (Z * bool)) * list (cmd nat * reply nat unit)) * (Z * bool) := (((0%Z, l), []), (0%Z, true)).
(** A life is lost (done is reported although the game goes on); the next reset is a no-op; then the game is really over and
    the next reset is real. *)
Example C28_ex : let '((_, h), _, rs) := run (env_do EL) (start [(3, false); (2, false); (2, false); (0, true)]%Z) [CReset; CStep 7; CStep 7; CReset; CStep 7; CReset] in
  map fst h = [CReset; CStep 7; CStep 7; CStep 0; CStep 7; CReset] /\
  map (fun r => match r with RStep (Ok o) => Some (o_done o) | _ => None end) rs = [None; Some false; Some true; None; Some true; None].
Proof. vm_compute. auto. Qed.

(** The claim is false as it stands, in both directions: if the no-op step made by reset() ends the game, the next reset()
    does not reset the game although it is over; and two reset() in a row at the beginning both reset the game, although it
    is not over. *)
Theorem C28_reset_refuted :
  (exists l cmds w h s rs, run (env_do EL) (start l) cmds = (((w, h), s), rs) /\ game_over h = true /\
     snd (fst (fst (e_reset EL ((w, h), s)))) = h ++ [(CStep 0, RStep (Ok (mkOut 0 1%Q true false tt)))]) /\
  (exists l cmds w h s rs, run (env_do EL) (start l) cmds = (((w, h), s), rs) /\ game_over h = false /\
     snd (fst (fst (e_reset EL ((w, h), s)))) = h ++ [(CReset, RReset (Ok 100))]).
Proof.
  split.
  - exists [(2, false); (0, true); (0, true)]%Z, [CReset; CStep 7; CReset]. do 4 eexists. split; [vm_compute; reflexivity|]. split; vm_compute; reflexivity.
  - exists [], [CReset]. do 4 eexists. split; [vm_compute; reflexivity|]. split; vm_compute; reflexivity.
Qed.

Print Assumptions C28_reset_partial.
Print Assumptions C28_first_reset_partial.
Print Assumptions C28_step.
Print Assumptions C28_reset_refuted.
