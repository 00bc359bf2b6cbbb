(** C57: what reset() of NoopResetEnv and FireResetEnv returns. *)
From Verif Require Import Base P_Base M_Wrappers S_Wrappers P_Wrappers.
Open Scope nat_scope.

(** NoopResetEnv: if reset() returns, then the game was reset, [noops] no-op steps were made (the game being reset again
    whenever it ended meanwhile), the game is not over and the observation returned is the latest one of the game. *)
Theorem C57_noop_reset {W Ob A J} (e : env W Ob A J) (noops : nat) (noop : A) : forall w h w' h' o,
  e_reset (noop_reset noops noop (logged e)) (w, h) = ((w', h'), Ok o) ->
  exists r h1, h' = h ++ (CReset, RReset r) :: h1 /\ latest_obs h1 = Some o /\ game_over h1 = false /\
    length (filter (fun cr => match fst cr with CStep _ => true | CReset => false end) h1) = noops.
Proof. intros w h w' h' o. exact (noop_reset_ok e noops noop w h w' h' o). Qed.

(** FireResetEnv: the game is not over after reset(); the observation returned is the latest one unless the second step
    ended the game.  Missing: that case, in which the observation is stale (see below). *)
Theorem C57_fire_reset_partial {W Ob A J} (e : env W Ob A J) (one two : A) : forall w h w' h' o,
  e_reset (fire_reset one two (logged e)) (w, h) = ((w', h'), Ok o) ->
  game_over h' = false /\ ((forall before r, h' <> before ++ [(CReset, RReset r)]) -> latest_obs h' = Some o).
Proof.
  intros w h w' h' o H. destruct (fire_reset_ok e one two w h w' h' o H) as (G & h1 & o2 & Ho & Hh). split; [exact G|]. intros N.
  destruct (over o2); [destruct Hh as [r Hh]; exfalso; apply (N (h1 ++ [(CStep two, RStep (Ok o2))]) r); rewrite <- app_assoc; exact Hh|].
  rewrite Hh, latest_snoc, Ho. reflexivity.
Qed.

(** A game that ends at its second step; the observation is (number of resets, steps since reset). *)
Definition short : env (nat * nat) (nat * nat) nat unit :=
  mkEnv (fun '(g, t) => ((S g, 0), Ok (S g, 0))) (fun a '(g, t) => ((g, S t), Ok (mkOut (g, S t) 1%Q (S t =? 2) false tt))).
Example C57_ex_noop : let '((_, h), r) := e_reset (noop_reset 3 0 (logged short)) ((0, 0), []) in
  r = Ok (2, 1) /\ map fst h = [CReset; CStep 0; CStep 0; CReset; CStep 0].
Proof. vm_compute. auto. Qed.

(** The game ended at the second step and was reset, but the observation of the game that ended is returned. *)
Theorem C57_fire_reset_refuted : exists (e : env (nat * nat) (nat * nat) nat unit) one two w w' h' o o',
  e_reset (fire_reset one two (logged e)) (w, []) = ((w', h'), Ok o) /\ latest_obs h' = Some o' /\ o <> o'.
Proof.
  exists short, 1, 2, (0, 0).
  do 4 eexists. split; [vm_compute; reflexivity|]. split; [vm_compute; reflexivity|]. discriminate.
Qed.

Print Assumptions C57_noop_reset.
Print Assumptions C57_fire_reset_partial.
Print Assumptions C57_fire_reset_refuted.
