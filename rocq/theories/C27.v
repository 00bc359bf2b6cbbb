(** C27: MaxAndSkipEnv. *)
From Verif Require Import Base P_Base M_Wrappers S_Wrappers P_Wrappers.
Open Scope nat_scope.

(** What one step is supposed to do: the calls made to the environment are the same action repeated, [outs ++ [lst]] being
    the answers; only the last one may end the episode, and if it does not then [skip] steps were made. *)
Definition repeats {A J} (skip : nat) (a : A) (h h' : list (cmd A * reply (list Z) J)) (outs : list (out (list Z) J)) (lst : out (list Z) J) : Prop :=
  h' = h ++ step_calls a (outs ++ [lst]) /\ length outs < skip /\ Forall (fun o => over o = false) outs /\ (S (length outs) = skip \/ over lst = true).

(** What is proved: the calls, the reward (exact sum), done, needs_reset and info of the last step; the frame only if all
    [skip] >= 2 steps were made.  Missing: the frame when the episode ended earlier, which is wrong (see below). *)
Theorem C27_step_partial {W A J} (e : env W (list Z) A J) (skip : nat) : 1 <= skip -> forall a w h buf w' h' buf' r,
  e_step (max_and_skip skip (logged e)) a ((w, h), buf) = (((w', h'), buf'), Ok r) ->
  exists outs lst, repeats skip a h h' outs lst /\ (o_rew r == rewards (outs ++ [lst]))%Q /\
    o_done r = o_done lst /\ o_needs r = o_needs lst /\ o_info r = o_info lst /\
    (S (length outs) = skip -> forall before prev, outs = before ++ [prev] -> o_obs r = pixmax (o_obs prev) (o_obs lst)).
Proof.
  intros Hs a w h buf w' h' buf' r H. destruct (max_and_skip_ok e skip a w h buf w' h' buf' r Hs H) as (outs & lst & H1 & H2 & H3 & H4 & H5 & H6 & H7 & H8 & H9).
  exists outs, lst. unfold repeats. auto 12.
Qed.

(** A game that shows the number of the frame (one pixel) and ends with frame 6. *)
Definition game : env Z (list Z) unit unit :=
  mkEnv (fun _ => (0%Z, Ok [0%Z])) (fun _ w => let w := (w + 1)%Z in (w, Ok (mkOut [w] 1%Q (w =? 6)%Z false tt))).
Example C27_ex : e_step (max_and_skip 4 (logged game)) tt ((0%Z, []), ([100%Z], [100%Z])) =
  (((4%Z, step_calls tt (map (fun w => mkOut [w] 1%Q false false tt) [1; 2; 3; 4]%Z)), ([3%Z], [4%Z])), Ok (mkOut [4%Z] 4%Q false false tt)).
Proof. vm_compute. reflexivity. Qed.

(** The full claim is false: with skip = 4 the second step executes the frames 5 and 6, but the frame returned is the one of
    the first step (frames 3 and 4). *)
Theorem C27_frame_refuted : exists (e : env Z (list Z) unit unit) skip a w buf w1 h1 buf1 r1 w2 h2 buf2 r2 prev lst,
  1 <= skip /\
  e_step (max_and_skip skip (logged e)) a ((w, []), buf) = (((w1, h1), buf1), Ok r1) /\
  e_step (max_and_skip skip (logged e)) a ((w1, h1), buf1) = (((w2, h2), buf2), Ok r2) /\
  repeats skip a h1 h2 [prev] lst /\ o_obs r2 = o_obs r1 /\ o_obs r2 <> pixmax (o_obs prev) (o_obs lst).
Proof.
  exists game, 4, tt, 0%Z, ([0%Z], [0%Z]).
  do 8 eexists. exists (mkOut [5%Z] 1%Q false false tt), (mkOut [6%Z] 1%Q true false tt).
  split; [lia|]. split; [vm_compute; reflexivity|]. split; [vm_compute; reflexivity|]. split; [|split; [reflexivity|discriminate]].
  unfold repeats. split; [reflexivity|]. split; [cbn; lia|]. split; [constructor; [reflexivity|constructor]|]. right. reflexivity.
Qed.

Print Assumptions C27_step_partial.
Print Assumptions C27_frame_refuted.
