(** C82: the evaluating() context switches a network to evaluation mode and back. *)
From Verif Require Import Base M_Modules S_Modules P_Modules.

(** What the code in the [with] block may do: leave the modes and the structure of the network's modules as
    they are (it may raise). *)
Definition leaves_network (net : nat) (body : heap -> heap * option exn) : Prop :=
  forall h, same_structure h (fst (body h))
            /\ forall y, part_of h net y -> mode_of (fst (body h)) y = mode_of h y.

(** The whole claim: inside, the whole network is in evaluation mode; afterwards, also after an exception, every
    module has the mode it had before. *)
Definition switches_and_restores : Prop :=
  forall d fuel h net body, depth_le h d net -> d <= fuel -> leaves_network net body ->
  exists h1 h', (forall y, part_of h net y -> mode_of h1 y = Some false)
    /\ evaluating fuel net body h = Ok (h', snd (body h1))
    /\ forall y, part_of h net y -> mode_of h' y = mode_of h y.

(** What holds in general: inside, the whole network is in evaluation mode and no other module changes mode;
    afterwards, also after an exception, every module of the network has the mode that the network itself had
    before, and other modules are as the block left them. *)
Theorem C82_follow_root_partial : forall d fuel h net body,
  depth_le h d net -> d <= fuel -> leaves_network net body ->
  exists h1 h',
    (forall y, part_of h net y -> mode_of h1 y = Some false)
    /\ (forall y, ~ part_of h net y -> mode_of h1 y = mode_of h y)
    /\ same_structure h h1
    /\ evaluating fuel net body h = Ok (h', snd (body h1))
    /\ same_structure h h'
    /\ (forall y, part_of h net y -> mode_of h' y = mode_of h net)
    /\ (forall y, ~ part_of h net y -> mode_of h' y = mode_of (fst (body h1)) y).
Proof.
  intros d fuel h net body HD HF HB.
  destruct (train_spec d fuel h net false HD HF) as [h1 [E1 [S1 [A1 B1]]]].
  destruct (HB h1) as [SB MB].
  assert (Hn : exists n, nth_error h net = Some n).
  { destruct d; cbn [depth_le] in HD; [destruct HD|]. destruct HD as [n [Hn _]]. now exists n. }
  destruct Hn as [n Hn].
  assert (Hroot : mode_of h net = Some (n_training n)) by (unfold mode_of; now rewrite Hn).
  assert (B1' : forall y, ~ part_of h net y -> mode_of h1 y = mode_of h y).
  { intros y N. destruct (B1 y) as [B|[B _]]; [exact B | contradiction]. }
  exists h1. unfold evaluating. rewrite Hn, E1. cbn [rbind].
  destruct (body h1) as [h2 e] eqn:Eb. cbn [fst snd] in *.
  destruct (n_training n) eqn:Et.
  - assert (HD2 : depth_le h2 d net).
    { eapply depth_same; [exact SB|]. eapply depth_same; [exact S1 | exact HD]. }
    destruct (train_spec d fuel h2 net true HD2 HF) as [h3 [E3 [S3 [A3 B3]]]].
    rewrite E3. cbn [rbind]. exists h3.
    assert (S02 : same_structure h h2) by (eapply same_structure_trans; eauto).
    split; [exact A1|]. split; [exact B1'|]. split; [exact S1|]. split; [reflexivity|].
    split; [eapply same_structure_trans; [exact S02 | exact S3]|]. split.
    + intros y Hp. rewrite Hroot. apply A3. eapply part_same; [exact S02 | exact Hp].
    + intros y N. destruct (B3 y) as [B|[B _]]; [exact B|].
      exfalso. apply N. eapply part_same; [apply same_structure_sym; exact S02 | exact B].
  - exists h2. split; [exact A1|]. split; [exact B1'|]. split; [exact S1|]. split; [reflexivity|].
    split; [eapply same_structure_trans; eauto|]. split.
    + intros y Hp. rewrite Hroot. rewrite MB; [now apply A1|].
      eapply part_same; [exact S1 | exact Hp].
    + intros y _. reflexivity.
Qed.

(** The claim holds for networks whose modules are all in the same mode. *)
Theorem C82_uniform_partial : forall d fuel h net body,
  depth_le h d net -> d <= fuel -> leaves_network net body ->
  (forall y, part_of h net y -> mode_of h y = mode_of h net) ->
  exists h1 h', (forall y, part_of h net y -> mode_of h1 y = Some false)
    /\ evaluating fuel net body h = Ok (h', snd (body h1))
    /\ forall y, part_of h net y -> mode_of h' y = mode_of h y.
Proof.
  intros d fuel h net body HD HF HB HU.
  destruct (C82_follow_root_partial d fuel h net body HD HF HB) as [h1 [h' [A [_ [_ [E [_ [R _]]]]]]]].
  exists h1, h'. split; [exact A|]. split; [exact E|].
  intros y Hp. rewrite (R y Hp). symmetry. now apply HU.
Qed.

(** A network in training mode with a frozen part: module 0 has the children 1 (training) and 2, a batch
    normalisation layer held in evaluation mode. *)
Definition frozen : heap :=
  [ {| n_kind := Other 0; n_training := true; n_children := [(0, 1); (1, 2)] |};
    {| n_kind := Linear 4 2 true; n_training := true; n_children := [] |};
    {| n_kind := Other 1; n_training := false; n_children := [] |} ].

Definition no_op (h : heap) : heap * option exn := (h, None).

Lemma no_op_leaves : forall net, leaves_network net no_op.
Proof. intros net h. split; [apply same_structure_refl | reflexivity]. Qed.

Lemma frozen_depth : depth_le frozen 2 0.
Proof.
  cbn [depth_le]. exists {| n_kind := Other 0; n_training := true; n_children := [(0, 1); (1, 2)] |}.
  split; [reflexivity|]. intros nm c [H|[H|[]]]; injection H as _ <-; cbn; eexists; (split; [reflexivity|]);
    cbn; intros ? ? [].
Qed.

(** The claim is false: the frozen layer comes back in training mode. *)
Theorem C82_restores_refuted : ~ switches_and_restores.
Proof.
  intros H.
  destruct (H 2 2 frozen 0 no_op frozen_depth ltac:(lia) (no_op_leaves 0)) as [h1 [h' [_ [E R]]]].
  vm_compute in E. injection E as <-.
  assert (HP : part_of frozen 0 2).
  { econstructor; [|constructor]. eexists. exists 1. split; [reflexivity|]. cbn. auto. }
  specialize (R 2 HP). vm_compute in R. discriminate.
Qed.

(** Non-trivial instances: a network of three modules with a module shared under two names, all in training
    mode, and a block that raises. *)
Definition shared : heap :=
  [ {| n_kind := Other 0; n_training := true; n_children := [(0, 1); (1, 2)] |};
    {| n_kind := Other 1; n_training := true; n_children := [(0, 2)] |};
    {| n_kind := Linear 4 2 true; n_training := true; n_children := [] |};
    {| n_kind := Other 7; n_training := false; n_children := [] |} ].
Definition raising (h : heap) : heap * option exn := (h, Some ValueError).

Example C82_example :
  evaluating 3 0 raising shared = Ok (shared, Some ValueError)
  /\ (h <- train 3 shared 0 false ;; Ok (map n_training h)) = Ok [false; false; false; false].
Proof. vm_compute. split; reflexivity. Qed.

Example C82_hypotheses : depth_le shared 3 0 /\ (forall y, part_of shared 0 y -> mode_of shared y = mode_of shared 0).
Proof.
  split.
  - cbn [depth_le]. eexists. split; [reflexivity|]. cbn [n_children]. intros nm c [H|[H|[]]]; injection H as _ <-.
    + eexists. split; [reflexivity|]. cbn [n_children]. intros nm' c' [H|[]]. injection H as _ <-.
      eexists. split; [reflexivity|]. intros ? ? [].
    + eexists. split; [reflexivity|]. intros ? ? [].
  - intros y H. assert (G : forall x z, part_of shared x z -> x < 3 -> z < 3).
    { intros x z HP. induction HP as [|x w z [n [nm [Hn Hi]]] HP IH]; [auto|]. intros L. apply IH.
      destruct x as [|[|[|x]]]; cbn in Hn; try lia; injection Hn as <-; cbn in Hi.
      + destruct Hi as [Hi|[Hi|[]]]; injection Hi as _ <-; lia.
      + destruct Hi as [Hi|[]]; injection Hi as _ <-; lia.
      + destruct Hi. }
    specialize (G 0 y H ltac:(lia)). destruct y as [|[|[|y]]]; [reflexivity..|lia].
Qed.

Print Assumptions C82_follow_root_partial.
Print Assumptions C82_uniform_partial.
Print Assumptions C82_restores_refuted.
