(** C83: to_factorized_noisy turns every linear layer of a network into a noisy layer. *)
From Verif Require Import Base M_Modules S_Modules P_Modules P_Noisy.

(** The whole claim: for every network without noisy layers, afterwards the network is the same with every
    linear layer made noisy. *)
Definition makes_noisy : Prop :=
  forall d fuel h x t, depth_le h d x -> d <= fuel -> names_ok d h x -> view d h x = Some t -> plain t ->
  exists h', to_factorized_noisy fuel h x = Ok h' /\ view (S d) h' x = Some (made_noisy t).

Lemma all_noisy_made : forall t, plain t -> all_noisy (made_noisy t).
Proof.
  fix IH 1. intros [[i o b|i o b|tag] cs] HP; cbn [made_noisy plain all_noisy noisy_tree] in *.
  - reflexivity.
  - destruct HP.
  - induction cs as [|[nm t] cs IHc]; cbn [map fst snd] in *; [exact I|].
    destruct HP as [H1 H2]. split; [apply IH; exact H1 | apply IHc; exact H2].
Qed.

(** The claim holds when the network is not itself a linear layer and uses no module twice.  The result has no
    plain linear layer and every noisy layer has its two linear parts; modules outside the network do not
    change. *)
Theorem C83_makes_noisy_partial : forall d fuel h x tag cs,
  depth_le h d x -> d <= fuel -> names_ok d h x ->
  view d h x = Some (T (Other tag) cs) -> plain (T (Other tag) cs) ->
  NoDup (occurrences d h x) ->
  exists h', to_factorized_noisy fuel h x = Ok h'
    /\ view (S d) h' x = Some (made_noisy (T (Other tag) cs))
    /\ all_noisy (made_noisy (T (Other tag) cs))
    /\ forall y, y < length h -> ~ In y (occurrences d h x) -> nth_error h' y = nth_error h y.
Proof.
  intros d fuel h x tag cs HD HF HK HV HP HN.
  assert (Hn : exists n, nth_error h x = Some n).
  { destruct d; cbn [depth_le] in HD; [destruct HD|]. destruct HD as [n [Hn _]]. now exists n. }
  destruct Hn as [n Hn].
  destruct (converts_all d fuel h x n HD HF HN HK Hn) as [h' [ts [E [_ [F [V [V' _]]]]]]].
  rewrite HV in V. injection V as Ek <-.
  exists h'. split; [exact E|]. split; [|split; [|exact F]].
  - rewrite V', <- Ek. reflexivity.
  - now apply all_noisy_made.
Qed.

Definition mkn (k : kind) (l : list (nat * nat)) : node := {| n_kind := k; n_training := true; n_children := l |}.

Ltac depth := cbn [depth_le]; eexists; split; [reflexivity|];
  cbn [n_children mkn]; intros ? ? Hin; cbn in Hin;
  repeat match goal with H : _ \/ _ |- _ => destruct H as [H|H] | H : False |- _ => destruct H end;
  match goal with H : (_, _) = (_, _) |- _ => injection H; clear H; intros; subst | _ => idtac end.

Ltac names := let y := fresh "y" in let n := fresh "n" in let Hy := fresh in let Hn := fresh in
  intros y n Hy Hn; cbn in Hy;
  repeat match type of Hy with
         | _ \/ _ => destruct Hy as [Hy|Hy]
         | False => destruct Hy
         end; subst y; cbn in Hn; injection Hn as <-; cbn; repeat constructor; cbn; intuition discriminate.

(** Counterexample 1: two heads on a shared two-layer body,
    [ModuleList([Sequential(body, head1), Sequential(body, head2)])]. *)
Definition two_heads : heap :=
  [ mkn (Linear 4 3 true) [];
    mkn (Other 1) [(0, 0)];
    mkn (Linear 3 2 true) [];
    mkn (Linear 3 1 true) [];
    mkn (Other 1) [(0, 1); (1, 2)];
    mkn (Other 1) [(0, 1); (1, 3)];
    mkn (Other 2) [(0, 4); (1, 5)] ].
(** Counterexample 2: a network that is a single linear layer. *)
Definition one_layer : heap := [ mkn (Linear 4 3 true) [] ].
(** Counterexample 3: one linear layer used twice in the same container (tied weights). *)
Definition tied : heap := [ mkn (Linear 3 3 true) []; mkn (Other 1) [(0, 0); (1, 0)] ].

(** After the conversion the body of the two-headed network is no longer usable: the parts of its noisy layer
    have become noisy themselves. *)
Definition body_after : tree :=
  T (Other 1) [(0, T (Noisy 4 3 true) [(0, noisy_tree 4 3 true); (1, noisy_tree 4 3 true)])].

Theorem C83_makes_noisy_refuted :
  ~ makes_noisy
  /\ (exists h' a b, to_factorized_noisy 4 two_heads 6 = Ok h'
        /\ view 6 h' 6 = Some (T (Other 2) [(0, T (Other 1) [(0, body_after); a]); (1, T (Other 1) [(0, body_after); b])]))
  /\ to_factorized_noisy 1 one_layer 0 = Ok one_layer
  /\ (exists h', to_factorized_noisy 2 tied 1 = Ok h'
        /\ view 3 h' 1 = Some (T (Other 1) [(0, noisy_tree 3 3 true); (1, T (Linear 3 3 true) [])])).
Proof.
  split; [|split; [|split]].
  - intros H. destruct (H 1 1 one_layer 0 (T (Linear 4 3 true) [])) as [h' [E V]].
    + depth.
    + lia.
    + names.
    + reflexivity.
    + exact I.
    + vm_compute in E. injection E as <-. vm_compute in V. discriminate.
  - do 3 eexists. split; vm_compute; reflexivity.
  - vm_compute. reflexivity.
  - eexists. split; vm_compute; reflexivity.
Qed.

(** Converting twice is not the same as converting once: the second conversion destroys the noisy layers. *)
Theorem C83_twice_refuted : exists h x h1 h2 t1 t2,
  to_factorized_noisy 3 h x = Ok h1 /\ view 4 h1 x = Some t1 /\ all_noisy t1
  /\ to_factorized_noisy 4 h1 x = Ok h2 /\ view 5 h2 x = Some t2 /\ ~ all_noisy t2.
Proof.
  exists [ mkn (Linear 4 3 true) []; mkn (Other 1) [(0, 0)] ], 1. do 4 eexists.
  split; [vm_compute; reflexivity|]. split; [vm_compute; reflexivity|]. split; [cbn; auto|].
  split; [vm_compute; reflexivity|]. split; [vm_compute; reflexivity|]. cbn. intros [H _]. discriminate.
Qed.

(** A non-trivial instance: [Sequential(Linear, ReLU, Sequential(Linear))]. *)
Definition nested : heap :=
  [ mkn (Linear 4 3 true) [];
    mkn (Other 5) [];
    mkn (Linear 3 2 false) [];
    mkn (Other 1) [(0, 2)];
    mkn (Other 1) [(0, 0); (1, 1); (2, 3)] ].
Example C83_example :
  depth_le nested 3 4 /\ names_ok 3 nested 4 /\ NoDup (occurrences 3 nested 4)
  /\ exists h', to_factorized_noisy 3 nested 4 = Ok h'
     /\ view 4 h' 4 = Some (T (Other 1) [(0, noisy_tree 4 3 true); (1, T (Other 5) []);
                                         (2, T (Other 1) [(0, noisy_tree 3 2 false)])]).
Proof.
  split; [|split; [|split]].
  - depth; depth; depth.
  - names.
  - cbn. repeat constructor; cbn; intuition discriminate.
  - eexists. split; vm_compute; reflexivity.
Qed.

Print Assumptions C83_makes_noisy_partial.
Print Assumptions C83_makes_noisy_refuted.
Print Assumptions C83_twice_refuted.
