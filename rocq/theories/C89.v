(** C89: actor-learner training delivers every actor's experience to the learner's replay buffer, in order and intact. *)
From Verif Require Import Base P_Base M_Actor S_Actor P_Actor.
From Coq Require Import QArith.
Close Scope Q_scope.
Open Scope nat_scope.

(** For every number of actors, every interleaving of their calls with the poller and the learner, every failure: the calls made
    on the replay buffer for environment [i] are an initial segment of those owed for actor [i]; all of them once its pipe has
    been emptied and nothing failed; the buffer sees no other environment; cumulative_steps is the number of transitions. *)
Theorem C89_delivery {Ob Ac RS : Type} (recurrent : bool) n (es : list (@event Ob Ac RS)) l ns cs :
  exec recurrent (world0 n) es = ((l, ns), cs) ->
  Forall (fun o => env_of o < n) (lr_ops l) /\
  lr_steps l = appends (lr_ops l) /\
  forall i nd p ops, nth_error ns i = Some nd -> owed recurrent i cs = Some (p, ops) ->
    exists rest, ops_for i (lr_ops l) ++ rest = ops /\ (lr_exn l = false -> nd_out nd = [] -> rest = []).
Proof.
  intros H. pose proof (exec_inv recurrent n es _ _ _ _ (inv0 recurrent n) H) as [L S V W N]. cbn [fst snd app] in *.
  repeat split; auto. intros i nd p ops E O.
  destruct (i_owed _ _ _ _ _ (N i nd E) p ops O) as [_ (rest & A & B)]. exists rest. split; [exact A|].
  intros X Y. rewrite (B X), Y. reflexivity.
Qed.

(** While nothing failed, an actor blocked in a call gets its answer as soon as the poller has emptied its pipe. *)
Theorem C89_answered {Ob Ac RS : Type} (recurrent : bool) n (es : list (@event Ob Ac RS)) l ns cs i nd k :
  exec recurrent (world0 n) es = ((l, ns), cs) ->
  lr_exn l = false -> nth_error ns i = Some nd -> nd_wait nd = Some k ->
  exists m l' ns' cs' nd', m <= length (nd_out nd) /\
    exec recurrent (l, ns) (repeat (EvPoll i false) m ++ [EvRecv i]) = ((l', ns'), cs') /\
    nth_error ns' i = Some nd' /\ nd_wait nd' = None.
Proof.
  intros H X E K. pose proof (exec_inv recurrent n es _ _ _ _ (inv0 recurrent n) H) as [_ _ _ _ N]. cbn [fst snd app] in *.
  pose proof (i_wait _ _ _ _ _ (N i nd E)) as B. destruct nd as [a out inn w]. cbn [nd_wait nd_in nd_out] in *. subst w.
  assert (R : forall l1 ns1 r, nth_error ns1 i = Some (mkNode a [] [r] (Some k)) ->
              exists ns2 cs2 nd2, exec recurrent (l1, ns1) [EvRecv i] = ((l1, ns2), cs2) /\ nth_error ns2 i = Some nd2 /\ nd_wait nd2 = None).
  { intros l1 ns1 r E1. cbn [exec step]. rewrite E1. destruct k; do 3 eexists; (split; [reflexivity|]);
      rewrite nth_error_list_set, Nat.eqb_refl; (destruct (_ <? _) eqn:Y; [split; reflexivity|]);
      apply Nat.ltb_ge, nth_error_None in Y; congruence. }
  destruct B as [B0 [(B1 & pre & B2 & B3)|[(_ & _ & B3)|(r & B1 & B2 & B3)]]].
  - subst inn out. assert (NT : ~ is_trans (req k)) by (destruct k as [|[]]; cbn in *; auto; discriminate).
    destruct (drained recurrent i pre l ns a (req k) tt (Some k) E B3 NT X eq_refl) as (l1 & ns1 & cs1 & r & D1 & D2).
    destruct (R l1 ns1 r D2) as (ns2 & cs2 & nd2 & R1 & R2 & R3).
    exists (S (length pre)), l1, ns2, (cs1 ++ cs2), nd2. split; [rewrite app_length; cbn; lia|]. split; [|auto].
    assert (EA : forall (xs : list (@event Ob Ac RS)) w ys, exec recurrent w (xs ++ ys) = (let (w1, c1) := exec recurrent w xs in let (w2, c2) := exec recurrent w1 ys in (w2, c1 ++ c2))).
    { clear. induction xs as [|x xs IH]; intros w ys; cbn [exec app].
      - destruct (exec recurrent w ys); reflexivity.
      - destruct (step recurrent w x) as [w1 c1]. rewrite IH. destruct (exec recurrent w1 xs) as [w2 c2].
        destruct (exec recurrent w2 ys) as [w3 c3]. rewrite app_assoc. reflexivity. }
    rewrite EA, D1, R1. reflexivity.
  - congruence.
  - subst inn out. destruct (R l ns r E) as (ns2 & cs2 & nd2 & R1 & R2 & R3).
    exists 0, l, ns2, cs2, nd2. repeat split; auto.
Qed.

(** get_statistics reports a cumulative_steps that includes everything this actor observed before asking. *)
Theorem C89_statistics {Ob Ac RS : Type} (recurrent : bool) n (es : list (@event Ob Ac RS)) w cs cs1 cs2 i r :
  exec recurrent (world0 n) es = (w, cs) -> cs = cs1 ++ CAnswer i MGetStatistics r :: cs2 ->
  exists c, r = RStats c /\ forall p ops, owed recurrent i cs1 = Some (p, ops) -> appends ops <= c.
Proof.
  intros H E. pose proof (exec_inv recurrent n es _ _ _ _ (inv0 recurrent n) H) as [_ _ _ W _]. exact (W cs1 cs2 i r E).
Qed.

(** A recurrent actor hands the network the state its previous act left, separately for training and evaluation, and none at the
    start of an episode. *)
Theorem C89_recurrent_states {Ob Ac RS : Type} n (es : list (@event Ob Ac RS)) w cs i mode :
  exec true (world0 n) es = (w, cs) -> i < n -> carries i mode None cs.
Proof.
  intros H L. pose proof (exec_inv true n es _ _ _ _ (inv0 true n) H) as [V _ _ _ N]. cbn [app] in *.
  destruct (nth_error (snd w) i) as [nd|] eqn:E; [|apply nth_error_None in E; lia].
  apply (i_carry _ _ _ _ _ (N i nd E)). reflexivity.
Qed.

(** Two recurrent actors; observations, actions and recurrent states are numbers, the network adds 1 to its state (from 0).
    Actor 0 runs an episode of two steps, actor 1 one step, the poller empties pipe 0 only; then actor 0 asks for statistics. *)
Definition C89_net (s : option nat) : nat * nat := match s with Some k => (7, S k) | None => (7, 1) end.
Definition C89_es : list (@event nat nat nat) :=
  [EvAct 0 10 C89_net (fun _ g => S g); EvObserve 0 11 1%Q false false; EvAct 1 20 C89_net (fun _ g => g);
   EvAct 0 11 C89_net (fun t g => g + t); EvObserve 0 12 2%Q false true; EvObserve 1 21 3%Q false false;
   EvPoll 0 false; EvPoll 0 false; EvPoll 0 false; EvRecv 0; EvAct 0 30 C89_net (fun _ g => g);
   EvRequest 0 MGetStatistics; EvPoll 0 false; EvRecv 0].
Example C89_ex :
  let '((l, ns), cs) := exec true (world0 2) C89_es in
  lr_ops l = [BAppend 0 (mkTr 10 8 1%Q 11 false (Some (None, Some 1))); BAppend 0 (mkTr 11 8 2%Q 12 false (Some (Some 1, Some 2))); BStop 0] /\
  owed true 0 cs = Some (Some (30, 7, None, 1), lr_ops l) /\
  owed true 1 cs = Some (None, [BAppend 1 (mkTr 20 7 3%Q 21 false (Some (None, Some 1)))]) /\
  last cs (CAct 0 true 0 None 0 0) = CAnswer 0 MGetStatistics (RStats 2) /\ map (fun nd => length (nd_out nd)) ns = [0; 1].
Proof. vm_compute. repeat split; reflexivity. Qed.
Print Assumptions C89_delivery.
Print Assumptions C89_answered.
Print Assumptions C89_statistics.
Print Assumptions C89_recurrent_states.
