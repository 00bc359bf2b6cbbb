(** C116: a recurrent DQN agent remembers exactly the current episode of each environment, and learns with what it remembered. *)
From Coq Require Import QArith.
From Verif Require Import Base M_RandomAccessQueue M_SampleNK M_ReplayBuffer S_ReplayBuffer M_Episodic S_Episodic M_Batch M_Train M_RecDQN S_RecDQN P_RecDQN.
Close Scope Q_scope. Open Scope nat_scope.

Section C116.
Context {Ob Ac AV H Pm Op : Type}.
Context (cell : Pm -> Ob -> H -> AV * H) (zero : H) (greedy : AV -> Ac) (U : updater) (tui fuel : nat).
Context (learn : Pm -> Pm -> Op -> list (list (trans (rec Ob Ac H))) -> Pm * Op) (sync : Pm -> Pm -> Pm) (draws : nat -> oracle * (nat -> nat -> nat)).
Notation runs := (run cell zero greedy U tui fuel learn sync draws).
(** A new agent with an episodic buffer of capacity [cap], and everything done with it. *)
Notation history cap p0 o0 es s tr := (exists b0, eb_init false cap = Ok b0 /\ runs (rdqn_init p0 o0 b0) es = Ok (s, tr)).

Lemma from_start cap n p0 o0 es s tr : history cap p0 o0 es s tr -> proper n false tr ->
  exists ops, map (map_op (stored_as zero)) ops = expected_calls cell zero tr /\ holds cap ops (q_buf s) /\
    (forall l bs, In (Observed true l bs) tr -> Forall (Forall (fun x => exists e ep, In ep (fst (episodes e ops)) /\ block x ep)) bs) /\
    (forall k p obs avs actions, nth_error tr k = Some (Acted true p obs avs actions) -> (length obs = n /\ length avs = n /\ length actions = n) /\
       (forall i o, nth_error obs i = Some o -> nth_error avs i = Some (fst (cell p o (memory cell zero (firstn k tr) i)))) /\
       exists explorer t, nth_error es k = Some (Act obs explorer) /\ forall i av, nth_error avs i = Some av -> nth_error actions i = Some (explorer i t av)).
Proof.
  intros (b0 & E0 & E) P.
  destruct (run_ok cell zero greedy U tui fuel learn sync draws cap n es [] (rdqn_init p0 o0 b0) s tr false (fun _ => zero) (fun _ => zero) [] [] E P) as (ops & R); [exact (holds_init cap b0 E0)|split; [intros i _; reflexivity|discriminate]|].
  exists ops. exact R.
Qed.

(** Acting: the action values of the i-th environment are those of what is remembered of it, and the explorer chooses from them. *)
Theorem C116_acting cap n p0 o0 es s tr : history cap p0 o0 es s tr -> proper n false tr ->
  forall k p obs avs actions, nth_error tr k = Some (Acted true p obs avs actions) ->
    length avs = n /\ length actions = n /\
    (forall i o, nth_error obs i = Some o -> nth_error avs i = Some (fst (cell p o (memory cell zero (firstn k tr) i)))) /\
    exists explorer t, nth_error es k = Some (Act obs explorer) /\ forall i av, nth_error avs i = Some av -> nth_error actions i = Some (explorer i t av).
Proof. intros E P k p obs avs actions N. destruct (from_start cap n p0 o0 es s tr E P) as (ops & _ & _ & _ & A). destruct (A k p obs avs actions N) as ((_ & L2 & L3) & V & X). auto. Qed.

(** At the first action after the end of an episode nothing is remembered; evaluations in between do not matter. *)
Theorem C116_fresh cap n p0 o0 es s tr1 l bs tr2 p obs avs actions tr3 : history cap p0 o0 es s (tr1 ++ Observed true l bs :: tr2 ++ Acted true p obs avs actions :: tr3) ->
  proper n false (tr1 ++ Observed true l bs :: tr2 ++ Acted true p obs avs actions :: tr3) ->
  Forall (fun x => match x with Acted true _ _ _ _ | Observed true _ _ => False | _ => True end) tr2 ->
  forall i o y, nth_error obs i = Some o -> nth_error l i = Some y -> ends y = true -> nth_error avs i = Some (fst (cell p o zero)).
Proof.
  intros E P F i o y No Ny En. destruct (from_start cap n p0 o0 es s _ E P) as (ops & _ & _ & _ & A).
  destruct (A (length (tr1 ++ Observed true l bs :: tr2)) p obs avs actions) as (_ & V & _).
  { rewrite app_comm_cons, app_assoc. rewrite nth_error_app2 by lia. now rewrite Nat.sub_diag. }
  rewrite (V i o No). do 3 f_equal. rewrite app_comm_cons, app_assoc, firstn_app, Nat.sub_diag, firstn_all, firstn_O, app_nil_r. unfold memory. rewrite fold_left_app. cbn [fold_left].
  assert (G : forall (xs : list (seen Ob Ac AV H Pm)) m, Forall (fun x => match x with Acted true _ _ _ _ | Observed true _ _ => False | _ => True end) xs -> m i = zero -> fold_left (fun m x => remember cell zero x m) xs m i = zero).
  { induction xs as [|x xs IH]; intros m Fx Zm; [exact Zm|]. apply Forall_cons_iff in Fx. destruct Fx as [Fx Fxs]. cbn [fold_left]. apply IH; [exact Fxs|]. destruct x as [b|[|] ? ? ? ?|[|] ? ?]; try contradiction; exact Zm. }
  apply G; [exact F|]. cbn [remember]. now rewrite Ny, En.
Qed.

(** The replay buffer holds the newest episodes that fit, complete with what was remembered before and after every step; and the unfinished ones. *)
Theorem C116_storage cap n p0 o0 es s tr : history cap p0 o0 es s tr -> proper n false tr ->
  kept_within cap (finished (expected_calls cell zero tr)) (map (map (stored_as zero)) (raq_iter (episodic_memory (q_buf s)))) /\
  forall i, map (stored_as zero) (current (q_buf s) i) = snd (episodes i (expected_calls cell zero tr)).
Proof.
  intros E P. destruct (from_start cap n p0 o0 es s tr E P) as (ops & Eo & (_ & _ & Hc & _ & _ & _ & Hk) & _). rewrite <- Eo. rewrite finished_map by reflexivity.
  split; [now apply kept_map|]. intros i. rewrite episodes_map by reflexivity. cbn [snd]. now rewrite Hc.
Qed.

(** Learning: every sequence of a minibatch is a piece of an episode that happened, and every step of it carries what was remembered there, that is, what the network made of the observations of
    this episode before it, and nothing else. *)
Theorem C116_learning cap n p0 o0 es s tr : history cap p0 o0 es s tr -> proper n false tr ->
  forall l minibatches, In (Observed true l minibatches) tr -> forall minibatch, In minibatch minibatches -> forall x, In x minibatch ->
  exists i ep, In ep (fst (episodes i (expected_calls cell zero tr))) /\ block (map (stored_as zero) x) ep /\ coherent cell zero ep.
Proof.
  intros E P l bs Io b Ib x Ix. destruct (from_start cap n p0 o0 es s tr E P) as (ops & Eo & _ & L & A). pose proof (L l bs Io) as F. eapply Forall_forall in F; [|exact Ib]. eapply Forall_forall in F; [|exact Ix].
  destruct F as (e & ep & I & B). exists e, (map (stored_as zero) ep).
  assert (I' : In (map (stored_as zero) ep) (fst (episodes e (expected_calls cell zero tr)))) by (rewrite <- Eo, episodes_map by reflexivity; cbn [fst]; now apply in_map).
  split; [exact I'|]. split; [now apply block_map|]. assert (Q : forall p ob avs acts, In (Acted true p ob avs acts) tr -> length acts = length ob).
  { intros p ob avs acts I2. apply In_nth_error in I2. destruct I2 as [k N]. destruct (A k p ob avs acts N) as ((L1 & _ & L3) & _). congruence. }
  pose proof (expected_coherent cell zero n tr P Q e) as G. eapply Forall_forall in G; [exact G|exact I'].
Qed.

(** Evaluation changes nothing of this: whatever the agent does in evaluation mode, only the state it uses in evaluation mode changes. *)
Theorem C116_evaluation es : Forall (fun e => match e with Mode _ => False | _ => True end) es -> forall s s' tr, q_training s = false -> runs s es = Ok (s', tr) ->
  exists hs, s' = mkRdqn (q_model s) (q_target s) (q_opt s) (q_t s) (q_optim_t s) (q_buf s) (q_last s) (q_train s) (q_prev s) hs false.
Proof.
  induction 1 as [|e es He F IH]; intros s s' tr T E; cbn [run] in E; [injection E as <- <-; exists (q_test s); destruct s; cbn in *; now subst|].
  destruct (step _ _ _ _ _ _ _ _ _ s e) as [[s1 x]|] eqn:E1; [|discriminate]. cbn [rbind] in E. destruct (run _ _ _ _ _ _ _ _ _ s1 es) as [[s2 xs]|] eqn:E2; [|discriminate]. cbn in E. injection E as <- <-.
  assert (G : exists hs, s1 = mkRdqn (q_model s) (q_target s) (q_opt s) (q_t s) (q_optim_t s) (q_buf s) (q_last s) (q_train s) (q_prev s) hs false).
  { destruct e as [b|ob ex|l]; [destruct He| |]; cbn [step] in E1.
    - unfold batch_act in E1. rewrite T in E1. destruct (forward _ _ _ _ _) as [[avs hs]|]; [|discriminate]. cbn [rbind] in E1. injection E1 as E1 _. subst s1. eexists. reflexivity.
    - unfold batch_observe in E1. rewrite T in E1. destruct (reset_states _ _ _) as [hs|]; [|discriminate]. cbn [rbind] in E1. injection E1 as E1 _. subst s1. eexists. reflexivity. }
  destruct G as [hs ->]. pose proof (fun T' => IH _ _ _ T' E2) as G2. destruct (G2 eq_refl) as [hs' ->]. exists hs'. reflexivity.
Qed.
End C116.

(** But a run of train_agent that stops in the middle of an episode does not tell the agent that the episode is over.  If training goes on with another run, the environment is reset and the
    agent still remembers the end of the run before.  The claim that at the first action of a run nothing is remembered: *)
Definition C116_new_run_claim : Prop :=
  forall (cell : nat -> nat -> nat -> nat * nat) (zero : nat) (greedy : nat -> nat) (U : updater) (tui fuel : nat) (learn : nat -> nat -> nat -> list (list (trans (rec nat nat nat))) -> nat * nat)
    (sync : nat -> nat -> nat) (draws : nat -> oracle * (nat -> nat -> nat)) (reset : nat -> nat * nat) (env_step : nat -> nat -> nat * outcome nat) (explorer : nat -> nat -> nat -> nat)
    (cap : option nat) (b0 : ebuf (rec nat nat nat)) (P P' : train_args) (v : nat) v1 s1 tr1 scores1 w2 scores2 p obs avs actions tr,
  eb_init false cap = Ok b0 ->
  rtrain cell zero greedy U tui fuel learn sync draws reset env_step explorer P (v, rdqn_init 0 0 b0, []) = ((v1, s1, tr1), Ok scores1) ->
  rtrain cell zero greedy U tui fuel learn sync draws reset env_step explorer P' (v1, s1, []) = (w2, Ok scores2) ->
  snd w2 = Acted true p obs avs actions :: tr -> forall i o, nth_error obs i = Some o -> nth_error avs i = Some (fst (cell p o zero)).

(** A network that counts the observations it is fed, and shows the count as the action value. *)
Definition C116_cell (p o h : nat) : nat * nat := (h, S h).
Definition C116_U := mkUpd 1 true 1 2 1 None.
Definition C116_args := mkArgs 3 0 None None None false.
Definition C116_draws (_ : nat) : oracle * (nat -> nat -> nat) := (Build_oracle [0] (fun _ => [0]), fun _ _ => 0).
Theorem C116_new_run_refuted : ~ C116_new_run_claim.
Proof.
  intros C. assert (K : nth_error [3] 0 = Some (fst (C116_cell 0 0 0))); [|discriminate K].
  eapply (C C116_cell 0 (fun a => a) C116_U 100 20 (fun p _ o _ => (p, o)) (fun p _ => p) C116_draws (fun v => (v, 0)) (fun a v => (S v, (v, 1%Q, false, false))) (fun _ _ a => a) None _ C116_args C116_args 0);
    vm_compute; reflexivity.
Qed.

(** Example: two environments, an evaluation in between, episodes that end at different times, and what is remembered. *)
Definition C116_events : list (event nat nat nat) :=
  let ex := fun _ _ a => a in
  [Act [10; 20] ex; Observe [(11, 1%Q, false, false); (21, 1%Q, true, false)];
   Act [11; 30] ex; Mode false; Act [7] ex; Observe [(8, 0%Q, false, true)]; Mode true; Observe [(12, 1%Q, false, true); (31, 1%Q, false, false)];
   Act [40; 31] ex; Observe [(41, 1%Q, false, false); (32, 1%Q, true, false)]].
Definition C116_buf : ebuf (rec nat nat nat) := mkEb false None (fun _ => []) (mkRaq None [] []) (mkRaq None [] []).
Definition C116_result := run C116_cell 0 (fun a => a) C116_U 100 20 (fun p _ o _ => (S p, o)) (fun p _ => p) C116_draws (rdqn_init 0 0 C116_buf) C116_events.
Example C116_example : exists s tr, eb_init false None = Ok C116_buf /\ C116_result = Ok (s, tr) /\ proper 2 false tr /\
  (** the action values: how many observations of the current episode came before *)
  flat_map (fun x => match x with Acted t _ _ avs _ => [(t, avs)] | _ => [] end) tr = [(true, [0; 0]); (true, [1; 0]); (false, [0]); (true, [0; 1])] /\
  (** what was learned from: states with what was remembered before and after *)
  flat_map (fun x => match x with Observed true _ bs => map (map (map (fun y => (r_state (payload y), r_before (payload y), r_after (payload y))))) bs | _ => [] end) tr
    = [[[(20, None, Some 1)]]; [[(20, None, Some 1)]]; [[(20, None, Some 1)]]; [[(20, None, Some 1)]]] /\
  (** what is stored *)
  map (map (fun y => (r_state (payload y), r_before (payload y), r_after (payload y)))) (raq_iter (episodic_memory (q_buf s)))
    = [[(20, None, Some 1)]; [(10, None, Some 1); (11, Some 1, Some 2)]; [(30, Some 0, Some 1); (31, Some 1, Some 2)]].
Proof. eexists. eexists. split; [reflexivity|]. split; [vm_compute; reflexivity|]. vm_compute. repeat split. Qed.
(** The third action in training mode comes right after the end of an episode of the first environment. *)
Example C116_example_fresh : exists s tr1 l bs p avs actions tr3, C116_result = Ok (s, tr1 ++ Observed true l bs :: [] ++ Acted true p [40; 31] avs actions :: tr3) /\
  map ends l = [true; false] /\ avs = [fst (C116_cell p 40 0); 1].
Proof.
  eexists. eexists [_; _; _; _; _; _; _]. eexists. eexists. eexists. eexists. eexists. eexists. split; [vm_compute; reflexivity|split; reflexivity].
Qed.
Print Assumptions C116_acting.
Print Assumptions C116_fresh.
Print Assumptions C116_storage.
Print Assumptions C116_learning.
Print Assumptions C116_evaluation.
Print Assumptions C116_new_run_refuted.
