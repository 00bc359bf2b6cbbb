(** C120: PPO and TRPO agents learn on-policy: the log-probabilities, values and recurrent states of an update are those the steps were taken with. *)
From Coq Require Import QArith.
From Verif Require Import Base P_Base M_PPO S_PPO P_PPO M_PPOData S_PPOData P_PPOData C32 M_RecDQN M_ReplayBuffer S_ReplayBuffer M_Episodic S_Episodic M_PPOAgent S_PPOAgent P_PPOAgent.
Close Scope Q_scope. Open Scope nat_scope.

Section C120.
Context {Ob Act Dist HS Pm : Type}.
Notation ptr := (ptr Ob Act HS).
Context (cell : Pm -> Ob -> HS -> (Dist * Q) * HS) (zero : HS) (log_prob : Dist -> Act -> Q) (mode : Dist -> Act) (act_deterministically : bool).
Context (recurrent : option (option nat)) (update_interval : nat) (gamma lambd : Q) (learn : Pm -> list (list ptr) -> Pm) (n : nat).
(** A new agent, and everything done with it. *)
Notation history p0 es s tr := (run cell zero log_prob mode act_deterministically recurrent update_interval gamma lambd learn (ppo_init p0) es = Ok (s, tr%list) /\ proper n false tr%list).
Definition is_recurrent : bool := match recurrent with Some _ => true | None => false end.
Notation noted := (noted cell zero is_recurrent).
(** All stretches of steps since the last update, at the end of the event that comes after [tr] and brings the outcomes [l]. *)
Notation since_last_update past l := (stretches n (outcomes_in zero (noted past%list) l)).

Lemma rec_same : rec_ recurrent = is_recurrent. Proof. unfold rec_, is_recurrent. now destruct recurrent. Qed.
Lemma from_start p0 es s tr : history p0 es s tr ->
  (forall k p obs ys actions, nth_error tr k = Some (Acted true p obs ys actions) -> length ys = n /\ length actions = n /\
     (forall i o, nth_error obs i = Some o -> nth_error ys i = Some (fst (cell p o (n_mem (noted (firstn k tr)) i)))) /\
     exists sampler, nth_error es k = Some (Act_ obs sampler) /\ forall i y, nth_error ys i = Some y -> nth_error actions i = Some (sampler i (fst y))) /\
  (forall k l u, nth_error tr k = Some (Observed true l (Some u)) -> update_matches cell zero log_prob recurrent gamma lambd n (outcomes_in zero (noted (firstn k tr)) l) u).
Proof.
  intros [E P]. pose proof (run_ok cell zero log_prob mode act_deterministically recurrent update_interval gamma lambd learn n es (no_notes zero) (ppo_init p0) s tr false E P (inv_init cell zero recurrent n p0)) as [A B].
  unfold S_PPOAgent.noted. rewrite <- rec_same. split; [exact A|exact B].
Qed.

(** Acting: distributions and values for the i-th environment are what the network says of the observation in the state remembered of the i-th environment's current episode (none if the agent is not
    recurrent); actions are sampled from these distributions. *)
Theorem C120_acting p0 es s tr : history p0 es s tr -> forall k p obs ys actions, nth_error tr k = Some (Acted true p obs ys actions) ->
  length ys = n /\ length actions = n /\
  (forall i o, nth_error obs i = Some o -> nth_error ys i = Some (fst (cell p o (n_mem (noted (firstn k tr)) i)))) /\
  exists sampler, nth_error es k = Some (Act_ obs sampler) /\ forall i y, nth_error ys i = Some y -> nth_error actions i = Some (sampler i (fst y)).
Proof. intros H. exact (proj1 (from_start p0 es s tr H)). Qed.

(** Every update gets exactly the stretches since the last update, each step with the log-probability and the value of when it was taken, and with the recurrent state it was taken in; and all of these
    steps were taken with the parameters the update starts from. *)
Theorem C120_on_policy p0 es s tr : history p0 es s tr -> forall k l u, nth_error tr k = Some (Observed true l (Some u)) ->
  Forall2 (Forall2 (tells zero log_prob)) (u_episodes u) (since_last_update (firstn k tr) l) /\ Forall (Forall (fun t => k_p t = u_p u)) (since_last_update (firstn k tr) l).
Proof.
  intros H k l u N. destruct (proj2 (from_start p0 es s tr H) k l u N) as (A & _ & B & _). split; [|exact B]. clear - A. induction A as [|x y a b [E _] _ IH]; constructor; auto.
Qed.

(** Advantages and value targets: within a stretch, temporal-difference errors with the values the steps were taken with and the values of the next observations, summed with weights
    (gamma lambda)^l to the end of the stretch; what the network said of the next observation is what it says having seen the stretch so far. *)
Definition told_next (p : Pm) (t : @taken Ob Act Dist HS Pm) : Q := snd (fst (cell p (k_next t) (if is_recurrent then snd (cell p (k_obs t) (k_before t)) else zero))).
Definition gapless (ts : list (@taken Ob Act Dist HS Pm)) : Prop := forall j a b, nth_error ts j = Some a -> nth_error ts (S j) = Some b -> k_obs b = k_next a.
Theorem C120_advantages p0 es s tr : history p0 es s tr -> forall k l u, nth_error tr k = Some (Observed true l (Some u)) ->
  forall j ep ts, nth_error (u_episodes u) j = Some ep -> nth_error (since_last_update (firstn k tr) l) j = Some ts -> is_recurrent = false \/ gapless ts ->
  forall i x t, nth_error ep i = Some x -> nth_error ts i = Some t ->
    p_next_v x = told_next (u_p u) t /\ (p_teacher x == p_adv x + k_value t)%Q /\
    (p_adv x == discounted_sum (gamma * lambd)
      (fun d => match nth_error ts (i + d) with Some t' => k_reward t' + gamma * (if k_done t' then 0 else 1) * told_next (u_p u) t' - k_value t' | None => 0 end) (length ts - i))%Q.
Proof.
  intros H k l u N j ep ts Ne Nt G i x t Nx Nk. destruct (proj2 (from_start p0 es s tr H) k l u N) as (A & _). destruct (Forall2_nth _ _ _ A j ep Ne) as (ts2 & Nt2 & [T E]). rewrite Nt in Nt2. injection Nt2 as <-.
  destruct (E i x Nx) as (nv & E1 & E2 & E3 & E4). rewrite rec_same in E4. assert (NV : forall q z, nth_error ts q = Some z -> nv q = told_next (u_p u) z).
  { intros q z Nz. rewrite (E4 G q z Nz). unfold next_value, told_next. now rewrite rec_same. }
  destruct (Forall2_nth _ _ _ T i x Nx) as (t2 & Nk2 & Tl). rewrite Nk in Nk2. injection Nk2 as <-. split; [now rewrite E1, (NV i t Nk)|]. split; [rewrite E2; destruct Tl as (_ & _ & _ & _ & _ & _ & _ & ->); reflexivity|].
  rewrite E3. apply dsum_ext. intros d _. destruct (nth_error ts (i + d)) as [z|] eqn:Nz; [|reflexivity]. now rewrite (NV _ z Nz).
Qed.

(** The next value of a step is the value of the following step, wherever there is one. *)
Theorem C120_bootstrap p0 es s tr : history p0 es s tr -> forall k l u, nth_error tr k = Some (Observed true l (Some u)) ->
  forall ts, In ts (since_last_update (firstn k tr) l) -> gapless ts -> forall i a b, nth_error ts i = Some a -> nth_error ts (S i) = Some b -> told_next (u_p u) a = k_value b.
Proof.
  intros H k l u N ts I G i a b Na Nb. destruct (proj2 (from_start p0 es s tr H) k l u N) as (_ & B & _ & C & _). eapply Forall_forall in B; [|exact I]. eapply Forall_forall in C; [|exact I].
  unfold told_next. rewrite <- (G i a b Na Nb). eapply Forall_forall in C; [|exact (nth_error_In _ _ Nb)]. destruct C as [C Z]. rewrite rec_same in Z. destruct B as [_ L]. rewrite rec_same in L. destruct is_recurrent.
  - destruct (L eq_refl) as (h & h' & L'). replace (snd (cell (u_p u) (k_obs a) (k_before a))) with (k_before b); [now rewrite C|].
    clear - L' Na Nb. revert h i L' Na Nb. induction ts as [|t ts IH]; intros h i L' Na Nb; [now destruct i|]. cbn [linked] in L'. destruct L' as [_ L']. destruct i as [|i]; [|exact (IH _ i L' Na Nb)].
    cbn in Na, Nb. injection Na as ->. destruct ts as [|t2 ts]; [discriminate|]. cbn in Nb, L'. injection Nb as ->. apply L'.
  - rewrite Z in C by reflexivity. now rewrite C.
Qed.

Lemma cut_blocks {T} (ps ss : list (list T)) : cut ps ss -> forall x, In x ps -> exists y, In y ss /\ block x y.
Proof.
  induction 1 as [|s ps ss H IH|a b p ps ss H IH]; intros x I; [destruct I| |].
  - destruct I as [->|I]; [exists x; split; [now left|exists [], []; now rewrite app_nil_r]|]. destruct (IH x I) as (y & Iy & B). exists y. split; [now right|exact B].
  - destruct I as [->|I]; [exists (x ++ b); split; [now left|exists [], b; reflexivity]|]. destruct (IH x I) as (y & [<-|Iy] & B); [|exists y; split; [now right|exact B]].
    exists (a ++ b). split; [now left|]. destruct B as (u & v & ->). exists (a ++ u), v. now rewrite <- app_assoc.
Qed.
Lemma F2_block {A B} (R : A -> B -> Prop) (x l : list A) (l' : list B) : block x l -> Forall2 R l l' -> exists y, block y l' /\ Forall2 R x y.
Proof.
  intros (u & v & ->) F. apply Forall2_app_inv_l in F. destruct F as (u' & r & _ & F & ->). apply Forall2_app_inv_l in F. destruct F as (y & v' & F & _ & ->). exists y. split; [|exact F]. now exists u', v'.
Qed.

(** Learning: the sequences an update works on contain all of these steps, in order; and the network, with the parameters the update starts from, run over any of them from the recurrent state in its
    first transition (as _update_once_recurrent does), gives exactly the distributions the actions were sampled from and the values of when the steps were taken. *)
Theorem C120_replay p0 es s tr : history p0 es s tr -> forall k l u, nth_error tr k = Some (Observed true l (Some u)) -> recurrent <> None ->
  concat (u_data u) = concat (u_episodes u) /\
  forall x, In x (u_data u) -> exists st ts, In st (since_last_update (firstn k tr) l) /\ block ts st /\ Forall2 (tells zero log_prob) x ts /\
    forall x0 rest, x = x0 :: rest -> rnn_run (cell (u_p u)) (hid zero (p_rs x0)) (map (fun y => p_state y) x) = map (fun t => (k_dist t, k_value t)) ts.
Proof.
  intros H k l u N R. destruct (proj2 (from_start p0 es s tr H) k l u N) as (A & B & _ & C & D).
  assert (NE : Forall (fun e => 0 < length e) (u_episodes u)).
  { clear - A B. revert B. induction A as [|ep ts eps tss [E _] _ IH]; intros B; constructor; apply Forall_cons_iff in B; destruct B as [[B _] Bs]; [|auto]. rewrite (F2_length _ _ _ E). destruct ts; [congruence|cbn; lia]. }
  assert (CU : cut (u_data u) (u_episodes u)).
  { destruct recurrent as [[m|]|]; [|rewrite D; apply cut_refl|congruence]. assert (0 < m) as Hm. { unfold limit_sequence_length in D. destruct m; [discriminate|lia]. }
    destruct (C32_limit (u_episodes u) m Hm NE) as (ps & E & Cu & _). rewrite D in E. injection E as ->. exact Cu. }
  split; [exact (cut_concat _ _ CU)|]. intros x Ix. destruct (cut_blocks _ _ CU x Ix) as (ep & Ie & Bx). apply In_nth_error in Ie. destruct Ie as [j Nj]. destruct (Forall2_nth _ _ _ A j ep Nj) as (st & Ns & [Et _]).
  destruct (F2_block _ x ep st Bx Et) as (ts & Bt & Ft). pose proof (nth_error_In _ _ Ns) as Is. exists st, ts. split; [exact Is|]. split; [exact Bt|]. split; [exact Ft|]. intros x0 rest Ex.
  eapply Forall_forall in B; [|exact Is]. eapply Forall_forall in C; [|exact Is]. destruct B as [_ L]. unfold rec_ in L. destruct recurrent as [q|] eqn:Rq; [|congruence]. destruct (L eq_refl) as (h & h' & L'). clear L.
  destruct Bt as (u1 & v1 & ->). apply linked_app in L'. destruct L' as (m1 & _ & L'). apply linked_app in L'. destruct L' as (m2 & L' & _). apply Forall_app in C. destruct C as [_ C]. apply Forall_app in C. destruct C as [C _].
  assert (M : map (fun y : ptr => p_state y) x = map k_obs ts) by (clear - Ft; induction Ft as [|y t x ts (E & _) _ IH]; cbn; congruence).
  assert (S0 : hid zero (p_rs x0) = m1).
  { subst x. inversion Ft as [|? t ? ts' T0 _]; subst. cbn [linked] in L'. destruct L' as [<- _]. apply T0. }
  rewrite M, S0. apply (linked_run cell (u_p u) ts m1 m2 L'). eapply Forall_impl; [|exact C]. intros t [Ct _]. exact Ct.
Qed.
(** The same for a feedforward agent, transition by transition. *)
Theorem C120_replay_feedforward p0 es s tr : history p0 es s tr -> forall k l u, nth_error tr k = Some (Observed true l (Some u)) -> recurrent = None ->
  u_data u = [concat (u_episodes u)] /\
  forall x, In x (concat (u_data u)) -> exists st t, In st (since_last_update (firstn k tr) l) /\ In t st /\ tells zero log_prob x t /\ fst (cell (u_p u) (p_state x) zero) = (k_dist t, k_value t).
Proof.
  intros H k l u N R. destruct (proj2 (from_start p0 es s tr H) k l u N) as (A & _ & _ & C & D). unfold rec_ in *. rewrite R in D, C. split; [exact D|]. rewrite D. cbn [concat]. rewrite app_nil_r. intros x Ix. apply in_concat in Ix. destruct Ix as (ep & Ie & Ix).
  apply In_nth_error in Ie. destruct Ie as [j Nj]. destruct (Forall2_nth _ _ _ A j ep Nj) as (st & Ns & [Et _]). apply In_nth_error in Ix. destruct Ix as [i Ni]. destruct (Forall2_nth _ _ _ Et i x Ni) as (t & Nt & Tt).
  pose proof (nth_error_In _ _ Ns) as Is. pose proof (nth_error_In _ _ Nt) as It. exists st, t. split; [exact Is|]. split; [exact It|]. split; [exact Tt|]. eapply Forall_forall in C; [|exact Is]. eapply Forall_forall in C; [|exact It].
  destruct C as [Ct Z]. rewrite Z in Ct by reflexivity. destruct Tt as (-> & _). exact Ct.
Qed.

(** Acting and observing in evaluation mode change nothing but the recurrent state used in evaluation mode. *)
Theorem C120_evaluation es : Forall (fun e => match e with Mode _ => False | _ => True end) es -> forall s s' tr, o_training s = false ->
  run cell zero log_prob mode act_deterministically recurrent update_interval gamma lambd learn s es = Ok (s', tr) ->
  exists hs, s' = mkPpo (o_p s) (o_mem s) (o_bl s) (o_last s) (o_train s) (o_prev s) hs false.
Proof.
  induction 1 as [|e es He F IH]; intros s s' tr T E; cbn [run] in E; [injection E as <- <-; exists (o_test s); destruct s; cbn in *; now subst|].
  destruct (step _ _ _ _ _ _ _ _ _ _ s e) as [[s1 x]|] eqn:E1; [|discriminate]. cbn [rbind] in E. destruct (run _ _ _ _ _ _ _ _ _ _ s1 es) as [[s2 xs]|] eqn:E2; [|discriminate]. cbn in E. injection E as <- <-.
  assert (G : exists hs, s1 = mkPpo (o_p s) (o_mem s) (o_bl s) (o_last s) (o_train s) (o_prev s) hs false).
  { destruct e as [b|ob ex|l]; [destruct He| |]; cbn [step] in E1.
    - unfold batch_act in E1. rewrite T in E1. destruct (outputs _ _ _ _ _ _) as [[ys hs]|]; [|discriminate]. cbn [rbind] in E1. injection E1 as E1 _. subst s1. eexists. reflexivity.
    - unfold batch_observe in E1. rewrite T in E1. match type of E1 with rbind (rbind ?m _) _ = _ => destruct m as [hs|] end; [|discriminate]. cbn [rbind] in E1. injection E1 as E1 _. subst s1. eexists. reflexivity. }
  destruct G as [hs ->]. pose proof (fun T' => IH _ _ _ T' E2) as G2. destruct (G2 eq_refl) as [hs' ->]. exists hs'. reflexivity.
Qed.

(** Acting in evaluation mode, in m environments: distributions and values are what the network says of the observation in the state remembered of the current evaluation episode, whatever happens in
    training in between; actions are the modes of these distributions or are sampled from them. *)
Theorem C120_evaluation_acting m p0 es s tr : run cell zero log_prob mode act_deterministically recurrent update_interval gamma lambd learn (ppo_init p0) es = Ok (s, tr) -> Forall (evaluated_in m) tr ->
  forall k p obs ys actions, nth_error tr k = Some (Acted false p obs ys actions) ->
  length ys = m /\ length actions = m /\
  (forall i o, nth_error obs i = Some o -> nth_error ys i = Some (fst (cell p o (evaluation_memory cell zero is_recurrent (firstn k tr) i)))) /\
  exists sampler, nth_error es k = Some (Act_ obs sampler) /\ forall i y, nth_error ys i = Some y -> nth_error actions i = Some (if act_deterministically then mode (fst y) else sampler i (fst y)).
Proof.
  intros E F. unfold evaluation_memory. rewrite <- rec_same. apply (run_eval cell zero log_prob mode act_deterministically recurrent update_interval gamma lambd learn m es (fun _ => zero) (ppo_init p0) s tr E F).
  destruct (rec_ recurrent); cbn; auto.
Qed.
End C120.

(** Example: a recurrent agent in two environments; the network counts the observations of the episode, its "distribution" is the pair of parameters and count, its value 10 * observation + count.
    Updates at 4 steps; sequences of at most 2 steps; an evaluation in between; the parameters go up by one with every update. *)
Definition C120_cell (p o h : nat) : ((nat * nat) * Q) * nat := ((p, h), inject_Z (Z.of_nat (10 * o + h)), S h).
Definition C120_events : list (event nat nat (nat * nat)) :=
  let sm := fun i (d : nat * nat) => 100 * i + snd d in
  [Act_ [1; 5] sm; Observe [(2, 1%Q, false, false); (6, 1%Q, true, false)];
   Act_ [2; 7] sm; Mode false; Act_ [3] sm; Observe [(4, 0%Q, true, false)]; Mode true; Observe [(3, 1%Q, false, false); (8, 1%Q, false, false)];
   Act_ [3; 8] sm; Observe [(4, 1%Q, false, true); (9, 1%Q, false, false)];
   Act_ [1; 9] sm; Observe [(2, 1%Q, false, false); (10, 1%Q, false, false)]].
Definition C120_run := run C120_cell 0 (fun d a => inject_Z (Z.of_nat (fst d + snd d + a))) (fun d => snd d) false (Some (Some 2)) 4 1 1 (fun p _ => S p) (ppo_init 7) C120_events.
Definition qn (m : nat) : Q := inject_Z (Z.of_nat m).
Definition C120_show (x : ptr nat nat nat) := (qn (p_state x), qn (hid 0 (p_rs x)), qn (p_action x), Qred (p_log_prob x), Qred (p_v x), Qred (p_next_v x), Qred (p_adv x)).
Example C120_example : exists s tr, C120_run = Ok (s, tr) /\ proper 2 false tr /\
  flat_map (fun x => match x with Acted t p _ ys _ => [(t, p, map (fun y => snd (fst y)) ys)] | _ => [] end) tr = [(true, 7, [0; 0]); (true, 7, [1; 0]); (false, 7, [0]); (true, 8, [2; 1]); (true, 8, [0; 2])] /\
  flat_map (fun x => match x with Observed true _ (Some u) => [(qn (u_p u), map (map C120_show) (u_data u))] | _ => [] end) tr =
   [(7, [[(5, 0, 100, 107, 50, 61, -49)]; [(1, 0, 0, 7, 10, 21, 24); (2, 1, 1, 9, 21, 32, 12)]; [(7, 0, 100, 107, 70, 81, 12)]]);
    (8, [[(3, 2, 2, 12, 32, 43, 12)]; [(1, 0, 0, 8, 10, 21, 12)]; [(8, 1, 101, 110, 81, 92, 24); (9, 2, 102, 112, 92, 103, 12)]])]%Q /\
  exists l u, nth_error tr 7 = Some (Observed true l (Some u)) /\ map (map k_obs) (stretches 2 (outcomes_in 0 (noted C120_cell 0 true (firstn 7 tr)) l)) = [[5]; [1; 2]; [7]].
Proof. eexists. eexists. split; [vm_compute; reflexivity|]. vm_compute. repeat split. eexists. eexists. split; reflexivity. Qed.
Print Assumptions C120_acting.
Print Assumptions C120_on_policy.
Print Assumptions C120_advantages.
Print Assumptions C120_bootstrap.
Print Assumptions C120_replay.
Print Assumptions C120_replay_feedforward.
Print Assumptions C120_evaluation.
(** Two evaluation steps with a training step in between: the evaluation's own count goes on. *)
Example C120_evaluation_example :
  let sm := fun i (d : nat * nat) => 100 * i + snd d in
  let es := [Act_ [1; 5] sm; Mode false; Act_ [3] sm; Observe [(4, 0%Q, false, false)]; Mode true; Observe [(3, 1%Q, false, false); (8, 1%Q, false, false)]; Mode false; Act_ [4] sm; Observe [(5, 0%Q, true, false)]; Act_ [6] sm] in
  exists s tr, run C120_cell 0 (fun d a => inject_Z (Z.of_nat (fst d + snd d + a))) (fun d => snd d) false (Some (Some 2)) 4 1 1 (fun p _ => S p) (ppo_init 7) es = Ok (s, tr) /\ Forall (evaluated_in 1) tr /\
  flat_map (fun x => match x with Acted t p _ ys _ => [(t, p, map (fun y => snd (fst y)) ys)] | _ => [] end) tr = [(true, 7, [0; 0]); (false, 7, [0]); (false, 7, [1]); (false, 7, [0])].
Proof. eexists. eexists. split; [vm_compute; reflexivity|]. split; [repeat constructor|reflexivity]. Qed.
Print Assumptions C120_evaluation_acting.
