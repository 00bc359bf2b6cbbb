(** C68: how often the learner of actor-learner training updates the target network and publishes its model, and when it stops. *)
From Verif Require Import Base P_Base M_Prioritized S_Prioritized M_ActorLearner S_ActorLearner P_ActorLearner.
From Coq Require Import ZifyBool ZifyNat.
Open Scope nat_scope.

(** A finite set listed in decreasing order. *)
Fixpoint decreasing (l : list nat) : Prop := match l with [] => True | x :: t => Forall (fun y => y < x) t /\ decreasing t end.

Definition cadence {A} (c : al_cfg) (st : al_state A) : Prop :=
  update_counter st = optim_t st /\ published st = optim_t st / actor_update_interval c /\ agent_t st = optim_t st * update_interval c /\
  (forall m, In m (syncs st) <-> 1 <= m <= optim_t st /\ (m * update_interval c) mod target_update_interval c = 0) /\ decreasing (syncs st) /\
  match n_updates c with Some n => optim_t st <= n /\ (in_iteration (lphase st) -> optim_t st < n) /\ (lphase st = LStopped -> optim_t st = n) | None => lphase st <> LStopped end.

Lemma div_step m a : 0 < a -> S m / a = if S m mod a =? 0 then S (m / a) else m / a.
Proof.
  intros Ha. pose proof (Nat.div_mod (S m) a ltac:(lia)) as D1. pose proof (Nat.div_mod m a ltac:(lia)) as D2.
  pose proof (Nat.mod_upper_bound (S m) a ltac:(lia)). pose proof (Nat.mod_upper_bound m a ltac:(lia)).
  set (q1 := S m / a) in *. set (q2 := m / a) in *. set (r1 := S m mod a) in *. set (r2 := m mod a) in *.
  destruct (r1 =? 0) eqn:E; nia.
Qed.

Lemma cadence_ext {A} c (st st' : al_state A) : optim_t st' = optim_t st -> update_counter st' = update_counter st -> published st' = published st -> agent_t st' = agent_t st -> syncs st' = syncs st ->
  (lphase st' = lphase st \/ in_iteration (lphase st) /\ (in_iteration (lphase st') \/ failed st')) -> cadence c st -> cadence c st'.
Proof.
  unfold cadence. intros -> -> -> -> -> H (H1 & H2 & H3 & H4 & H5 & H6). repeat (split; [assumption|]). destruct (n_updates c) as [n|].
  - destruct H6 as (H6 & H7 & H8). split; [exact H6|]. destruct H as [->|(I & H)]; [auto|]. split; [auto|]. intros E. unfold failed in H. rewrite E in H. destruct H as [[]|[]].
  - destruct H as [->|(I & H)]; [auto|]. intros E. unfold failed in H. rewrite E in H. destruct H as [[]|[]].
Qed.

Lemma cadence_step {A} c (st : al_state A) e : 0 < actor_update_interval c -> cadence c st -> cadence c (al_step c st e).
Proof.
  intros Ha H. destruct e as [x|o|ps| |]; cbn [al_step].
  - unfold poll_step. destruct (poller_failed st); [exact H|]. destruct (pb_append _ _ _); apply (cadence_ext c st); auto.
  - destruct (lphase st) eqn:E; try exact H. unfold learn_top. destruct (_ <? _); [exact H|].
    pose proof H as (H1 & H2 & H3 & H4 & H5 & H6). rewrite E in H6.
    assert (G : (match n_updates c with Some n => optim_t st < n | None => True end) -> cadence c (match buffer_sample (buf st) (minibatch_size c) o with Ok (b, xs) => with_phase (with_buf st b) (LSampled xs) | Err e => with_phase st (LFailed e) end)).
    { intros LT. destruct (buffer_sample _ _ _) as [[b xs]|e]; unfold cadence; cbn; repeat (split; [assumption|]); (destruct (n_updates c) as [n|]; [destruct H6 as (H6 & _ & _); split; [exact H6|]; split; [auto|discriminate]|discriminate]). }
    destruct (n_updates c) as [n|] eqn:En; [|apply G; exact I]. destruct H6 as (H6 & _ & _). destruct (n <? optim_t st) eqn:El; [lia|]. destruct (optim_t st =? n) eqn:Eo; [|apply G; lia].
    unfold cadence; cbn. repeat (split; [assumption|]). rewrite En. split; [lia|]. split; [intros []|lia].
  - destruct (lphase st) as [|xs| | | |] eqn:E; try exact H. unfold enter_update. destruct (rbind _ _); apply (cadence_ext c st); auto; right; (split; [rewrite E; exact I|]); cbn; auto.
  - destruct (lphase st) as [| |todo| | |] eqn:E; try exact H. unfold write_step. destruct todo as [|[[i x] p] rest]; [|destruct (rbind _ _)]; apply (cadence_ext c st); auto; right; (split; [rewrite E; exact I|]); cbn; auto.
  - destruct (lphase st) eqn:E; try exact H. destruct H as (H1 & H2 & H3 & H4 & H5 & H6). rewrite E in H6. unfold cadence, finish_step. cbn [update_counter published agent_t syncs optim_t lphase].
    split; [lia|]. split; [rewrite H1, H2; symmetry; apply div_step; exact Ha|]. split; [reflexivity|]. split; [|split].
    + intros m. destruct ((S (optim_t st) * update_interval c) mod target_update_interval c =? 0) eqn:Em.
      * cbn [In]. rewrite H4. split; [intros [<-|X]; [split; [lia|apply Nat.eqb_eq; exact Em]|split; [lia|apply X]]|]. intros [X Y]. destruct (Nat.eq_dec (S (optim_t st)) m) as [->|N]; [auto|right; split; [lia|exact Y]].
      * rewrite H4. split; [intros [X Y]; split; [lia|exact Y]|]. intros [X Y]. split; [|exact Y]. destruct (Nat.eq_dec m (S (optim_t st))) as [->|N]; [|lia]. apply Nat.eqb_neq in Em. contradiction.
    + destruct (_ =? 0); [|exact H5]. split; [|exact H5]. apply Forall_forall. intros m Hm. apply H4 in Hm. lia.
    + destruct (n_updates c) as [n|]; [|discriminate]. destruct H6 as (_ & H6 & _). specialize (H6 I). split; [lia|]. split; [intros []|discriminate].
Qed.

(** Under every schedule, with the constructor's requirement that target_update_interval is a multiple of update_interval (DQN asserts
    it): after m updates the target network has been updated exactly once for every full target_update_interval / update_interval
    updates, at those very updates; the actors have been given the model m / actor_update_interval times; self.t is
    m * update_interval; the number of updates never exceeds n_updates, and the loop ends only when it is reached. *)
Theorem C68_cadence {A} cap c (es : list (event A)) q : let st := al_run c (al_init cap) es in
  0 < actor_update_interval c -> 0 < update_interval c -> 0 < q -> target_update_interval c = q * update_interval c ->
  (forall m, In m (syncs st) <-> 1 <= m <= optim_t st /\ Nat.divide q m) /\ decreasing (syncs st) /\
  published st = optim_t st / actor_update_interval c /\ agent_t st = optim_t st * update_interval c /\
  match n_updates c with Some n => optim_t st <= n /\ (lphase st = LStopped -> optim_t st = n) | None => lphase st <> LStopped end.
Proof.
  intros st Ha Hu Hq Et. assert (H : cadence c st).
  { unfold st. induction es as [|e es IH] using rev_ind; [|rewrite al_run_app; cbn; apply cadence_step; auto]. unfold cadence. cbn. split; [reflexivity|]. split; [symmetry; apply Nat.div_0_l; lia|]. split; [reflexivity|]. split; [intros m; split; [intros []|lia]|]. split; [exact I|].
    destruct (n_updates c); [|discriminate]. split; [lia|]. split; [intros []|discriminate]. }
  destruct H as (H1 & H2 & H3 & H4 & H5 & H6). split; [|split; [exact H5|split; [exact H2|split; [exact H3|]]]].
  - intros m. rewrite H4. split; intros [X Y]; (split; [exact X|]).
    + rewrite Et in Y. apply Nat.mod_divide in Y; [|nia]. destruct Y as (z & Y). exists z. nia.
    + destruct Y as (z & ->). rewrite Et. apply Nat.mod_divide; [nia|]. exists z. nia.
  - destruct (n_updates c); [|exact H6]. destruct H6 as (? & _ & ?). auto.
Qed.
Print Assumptions C68_cadence.

(** As long as the poller has not failed, the number of steps reported by the learner is the number of transitions the actors have sent. *)
Definition is_transition {A} (e : event A) : bool := match e with Poll _ => true | _ => false end.
Lemma steps_step {A} c (st : al_state A) e : poller_failed (al_step c st e) = false ->
  poller_failed st = false /\ cumulative_steps (al_step c st e) = cumulative_steps st + (if is_transition e then 1 else 0).
Proof.
  destruct e as [x|o|ps| |]; cbn [al_step is_transition]; rewrite ?Nat.add_0_r.
  - unfold poll_step. destruct (poller_failed st) eqn:F; [congruence|]. destruct (pb_append _ _ _); cbn; [split; [reflexivity|lia]|discriminate].
  - destruct (lphase st); auto. unfold learn_top, with_phase, with_buf.
    repeat match goal with |- context [match ?x with _ => _ end] => destruct x; cbn [poller_failed cumulative_steps]; auto end.
  - destruct (lphase st); auto. unfold enter_update, with_phase, with_buf. destruct (rbind _ _); cbn; auto.
  - destruct (lphase st) as [| |todo| | |]; auto. unfold write_step, with_phase, with_buf. destruct todo as [|[[i x] p] rest]; [|destruct (rbind _ _)]; cbn; auto.
  - destruct (lphase st); auto.
Qed.
Theorem C68_steps {A} cap c (es : list (event A)) : let st := al_run c (al_init cap) es in
  poller_failed st = false -> cumulative_steps st = length (filter is_transition es).
Proof.
  cbv zeta. induction es as [|e es IH] using rev_ind; [reflexivity|]. rewrite al_run_app, filter_app, app_length. cbn [al_run fold_left filter]. intros F. apply steps_step in F. destruct F as [F E].
  rewrite E, (IH F). destruct (is_transition e); reflexivity.
Qed.
Print Assumptions C68_steps.

(** Two updates per target update, three updates in all. *)
Definition w68_cfg := mkCfg 2 1 4 8 2 (Some 3).
Definition w68_iter : list (event nat) := [Learn (mkSo [] [0%Q]); Errors [1%Q]; Write; Write; Finish].
Example C68_case : let st := al_run w68_cfg (al_init (Some 2)) ([Poll 0; Poll 1] ++ w68_iter ++ [Poll 2] ++ w68_iter ++ w68_iter ++ w68_iter) in
  optim_t st = 3 /\ syncs st = [2] /\ published st = 1 /\ agent_t st = 12 /\ lphase st = LStopped /\ poller_failed st = false /\ cumulative_steps st = 3.
Proof. vm_compute. tauto. Qed.
