(** C48: which transition a priority update reaches, under every schedule of the poller and the learner.  The claim is false of
    the code (finding): update_errors runs outside the lock, and when the poller drops an old transition of a full buffer between
    sampling and writing, every index means another transition. *)
From Verif Require Import Base P_Base M_Prioritized S_Prioritized P_Prioritized P_PrioritizedProps M_ActorLearner S_ActorLearner P_ActorLearner.
From Coq Require Import ZifyBool ZifyNat Lqa.
Open Scope nat_scope.

(** A write step changes the priority (and the drawing weight) of exactly the element at that index. *)
Definition writes_at {A} (st st' : al_state A) (j : nat) (p : Q) : Prop :=
  data (buf st') = data (buf st) /\ updated_at (priorities (buf st)) (priorities (buf st')) [j] [p] /\ updated_at (weights (buf st)) (weights (buf st')) [j] [p].

Lemma updated_one (l : list Q) j p : j < length l -> updated_at l (list_set l j p) [j] [p].
Proof.
  intros H. split; [apply list_set_length|]. split.
  - intros [|[|k]] i q Hi Hq; cbn in *; try discriminate. injection Hi as <-. injection Hq as <-. rewrite nth_error_list_set, Nat.eqb_refl. replace (j <? length l) with true by lia. reflexivity.
  - intros i Hi. rewrite nth_error_list_set. destruct (i =? j) eqn:E; [|reflexivity]. exfalso. apply Hi. left. lia.
Qed.
Lemma write_at {A} cap c (st : al_state A) s i x p rest : al_rel cap st s -> lphase st = LWriting ((i, x, p) :: rest) ->
  exists j, i = Z.of_nat j /\ j < length (data (buf st)) /\ writes_at st (al_step c st Write) j p /\ lphase (al_step c st Write) = LWriting rest.
Proof.
  intros R E. destruct (write_rel cap st s i x p rest c R E) as (j & -> & Hj & Hp & E' & R'). exists j. split; [reflexivity|].
  destruct R as (HR & _). destruct R' as (HR' & _). pose proof HR as (_ & Hd & _ & _ & _ & _ & _ & _ & L1 & L2 & _). pose proof HR' as (_ & Hd' & _).
  rewrite Hd. split; [exact Hj|]. split; [|exact E']. split; [rewrite Hd, Hd'; reflexivity|]. rewrite (priorities_rel _ _ HR), (priorities_rel _ _ HR'), (weights_rel _ _ HR), (weights_rel _ _ HR'). split; apply updated_one; lia.
Qed.

(** Exactly which transition is hit.  The learner samples at [Learn o] (after [es1]) and is about to write the priority [p]
    computed for [x] (after [es2], in the same iteration).  [x] was the j-th stored transition when it was sampled.  The write
    changes the j-th transition stored now; the buffer now holds what it held plus what was polled, less the oldest k. *)
Theorem C48_exact_partial {A} cap c (es1 es2 : list (event A)) o i x p rest :
  let st0 := al_run c (al_init cap) es1 in
  let st1 := al_run c (al_init cap) (es1 ++ Learn o :: es2) in
  let k := dropped cap (length (data (buf st0))) (length (polled es2)) in
  cap <> Some 0 -> lphase st0 = LTop -> lphase (al_step c st0 (Learn o)) <> LTop -> optim_t st1 = optim_t st0 -> lphase st1 = LWriting ((i, x, p) :: rest) ->
  exists j, i = Z.of_nat j /\ nth_error (data (buf st0)) j = Some x /\ data (buf st1) = skipn k (data (buf st0) ++ polled es2) /\
    writes_at st1 (al_step c st1 Write) j p /\
    (k = 0 -> nth_error (data (buf st1)) j = Some x) /\
    (k <> 0 -> NoDup (data (buf st0) ++ polled es2) -> nth_error (data (buf st1)) j <> Some x).
Proof.
  intros st0 st1 k Hc E0 N OT Ew. destruct (al_run_rel cap c es1 Hc) as (s0 & R0). fold st0 in R0.
  assert (ES : st1 = al_run c (al_step c st0 (Learn o)) es2) by (unfold st1; rewrite al_run_app; reflexivity).
  destruct (iteration cap c st0 _ s0 o es2 Hc R0 E0 eq_refl N) as ((s & R) & D & L); [rewrite <- ES; exact OT|]. rewrite <- ES in R, D, L.
  unfold located in L. rewrite Ew in L. inversion L as [|? ? (j & Ej & Hj) _]; subst. cbn in Ej, Hj. subst i.
  destruct (write_at cap c st1 s _ x p rest R Ew) as (j' & Ej & Hlt & W & _). assert (j' = j) by lia. subst j'. exists j. split; [reflexivity|]. split; [exact Hj|].
  fold k in D. split; [exact D|]. split; [exact W|]. assert (G : nth_error (data (buf st1)) j = nth_error (data (buf st0) ++ polled es2) (k + j)).
  { rewrite D. unfold kept. fold k. generalize (data (buf st0) ++ polled es2). generalize k. clear. intros k. induction k as [|k IH]; intros l; [reflexivity|]. destruct l; cbn; [destruct j; reflexivity|]. apply IH. }
  assert (J : j < length (data (buf st0))) by (apply nth_error_Some; congruence).
  assert (X : nth_error (data (buf st0) ++ polled es2) j = Some x) by (rewrite nth_error_app1; auto). split.
  - intros K. rewrite G, K. exact X.
  - intros K ND Y. rewrite G in Y. assert (k + j = j); [|lia]. apply (proj1 (NoDup_nth_error _) ND); [apply nth_error_Some; congruence|congruence].
Qed.
Print Assumptions C48_exact_partial.

(** As long as the buffer has not dropped anything, every write under every schedule changes the priority of the transition it
    was computed for and of no other. *)
Theorem C48_no_overflow_partial {A} cap c (es : list (event A)) i x p rest : cap <> Some 0 -> never_full cap es ->
  let st := al_run c (al_init cap) es in lphase st = LWriting ((i, x, p) :: rest) ->
  exists j, i = Z.of_nat j /\ nth_error (data (buf st)) j = Some x /\ writes_at st (al_step c st Write) j p.
Proof.
  intros Hc NF st Ew. destruct (iteration_began c es (al_init cap)) as (es1 & o & es2 & -> & A1 & A2 & A3); [fold st; rewrite Ew; exact I|intros []|].
  rewrite al_run_app in A2. destruct (C48_exact_partial cap c es1 es2 o i x p rest Hc A1 A2 A3 Ew) as (j & Ei & _ & _ & W & K & _). exists j. split; [exact Ei|]. split; [|exact W].
  apply K. rewrite (len_polled cap c es1 Hc). unfold never_full, dropped in *. rewrite polled_app, app_length in NF. cbn [polled flat_map app] in NF. destruct cap; fold (polled es2) in NF; lia.
Qed.
Print Assumptions C48_no_overflow_partial.

(** The claim: at every write the transition at the written index is the one the priority was computed for. *)
Definition C48_claim : Prop := forall cap c (es : list (event nat)) j x p rest, cap <> Some 0 -> NoDup (polled es) -> schedule_ok (minibatch_size c) es ->
  let st := al_run c (al_init cap) es in lphase st = LWriting ((Z.of_nat j, x, p) :: rest) -> nth_error (data (buf st)) j = Some x.

(** Capacity 2, minibatches of 1.  Transition 11 is sampled; 12 arrives and drops 10; the priority 5 computed for 11 goes to 12. *)
Definition w48_cfg := mkCfg 2 1 1 4 2 None.
Definition w48_es : list (event nat) := [Poll 10; Poll 11; Learn (mkSo [] [(3 # 4)%Q]); Errors [5%Q]; Poll 12].
Theorem C48_refuted : ~ C48_claim.
Proof.
  intros H. assert (ND : NoDup (polled w48_es)) by (repeat constructor; cbn; intuition discriminate).
  assert (SO : schedule_ok (minibatch_size w48_cfg) w48_es) by (repeat constructor; cbn; intuition (try discriminate)).
  specialize (H (Some 2) w48_cfg w48_es 1 11 5%Q [] ltac:(discriminate) ND SO eq_refl). vm_compute in H. discriminate.
Qed.
Print Assumptions C48_refuted.

(** After that iteration 11 is left with weight zero: it will not be drawn again while it is stored. *)
Example C48_case_lost : let st := al_run w48_cfg (al_init (Some 2)) (w48_es ++ [Write; Write; Finish]) in
  data (buf st) = [11; 12] /\ weights (buf st) = [0; 5]%Q /\ priorities (buf st) = [1; 5]%Q /\ lphase st = LTop.
Proof. vm_compute. auto. Qed.

(** A case for the positive theorems: the same schedule with room for three. *)
Example C48_case : let st := al_run w48_cfg (al_init (Some 3)) w48_es in
  lphase st = LWriting [(1%Z, 11, 5%Q)] /\ never_full (Some 3) w48_es /\
  priorities (buf (al_step w48_cfg st Write)) = [1; 5; 1]%Q.
Proof. vm_compute. auto. Qed.
