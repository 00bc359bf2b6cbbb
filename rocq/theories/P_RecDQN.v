(** Lemmas for C116. *)
From Coq Require Import QArith.
From Verif Require Import Base P_Base M_RandomAccessQueue P_RandomAccessQueue M_SampleNK M_ReplayBuffer S_ReplayBuffer P_ReplayBuffer M_Episodic S_Episodic P_Episodic M_Batch M_RecDQN S_RecDQN.
Close Scope Q_scope. Open Scope nat_scope.

(** ** Histories of an episodic buffer *)
Section Ops.
Context {T : Type}.
Lemma finished_from_app (a : list (rb_op T)) : forall past b, finished_from past (a ++ b) = finished_from past a ++ finished_from (past ++ a) b.
Proof.
  induction a as [|o a IH]; intros past b; cbn [app finished_from]; [now rewrite app_nil_r|]. rewrite IH, app_assoc. replace (past ++ o :: a) with ((past ++ [o]) ++ a) by now rewrite <- app_assoc. reflexivity.
Qed.
Lemma finished_snoc (ops : list (rb_op T)) o : finished (ops ++ [o]) = finished ops ++ skipn (length (fst (episodes (env_of o) ops))) (fst (episodes (env_of o) (ops ++ [o]))).
Proof. unfold finished. rewrite finished_from_app. cbn [finished_from app]. now rewrite app_nil_r. Qed.
Lemma episodes_grow e (ops : list (rb_op T)) : forall more, exists new, fst (episodes e (ops ++ more)) = fst (episodes e ops) ++ new.
Proof.
  intros more. revert ops. induction more as [|o more IH]; intros ops; [exists []; now rewrite !app_nil_r|].
  replace (ops ++ o :: more) with ((ops ++ [o]) ++ more) by now rewrite <- app_assoc. destruct (IH (ops ++ [o])) as [new E]. rewrite E, episodes_snoc.
  destruct (episodes e ops) as [dn cur]. unfold ep_step. destruct o as [e' t|e']; (destruct (e' =? e); [|now exists new]).
  - destruct (terminal t); cbn [fst]; [rewrite <- app_assoc; eauto|eauto].
  - destruct cur; cbn [fst]; [eauto|rewrite <- app_assoc; eauto].
Qed.
Lemma in_episodes_grow e (ops more : list (rb_op T)) ep : In ep (fst (episodes e ops)) -> In ep (fst (episodes e (ops ++ more))).
Proof. intros I. destruct (episodes_grow e ops more) as [new ->]. apply in_or_app. now left. Qed.
Lemma in_finished (ops : list (rb_op T)) : forall past ep, In ep (finished_from past ops) -> exists e, In ep (fst (episodes e (past ++ ops))).
Proof.
  induction ops as [|o ops IH]; intros past ep I; [destruct I|]. cbn [finished_from] in I. replace (past ++ o :: ops) with ((past ++ [o]) ++ ops) by now rewrite <- app_assoc.
  apply in_app_or in I. destruct I as [I|I]; [|now apply IH]. exists (env_of o). apply in_episodes_grow. rewrite <- (firstn_skipn (length (fst (episodes (env_of o) past)))). apply in_or_app. now right.
Qed.
Lemma in_kept {A} cap (eps kept : list (list A)) ep : kept_within cap eps kept -> In ep kept -> In ep eps.
Proof.
  destruct cap as [c|]; cbn; [|now intros ->]. intros (k & -> & _) I. rewrite <- (firstn_skipn k eps). apply in_or_app. now right.
Qed.

(** What a buffer holds after a history. *)
Definition holds (cap : option nat) (past : list (rb_op T)) (b : ebuf T) : Prop := eb_inv cap past (finished past) b.
Lemma holds_step cap past b o b' : holds cap past b -> eb_step b o = Ok b' -> holds cap (past ++ [o]) b'.
Proof. intros K E. destruct (eb_step_inv cap past (finished past) b o K) as (b1 & E1 & K1). rewrite E in E1. injection E1 as <-. unfold holds. now rewrite finished_snoc. Qed.
Lemma holds_init cap b : eb_init false cap = Ok b -> holds cap [] b.
Proof.
  intros E. unfold eb_init in E. destruct (raq_init_spec (A := list (trans T)) None []) as (q & E' & Hi & Hm). rewrite E' in E. cbn in E. injection E as <-.
  split; [reflexivity|]. split; [reflexivity|]. split; [reflexivity|]. cbn. rewrite Hi. cbn. split; [auto|]. split; [auto|]. split; [auto|]. destruct cap; [|reflexivity]. exists 0. cbn. repeat split; lia.
Qed.

Lemma subseq_block {A} rnd (l : list A) L : block (random_subseq rnd l L) l.
Proof.
  unfold random_subseq. destruct (length l <=? L); [exists [], []; now rewrite app_nil_r|]. set (k := rnd _). exists (firstn k l), (skipn L (skipn k l)). now rewrite firstn_skipn, firstn_skipn.
Qed.
Lemma py_get_In' {A} (l : list A) i x : py_get l i = Ok x -> In x l.
Proof. unfold py_get. set (j := if (i <? 0)%Z then (i + Z.of_nat (length l))%Z else i). destruct (j <? 0)%Z; [discriminate|]. destruct (nth_error l _) eqn:E; [|discriminate]. intros H. injection H as <-. exact (nth_error_In _ _ E). Qed.
Lemma sampled_blocks fuel o offs (b : ebuf T) n len xs : eb_sample_episodes fuel o offs b n len = Ok xs ->
  Forall (fun x => exists ep, In ep (raq_iter (episodic_memory b)) /\ block x ep) xs.
Proof.
  intros E. unfold eb_sample_episodes in E. destruct (passert _); [|discriminate]. cbn [rbind] in E. destruct (raq_sample _ _ _ _) as [eps|] eqn:S; [|discriminate]. cbn in E. injection E as <-.
  assert (F : Forall (fun x => In x (raq_iter (episodic_memory b))) eps).
  { unfold raq_sample in S. destruct (sample_n_k _ _ _ _) as [ixs|]; [|discriminate]. cbn [rbind] in S. clear - S. revert eps S.
    induction ixs as [|i ixs IH]; intros ys S; cbn [raq_getmany] in S; [injection S as <-; constructor|]. destruct (raq_getitem _ (Z.of_nat i)) as [y|] eqn:Y; [|discriminate]. cbn [rbind] in S.
    destruct (raq_getmany _ ixs) as [zs|] eqn:Z; [|discriminate]. cbn in S. injection S as <-. constructor; [|auto]. rewrite raq_getitem_spec in Y. exact (py_get_In' _ _ _ Y). }
  destruct len as [L|].
  - clear S. generalize 0. induction F as [|x eps I F IH]; intros j; cbn [subseqs]; constructor; auto. exists x. split; [exact I|]. apply subseq_block.
  - eapply Forall_impl; [|exact F]. intros x I. exists x. split; [exact I|]. exists [], []. now rewrite app_nil_r.
Qed.
Lemma sampled_happened cap past fuel o offs (b : ebuf T) n len xs : holds cap past b -> eb_sample_episodes fuel o offs b n len = Ok xs ->
  Forall (fun x => exists e ep, In ep (fst (episodes e past)) /\ block x ep) xs.
Proof.
  intros (_ & _ & _ & _ & _ & _ & K) E. eapply Forall_impl; [|exact (sampled_blocks _ _ _ _ _ _ _ E)]. cbn. intros x (ep & I & Bx). apply (in_kept _ _ _ _ K) in I.
  destruct (in_finished past [] ep I) as [e Ie]. exists e, ep. auto.
Qed.
End Ops.

(** Histories that differ only in the contents of the transitions. *)
Section MapOps.
Context {T V : Type} (f : trans T -> trans V) (Hf : forall t, terminal (f t) = terminal t).
Definition map_op (o : rb_op T) : rb_op V := match o with RAppend e t => RAppend e (f t) | RStop e => RStop e end.
Lemma episodes_map e ops : episodes e (map map_op ops) = (map (map f) (fst (episodes e ops)), map f (snd (episodes e ops))).
Proof using Hf.
  induction ops as [|o ops IH] using rev_ind; [reflexivity|]. rewrite map_app. cbn [map]. rewrite !episodes_snoc, IH. destruct (episodes e ops) as [dn cur]. cbn [fst snd].
  destruct o as [e' t|e']; cbn [map_op ep_step]; (destruct (e' =? e); [|reflexivity]).
  - rewrite Hf. destruct (terminal t); cbn [fst snd]; rewrite ?map_app; cbn [map]; rewrite ?map_app; reflexivity.
  - destruct cur; cbn [map fst snd]; rewrite ?map_app; reflexivity.
Qed.
Lemma finished_map ops : finished (map map_op ops) = map (map f) (finished ops).
Proof using Hf.
  induction ops as [|o ops IH] using rev_ind; [reflexivity|]. rewrite map_app. cbn [map]. rewrite !finished_snoc, map_app, IH. f_equal.
  assert (E : env_of (map_op o) = env_of o) by now destruct o. rewrite E. change (map map_op ops ++ [map_op o]) with (map map_op ops ++ map map_op [o]). rewrite <- map_app, !episodes_map. cbn [fst].
  now rewrite map_length, skipn_map.
Qed.
Lemma kept_map cap (eps kept : list (list (trans T))) : kept_within cap eps kept -> kept_within cap (map (map f) eps) (map (map f) kept).
Proof.
  assert (L : forall l : list (list (trans T)), total (map (map f) l) = total l) by (intros l; unfold total; rewrite <- concat_map, map_length; reflexivity).
  destruct cap as [c|]; cbn; [|now intros ->]. intros (k & -> & H1 & H2). exists k. rewrite skipn_map. split; [reflexivity|]. split; [now rewrite L|]. intros j Hj. rewrite skipn_map, L. auto.
Qed.
Lemma block_map (x ep : list (trans T)) : block x ep -> block (map f x) (map f ep).
Proof using. intros (a & c & ->). exists (map f a), (map f c). now rewrite !map_app. Qed.
End MapOps.

(** ** Recurrent states *)
Section States.
Context {Ob AV H Pm : Type} (cell : Pm -> Ob -> H -> AV * H) (zero : H) (n : nat).

Definition states_are (hs : option (list H)) (m : nat -> H) : Prop :=
  match hs with None => forall i, i < n -> m i = zero | Some l => length l = n /\ forall i h, nth_error l i = Some h -> h = m i end.
Definition some_states_are (hs : option (list H)) (m : nat -> H) : Prop := exists l, hs = Some l /\ states_are (Some l) m.

Lemma at_before hs m i x : states_are hs m -> i < n -> at_ hs i = Ok x -> match x with None => Some zero | h => h end = Some (m i).
Proof.
  intros S Hi E. destruct hs as [l|]; cbn [at_] in E.
  - destruct S as [L S]. destruct (nth_error l i) as [h|] eqn:N; [|discriminate]. injection E as <-. now rewrite (S i h N).
  - injection E as <-. now rewrite (S i Hi).
Qed.
Lemma at_after hs m i x : some_states_are hs m -> at_ hs i = Ok x -> x = Some (m i).
Proof. intros (l & -> & L & S) E. cbn [at_] in E. destruct (nth_error l i) as [h|] eqn:N; [|discriminate]. injection E as <-. now rewrite (S i h N). Qed.

Lemma forward_ok p obs hs m avs hs' : length obs = n -> states_are hs m -> forward cell zero p obs hs = Ok (avs, hs') ->
  length avs = n /\ (forall i o, nth_error obs i = Some o -> nth_error avs i = Some (fst (cell p o (m i)))) /\
  states_are (Some hs') (fun i => match nth_error obs i with Some o => snd (cell p o (m i)) | None => m i end).
Proof.
  intros L S E. unfold forward in E.
  assert (G : exists rows, avs = map fst rows /\ hs' = map snd rows /\ length rows = n /\ forall i o, nth_error obs i = Some o -> nth_error rows i = Some (cell p o (m i))).
  { destruct hs as [l|].
    - destruct S as [Ll S]. destruct (length obs =? length l) eqn:Q; [|discriminate]. unfold unzip in E. injection E as <- <-. eexists. split; [reflexivity|]. split; [reflexivity|].
      split; [rewrite map_length, combine_length; lia|]. intros i o N. rewrite nth_error_map.
      destruct (nth_error l i) as [h|] eqn:Nl; [|apply nth_error_None in Nl; assert (i < length obs) by (apply nth_error_Some; congruence); lia].
      assert (C : nth_error (combine obs l) i = Some (o, h)).
      { clear - N Nl. revert l i N Nl. induction obs as [|x obs IH]; intros [|y l] [|i] N Nl; try discriminate; cbn in *; [congruence|]. now apply IH. }
      rewrite C. cbn. now rewrite <- (S i h Nl).
    - unfold unzip in E. injection E as <- <-. eexists. split; [reflexivity|]. split; [reflexivity|]. split; [now rewrite map_length|]. intros i o N. rewrite nth_error_map, N. cbn.
      cbn in S. rewrite S; [reflexivity|]. rewrite <- L. apply nth_error_Some. congruence. }
  destruct G as (rows & -> & -> & Lr & G). split; [now rewrite map_length|]. split; [intros i o N; rewrite nth_error_map, (G i o N); reflexivity|].
  cbn. split; [now rewrite map_length|]. intros i h N. rewrite nth_error_map in N. destruct (nth_error rows i) as [row|] eqn:R; [|discriminate]. cbn in N. injection N as <-.
  destruct (nth_error obs i) as [o|] eqn:No; [rewrite (G i o No) in R; now injection R as <-|]. apply nth_error_None in No. assert (i < length rows) by (apply nth_error_Some; congruence). lia.
Qed.

Lemma nth_combine_seq {X} (l : list X) i x : nth_error (combine (seq 0 (length l)) l) i = Some x -> fst x = i /\ nth_error l i = Some (snd x).
Proof.
  assert (G : forall k, nth_error (combine (seq k (length l)) l) i = Some x -> fst x = k + i /\ nth_error l i = Some (snd x)).
  { revert i. induction l as [|y l IH]; intros i k N; [now destruct i|]. cbn [length seq combine] in N. destruct i as [|i]; cbn in N.
    - injection N as <-. split; [cbn; lia|reflexivity].
    - destruct (IH i (S k) N) as [A B]. split; [lia|exact B]. }
  apply (G 0).
Qed.
Lemma ended_in ends i : In i (ended_indices ends) <-> nth i ends false = true.
Proof.
  unfold ended_indices. rewrite filter_In, in_seq. split; [now intros [_ ->]|]. intros E. split; [|exact E]. destruct (Nat.lt_ge_cases i (length ends)); [lia|]. rewrite nth_overflow in E by lia. discriminate.
Qed.
Lemma reset_ok (l : list (outcome Ob)) hs m hs' : length l = n -> states_are hs m -> reset_states zero (map ends l) hs = Ok hs' ->
  states_are hs' (fun i => match nth_error l i with Some y => if ends y then zero else m i | None => m i end).
Proof.
  intros L S E.
  assert (D : forall i, (match nth_error l i with Some y => if ends y then zero else m i | None => m i end) = if nth i (map ends l) false then zero else m i).
  { intros i. destruct (nth_error l i) as [y|] eqn:N.
    - rewrite (nth_indep _ false (ends y)) by (rewrite map_length; apply nth_error_Some; congruence). rewrite map_nth, (nth_error_nth l i y N). reflexivity.
    - apply nth_error_None in N. now rewrite nth_overflow by (rewrite map_length; exact N). }
  unfold reset_states in E. destruct (ended_indices (map ends l)) as [|i0 ix] eqn:EI.
  - injection E as <-. assert (Z : forall i, nth i (map ends l) false = false).
    { intros i. destruct (nth i (map ends l) false) eqn:N; [|reflexivity]. apply ended_in in N. rewrite EI in N. destruct N. }
    destruct hs as [hl|]; cbn in S |- *; [destruct S as [S1 S]; split; [exact S1|]; intros i h N|intros i Hi]; rewrite D, Z; auto.
  - rewrite <- EI in E. destruct hs as [hl|].
    + destruct S as [Lh S]. destruct (forallb _ _); [|discriminate]. injection E as <-. cbn. split; [rewrite map_length, combine_length, seq_length; lia|].
      intros i h N. rewrite D. rewrite nth_error_map in N. destruct (nth_error (combine _ hl) i) as [x|] eqn:X; [|discriminate]. cbn in N. injection N as <-. apply nth_combine_seq in X. destruct X as [-> X].
      destruct (nth i (map ends l) false) eqn:Ne.
      * apply ended_in in Ne. replace (existsb (Nat.eqb i) (ended_indices (map ends l))) with true; [reflexivity|]. symmetry. apply existsb_exists. exists i. split; [exact Ne|apply Nat.eqb_refl].
      * replace (existsb (Nat.eqb i) (ended_indices (map ends l))) with false; [exact (S i _ X)|]. symmetry. apply not_true_is_false. intros A. apply existsb_exists in A. destruct A as (j & J & Q).
        apply Nat.eqb_eq in Q. subst j. apply ended_in in J. congruence.
    + injection E as <-. cbn in *. intros i Hi. rewrite D, (S i Hi). now destruct (nth i _ false).
Qed.
End States.

(** ** The agent *)
Section Agent.
Context {Ob Ac AV H Pm Op : Type}.
Context (cell : Pm -> Ob -> H -> AV * H) (zero : H) (greedy : AV -> Ac).
Notation rec := (rec Ob Ac H).
Context (U : updater) (tui fuel : nat).
Context (learn : Pm -> Pm -> Op -> list (list (trans rec)) -> Pm * Op) (sync : Pm -> Pm -> Pm) (draws : nat -> oracle * (nat -> nat -> nat)).
Context (cap : option nat) (n : nat).
Notation rdqn := (rdqn Ob Ac H Pm Op).
Notation seen := (seen Ob Ac AV H Pm).
Notation nop := (map_op (stored_as zero)).
Notation piece_of past x := (exists e ep, In ep (fst (episodes e past)) /\ block x ep).

(** Everything but networks and counters. *)
Definition same_states (s s' : rdqn) : Prop := q_train s' = q_train s /\ q_prev s' = q_prev s /\ q_test s' = q_test s /\ q_training s' = q_training s /\ q_last s' = q_last s.

Lemma update_loop_ok past : forall times (s s' : rdqn) bs, holds cap past (q_buf s) ->
  update_loop (fun _ _ => Err TypeError) (sample_episodes fuel draws) (update_from_episodes learn) U times s = Ok (s', bs) ->
  q_buf s' = q_buf s /\ same_states s s' /\ Forall (Forall (fun x => piece_of past x)) bs.
Proof.
  induction times as [|k IH]; intros s s' bs K E; cbn [update_loop] in E; [injection E as <- <-; repeat split; constructor|].
  destruct (u_episodic U); [|discriminate]. unfold sample_episodes at 1 in E. destruct (draws (q_optim_t s)) as [o offs]. destruct (eb_sample_episodes _ _ _ _ _ _) as [eps|] eqn:S; [|discriminate]. cbn [rbind] in E.
  pose proof (sampled_happened _ _ _ _ _ _ _ _ _ K S) as F. unfold update_from_episodes at 1 in E. destruct (learn _ _ _ eps) as [p op]. cbn [rbind] in E.
  match type of E with context [update_loop _ _ _ _ k ?s2] => destruct (update_loop (fun _ _ => Err TypeError) (sample_episodes fuel draws) (update_from_episodes learn) U k s2) as [[s3 bs']|] eqn:UL; [|discriminate] end.
  cbn in E. injection E as <- <-. pose proof (fun K' => IH _ _ _ K' UL) as H3. destruct (H3 K) as (B3 & C3 & F3). cbn [q_buf] in B3. split; [exact B3|]. split; [exact C3|]. constructor; assumption.
Qed.

Lemma observe_one_ok past (s s' : rdqn) i obs r done reset bs o a before after : nth_error (q_last s) i = Some (Some (o, a)) -> i < n ->
  states_are zero n (q_prev s) before -> some_states_are zero n (q_train s) after -> holds cap past (q_buf s) ->
  observe_one U tui fuel learn sync draws s i obs r done reset = Ok (s', bs) ->
  exists b, let ops := RAppend i (mkTrans (mkRec o a r obs b (Some (after i))) done) :: (if done || reset then [RStop i] else []) in
    match b with None => Some zero | h => h end = Some (before i) /\
    holds cap (past ++ ops) (q_buf s') /\ Forall (Forall (fun x => piece_of (past ++ ops) x)) bs /\
    q_train s' = q_train s /\ q_prev s' = q_prev s /\ q_test s' = q_test s /\ q_training s' = q_training s /\ skipn (S i) (q_last s') = skipn (S i) (q_last s).
Proof.
  intros Nl Hi Sb Sa K E. unfold observe_one in E. destruct (if tui =? 0 then _ else _) as [tgt|]; [|discriminate]. cbn [rbind] in E. rewrite Nl in E. cbn [rbind] in E.
  destruct (at_ (q_prev s) i) as [b|] eqn:Ab; [|discriminate]. cbn [rbind] in E. destruct (at_ (q_train s) i) as [h|] eqn:Aa; [|discriminate]. cbn [rbind] in E.
  pose proof (at_before _ _ _ _ _ _ Sb Hi Ab) as Hb. pose proof (at_after _ _ _ _ _ _ Sa Aa) as ->. exists b. cbn zeta. split; [exact Hb|].
  destruct (eb_append (q_buf s) i _) as [b1|] eqn:E1; [|discriminate]. cbn [rbind] in E. pose proof (holds_step cap past (q_buf s) (RAppend i _) b1 K E1) as K1.
  set (tr := mkTrans (mkRec o a r obs b (Some (after i))) done) in *. rewrite (orb_comm reset done) in E.
  assert (G : forall b2 last, (if done || reset then b2 <- eb_stop b1 i ;; Ok (b2, list_set (q_last s) i None) else Ok (b1, q_last s)) = Ok (b2, last) ->
    holds cap (past ++ RAppend i tr :: (if done || reset then [RStop i] else [])) b2 /\ skipn (S i) last = skipn (S i) (q_last s)).
  { intros b2 last X. destruct (done || reset).
    - destruct (eb_stop b1 i) as [b3|] eqn:E3; [|discriminate]. cbn in X. injection X as <- <-. split.
      + replace (past ++ [RAppend i tr; RStop i]) with ((past ++ [RAppend i tr]) ++ [RStop i]) by now rewrite <- app_assoc. exact (holds_step cap _ b1 (RStop i) b3 K1 E3).
      + clear. generalize (q_last s). intros l. revert i. induction l as [|x l IH]; intros [|i]; try reflexivity. cbn [list_set]. change (skipn (S (S i)) (x :: ?l)) with (skipn (S i) l). apply IH.
    - injection X as <- <-. split; [exact K1|reflexivity]. }
  destruct (if done || reset then _ else _) as [[b2 last]|]; [|discriminate]. cbn [rbind] in E. destruct (G b2 last eq_refl) as [K2 Ls].
  unfold update_if_necessary in E. cbn [q_buf] in E. revert E.
  set (s1 := mkRdqn _ _ _ _ _ _ _ _ _ _ _). intros E.
  assert (D : forall (x : bool) (s2 : rdqn) bs2, Ok (x, s1, []) = Ok (x, s2, bs2) -> holds cap (past ++ RAppend i tr :: (if done || reset then [RStop i] else [])) (q_buf s2) /\ Forall (Forall (fun x => piece_of (past ++ RAppend i tr :: (if done || reset then [RStop i] else [])) x)) bs2 /\
    q_train s2 = q_train s /\ q_prev s2 = q_prev s /\ q_test s2 = q_test s /\ q_training s2 = q_training s /\ skipn (S i) (q_last s2) = skipn (S i) (q_last s)).
  { intros x s2 bs2 X. injection X as <- <-. unfold s1. cbn. repeat (split; [first [assumption | constructor | reflexivity]|]). exact Ls. }
  destruct (_ <? u_start U); [cbn in E; injection E as <- <-; exact (D false _ _ eq_refl)|].
  destruct (u_episodic U && _); [cbn in E; injection E as <- <-; exact (D false _ _ eq_refl)|].
  destruct (u_interval U =? 0); [discriminate|]. destruct (negb _); [cbn in E; injection E as <- <-; exact (D false _ _ eq_refl)|].
  destruct (update_loop _ _ _ _ _ _) as [[s2 bs2]|] eqn:UL; [|discriminate]. cbn in E. injection E as <- <-.
  destruct (update_loop_ok _ _ s1 s2 bs2 K2 UL) as (B2 & (C1 & C2 & C3 & C4 & C5) & F). rewrite B2, C1, C2, C3, C4, C5. unfold s1. cbn. split; [exact K2|]. split; [exact F|]. repeat split. exact Ls.
Qed.

Lemma observe_all_ok before after : forall l past (s s' : rdqn) i obs actions bs, length obs = length l -> length actions = length l -> i + length l = n ->
  skipn i (q_last s) = map Some (combine obs actions) -> states_are zero n (q_prev s) before -> some_states_are zero n (q_train s) after -> holds cap past (q_buf s) ->
  observe_all U tui fuel learn sync draws s i l = Ok (s', bs) ->
  exists ops, map nop ops = steps i obs actions l before after /\ holds cap (past ++ ops) (q_buf s') /\ Forall (Forall (fun x => piece_of (past ++ ops) x)) bs /\
    q_train s' = q_train s /\ q_prev s' = q_prev s /\ q_test s' = q_test s /\ q_training s' = q_training s.
Proof.
  induction l as [|[[[o' r] done] reset] l IH]; intros past s s' i obs actions bs Lo La Hn Hl Sb Sa K E; cbn [observe_all] in E.
  - injection E as <- <-. exists []. destruct obs; [|discriminate]. rewrite app_nil_r. split; [reflexivity|]. split; [exact K|]. split; [constructor|auto].
  - destruct obs as [|o obs]; [discriminate|]. destruct actions as [|a actions]; [discriminate|]. cbn [length] in *. cbn [combine map] in Hl.
    assert (Nl : nth_error (q_last s) i = Some (Some (o, a))).
    { rewrite <- (firstn_skipn i (q_last s)), Hl. assert (length (firstn i (q_last s)) = i).
      { rewrite firstn_length. assert (i < length (q_last s)); [|lia]. apply (f_equal (@length _)) in Hl. rewrite skipn_length in Hl. cbn in Hl. lia. }
      rewrite nth_error_app2 by lia. replace (i - _) with 0 by lia. reflexivity. }
    destruct (observe_one U tui fuel learn sync draws s i o' r done reset) as [[s1 b1]|] eqn:E1; [|discriminate]. cbn [rbind] in E.
    destruct (observe_one_ok past s s1 i o' r done reset b1 o a before after Nl ltac:(lia) Sb Sa K E1) as (b & Hb & K1 & F1 & C1 & C2 & C3 & C4 & C5).
    destruct (observe_all U tui fuel learn sync draws s1 (S i) l) as [[s2 bs2]|] eqn:E2; [|discriminate]. cbn in E. injection E as <- <-.
    set (ops1 := RAppend i _ :: _) in *.
    assert (Hl1 : skipn (S i) (q_last s1) = map Some (combine obs actions)).
    { rewrite C5. clear - Hl. revert i Hl. induction (q_last s) as [|x t IH]; intros [|i] Hl; try discriminate; [now injection Hl|]. cbn [skipn] in Hl |- *. exact (IH i Hl). }
    destruct (IH (past ++ ops1) s1 s2 (S i) obs actions bs2) as (ops & Eo & K2 & F2 & D1 & D2 & D3 & D4); [lia|lia|lia|exact Hl1|now rewrite C2|now rewrite C1|exact K1|exact E2|].
    exists (ops1 ++ ops). rewrite app_assoc, D1, D2, D3, D4, C1, C2, C3, C4. split; [|split; [exact K2|split; [|auto]]].
    + rewrite map_app, Eo. unfold ops1. cbn [steps]. cbn [map map_op]. assert (Es : stored_as zero (mkTrans (mkRec o a r o' b (Some (after i))) done) = mkTrans (mkRec o a r o' (Some (before i)) (Some (after i))) done) by (unfold stored_as; cbn; destruct b; now rewrite Hb).
      rewrite Es. cbn [app]. f_equal. destruct (done || reset); reflexivity.
    + apply Forall_app. split; [|exact F2]. eapply Forall_impl; [|exact F1]. intros bt Fb. eapply Forall_impl; [|exact Fb]. cbn. intros x (e & ep & I & Bx). exists e, ep. split; [|exact Bx]. now apply in_episodes_grow.
Qed.

(** The state of the agent between events. *)
Definition ready (acted : bool) (m before : nat -> H) (obs : list Ob) (actions : list Ac) (s : rdqn) : Prop :=
  states_are zero n (q_train s) m /\
  (acted = true -> some_states_are zero n (q_train s) m /\ states_are zero n (q_prev s) before /\ length obs = n /\ length actions = n /\ q_last s = map Some (combine obs actions)).

Lemma run_ok : forall es past (s s' : rdqn) tr acted m before obs actions, run cell zero greedy U tui fuel learn sync draws s es = Ok (s', tr) -> proper n acted tr ->
  holds cap past (q_buf s) -> ready acted m before obs actions s ->
  exists ops, map nop ops = calls cell zero m before obs actions tr /\ holds cap (past ++ ops) (q_buf s') /\
    (forall l bs, In (Observed true l bs) tr -> Forall (Forall (fun x => piece_of (past ++ ops) x)) bs) /\
    (forall k p obs avs actions, nth_error tr k = Some (Acted true p obs avs actions) -> (length obs = n /\ length avs = n /\ length actions = n) /\
       (forall i o, nth_error obs i = Some o -> nth_error avs i = Some (fst (cell p o (fold_left (fun m x => remember cell zero x m) (firstn k tr) m i)))) /\
       exists explorer t, nth_error es k = Some (Act obs explorer) /\ forall i av, nth_error avs i = Some av -> nth_error actions i = Some (explorer i t av)).
Proof.
  induction es as [|e es IH]; intros past s s' tr acted m before obs actions E P K R; cbn [run] in E.
  - injection E as <- <-. exists []. rewrite app_nil_r. split; [reflexivity|]. split; [exact K|]. split; [intros l bs []|]. intros [|k]; discriminate.
  - destruct (step _ _ _ _ _ _ _ _ _ s e) as [[s1 x]|] eqn:E1; [|discriminate]. cbn [rbind] in E. destruct (run _ _ _ _ _ _ _ _ _ s1 es) as [[s2 xs]|] eqn:E2; [|discriminate]. cbn in E. injection E as <- <-.
    destruct e as [b|ob ex|l]; cbn [step] in E1.
    + injection E1 as <- <-. cbn [proper] in P. destruct (IH past _ s2 xs acted m before obs actions E2 P K) as (ops & C1 & C2 & C3 & C4); [exact R|].
      exists ops. split; [exact C1|]. split; [exact C2|]. split; [intros l bs [X|I]; [discriminate|eauto]|]. intros [|k] p ob av ac N; [discriminate|]. exact (C4 k p ob av ac N).
    + unfold batch_act in E1. destruct (forward cell zero (q_model s) ob _) as [[avs hs]|] eqn:F; [|discriminate]. cbn [rbind] in E1. destruct (q_training s) eqn:Tr.
      * cbn in E1. injection E1 as <- <-. cbn [proper] in P. destruct P as (-> & Lo & P). destruct R as [R _].
        destruct (forward_ok cell zero n (q_model s) ob (q_train s) m avs hs Lo R F) as (La & Va & Sa).
        set (acts := map _ (combine _ avs)) in *. assert (Lc : length acts = n) by (unfold acts; rewrite map_length, combine_length, seq_length; lia).
        set (x := Acted true (q_model s) ob avs acts) in *.
        match type of E2 with run _ _ _ _ _ _ _ _ _ ?s1 _ = _ => destruct (IH past s1 s2 xs true (remember cell zero x m) m ob acts E2 P K) as (ops & C1 & C2 & C3 & C4) end.
        { split; [exact Sa|]. intros _. split; [exists hs; split; [reflexivity|exact Sa]|]. split; [exact R|]. split; [exact Lo|]. split; [exact Lc|reflexivity]. }
        exists ops. split; [exact C1|]. split; [exact C2|]. split; [intros l bs [X|I]; [discriminate|eauto]|]. intros [|k] p o2 av ac N.
        -- cbn in N. injection N as <- <- <- <-. split; [auto|]. split; [exact Va|]. exists ex, (q_t s). split; [reflexivity|]. intros i v Nv. unfold acts. rewrite nth_error_map.
           assert (Hi : i < length avs) by (apply nth_error_Some; congruence). destruct (nth_error (combine (seq 0 (length avs)) avs) i) as [y|] eqn:Ny.
           ++ apply nth_combine_seq in Ny. destruct Ny as [Y1 Y2]. cbn. rewrite Y1. rewrite Nv in Y2. injection Y2 as <-. reflexivity.
           ++ apply nth_error_None in Ny. rewrite combine_length, seq_length in Ny. lia.
        -- cbn [nth_error firstn fold_left] in N |- *. exact (C4 k p o2 av ac N).
      * cbn in E1. injection E1 as <- <-. cbn [proper] in P.
        match type of E2 with run _ _ _ _ _ _ _ _ _ ?s1 _ = _ => destruct (IH past s1 s2 xs acted m before obs actions E2 P K) as (ops & C1 & C2 & C3 & C4) end; [exact R|].
        exists ops. split; [exact C1|]. split; [exact C2|]. split; [intros l bs [X|I]; [discriminate|eauto]|]. intros [|k] p o2 av ac N; [discriminate|]. exact (C4 k p o2 av ac N).
    + unfold batch_observe in E1. destruct (q_training s) eqn:Tr.
      * destruct (observe_all _ _ _ _ _ _ s 0 l) as [[s3 bs]|] eqn:O; [|discriminate]. cbn [rbind] in E1. destruct (reset_states zero (map ends l) (q_train s3)) as [hs|] eqn:Rs; [|discriminate]. cbn in E1. injection E1 as <- <-.
        cbn [proper] in P. destruct P as (-> & Ll & P). destruct R as [_ R]. destruct (R eq_refl) as (Sa & Sb & Lo & Lc & Hl).
        destruct (observe_all_ok before m l past s s3 0 obs actions bs) as (ops1 & D1 & D2 & D3 & D4 & D5 & D6 & D7); [lia|lia|lia|exact Hl|exact Sb|exact Sa|exact K|exact O|].
        set (x := Observed true l bs) in *. rewrite D4 in Rs. assert (Sm : states_are zero n (q_train s) m) by (destruct Sa as (hl & -> & Sa); exact Sa).
        pose proof (reset_ok zero n l (q_train s) m hs Ll Sm Rs) as Sr.
        match type of E2 with run _ _ _ _ _ _ _ _ _ ?s1 _ = _ => destruct (IH (past ++ ops1) s1 s2 xs false (remember cell zero x m) before [] [] E2 P D2) as (ops & C1 & C2 & C3 & C4) end.
        { split; [exact Sr|]. discriminate. }
        exists (ops1 ++ ops). rewrite app_assoc. split; [cbn [calls]; now rewrite map_app, D1, C1|]. split; [exact C2|]. split.
        -- intros l2 bs2 [X|I]; [|eauto]. injection X as <- <-. eapply Forall_impl; [|exact D3]. intros bt Fb. eapply Forall_impl; [|exact Fb]. cbn. intros y (e & ep & I & Bx). exists e, ep. split; [|exact Bx]. now apply in_episodes_grow.
        -- intros [|k] p o2 av ac N; [discriminate|]. cbn [nth_error firstn fold_left] in N |- *. exact (C4 k p o2 av ac N).
      * destruct (reset_states _ _ _) as [hs|]; [|discriminate]. cbn in E1. injection E1 as <- <-. cbn [proper] in P.
        match type of E2 with run _ _ _ _ _ _ _ _ _ ?s1 _ = _ => destruct (IH past s1 s2 xs acted m before obs actions E2 P K) as (ops & C1 & C2 & C3 & C4) end; [exact R|].
        exists ops. split; [exact C1|]. split; [exact C2|]. split; [intros l2 bs [X|I]; [discriminate|eauto]|]. intros [|k] p o2 av ac N; [discriminate|]. exact (C4 k p o2 av ac N).
Qed.
End Agent.

(** ** Episodes carry what was remembered *)
Section Coherent.
Context {Ob Ac AV H Pm : Type} (cell : Pm -> Ob -> H -> AV * H) (zero : H) (n : nat).
Notation rec := (rec Ob Ac H).
Notation states := (map (fun x : trans rec => r_state (payload x))).
Notation seen := (seen Ob Ac AV H Pm).
Notation fed := (fed cell zero).

Definition chain (ps : list Pm) (ep : list (trans rec)) : Prop :=
  length ps = length ep /\
  forall k x, nth_error ep k = Some x ->
    r_before (payload x) = Some (fed (firstn k (combine ps (states ep)))) /\ r_after (payload x) = Some (fed (firstn (S k) (combine ps (states ep)))).
Lemma chain_coherent ps ep : chain ps ep -> coherent cell zero ep.
Proof. intros [L C]. exists ps. split; [exact L|]. exact C. Qed.
Lemma combine_snoc {X Y} (l : list X) (l' : list Y) x y : length l = length l' -> combine (l ++ [x]) (l' ++ [y]) = combine l l' ++ [(x, y)].
Proof. revert l'. induction l as [|a l IH]; intros [|b l'] E; try discriminate; [reflexivity|]. cbn in *. f_equal. apply IH. lia. Qed.
Lemma chain_snoc ps ep p x : chain ps ep -> r_before (payload x) = Some (fed (combine ps (states ep))) ->
  r_after (payload x) = Some (snd (cell p (r_state (payload x)) (fed (combine ps (states ep))))) ->
  chain (ps ++ [p]) (ep ++ [x]) /\ fed (combine (ps ++ [p]) (states (ep ++ [x]))) = snd (cell p (r_state (payload x)) (fed (combine ps (states ep)))).
Proof.
  intros [L C] B A. rewrite map_app. cbn [map]. rewrite combine_snoc by now rewrite map_length.
  assert (F : fed (combine ps (states ep) ++ [(p, r_state (payload x))]) = snd (cell p (r_state (payload x)) (fed (combine ps (states ep))))) by (unfold S_RecDQN.fed; now rewrite fold_left_app).
  split; [|exact F]. split; [rewrite !app_length; cbn; lia|]. rewrite map_app. cbn [map]. rewrite combine_snoc by now rewrite map_length. assert (LC : length (combine ps (states ep)) = length ep) by (rewrite combine_length, map_length; lia).
  intros k y N. destruct (Nat.lt_ge_cases k (length ep)) as [Hk|Hk].
  - rewrite nth_error_app1 in N by exact Hk. rewrite !firstn_app, LC. replace (k - length ep) with 0 by lia. replace (S k - length ep) with 0 by lia. cbn [firstn]. rewrite !app_nil_r. exact (C k y N).
  - rewrite nth_error_app2 in N by exact Hk. destruct (k - length ep) as [|j] eqn:Ej; [|destruct j; discriminate]. cbn in N. injection N as <-. assert (k = length ep) by lia. subst k.
    split; [|rewrite firstn_all2 by (rewrite app_length; cbn; lia); now rewrite F]. rewrite <- LC. rewrite firstn_app, Nat.sub_diag, firstn_all, firstn_O, app_nil_r. exact B.
Qed.

(** What [steps] does to one environment. *)
Lemma steps_effect e before after : forall (l : list (outcome Ob)) i obs (actions : list Ac) dn (cur : list (trans rec)), length obs = length l -> length actions = length l ->
  fold_left (ep_step e) (steps i obs actions l before after) (dn, cur) =
  if (i <=? e) && (e <? i + length l) then
    match nth_error obs (e - i), nth_error actions (e - i), nth_error l (e - i) with
    | Some o, Some a, Some (o', r, done, reset) =>
        let ep := cur ++ [mkTrans (mkRec o a r o' (Some (before e)) (Some (after e))) done] in if done || reset then (dn ++ [ep], []) else (dn, ep)
    | _, _, _ => (dn, cur)
    end
  else (dn, cur).
Proof.
  induction l as [|[[[o' r] done] reset] l IH]; intros i obs actions dn cur Lo La.
  - destruct obs; [|discriminate]. cbn [steps fold_left length]. replace ((i <=? e) && (e <? i + 0)) with false; [reflexivity|]. symmetry. apply andb_false_iff. destruct (Nat.lt_ge_cases e i); [left; apply Nat.leb_gt; lia|right; apply Nat.ltb_ge; lia].
  - destruct obs as [|o obs]; [discriminate|]. destruct actions as [|a actions]; [discriminate|]. cbn [steps]. cbn [fold_left]. rewrite fold_left_app. cbn [length] in Lo, La.
    destruct (Nat.eq_dec i e) as [->|Ne].
    + rewrite Nat.leb_refl. replace (e <? e + _) with true by (symmetry; apply Nat.ltb_lt; cbn; lia). rewrite Nat.sub_diag. cbn [nth_error andb]. cbn zeta.
      assert (G : fold_left (ep_step e) (if done || reset then [RStop e] else []) (ep_step e (dn, cur) (RAppend e (mkTrans (mkRec o a r o' (Some (before e)) (Some (after e))) done))) =
        if done || reset then (dn ++ [cur ++ [mkTrans (mkRec o a r o' (Some (before e)) (Some (after e))) done]], []) else (dn, cur ++ [mkTrans (mkRec o a r o' (Some (before e)) (Some (after e))) done])).
      { cbn [ep_step]. rewrite Nat.eqb_refl. cbn [terminal]. destruct done; cbn [orb fold_left ep_step]; [now rewrite Nat.eqb_refl|]. destruct reset; cbn [fold_left ep_step]; [|reflexivity]. rewrite Nat.eqb_refl. now destruct cur. }
      rewrite G. destruct (done || reset); (rewrite IH by lia; replace (S e <=? e) with false by (symmetry; apply Nat.leb_gt; lia); reflexivity).
    + assert (G : fold_left (ep_step e) (if done || reset then [RStop i] else []) (ep_step e (dn, cur) (RAppend i (mkTrans (mkRec o a r o' (Some (before i)) (Some (after i))) done))) = (dn, cur)).
      { cbn [ep_step]. rewrite (proj2 (Nat.eqb_neq i e) Ne). destruct (done || reset); [|reflexivity]. cbn [fold_left ep_step]. now rewrite (proj2 (Nat.eqb_neq i e) Ne). }
      rewrite G, IH by lia. cbn [length]. destruct (Nat.lt_ge_cases e i) as [Hlt|Hge].
      * replace (i <=? e) with false by (symmetry; apply Nat.leb_gt; lia). replace (S i <=? e) with false by (symmetry; apply Nat.leb_gt; lia). reflexivity.
      * replace (i <=? e) with true by (symmetry; apply Nat.leb_le; lia). replace (S i <=? e) with true by (symmetry; apply Nat.leb_le; lia). replace (S i + length l) with (i + S (length l)) by lia.
        replace (e - i) with (S (e - S i)) by lia. reflexivity.
Qed.

Definition living (acted : bool) (m before : nat -> H) (obs : list Ob) (actions : list Ac) (past : list (rb_op rec)) : Prop :=
  (acted = true -> length obs = n /\ length actions = n) /\
  forall e, Forall (coherent cell zero) (fst (episodes e past)) /\
    (n <= e -> fst (episodes e past) = []) /\
    (e < n -> exists ps, chain ps (snd (episodes e past)) /\
       (if acted then before e else m e) = fed (combine ps (states (snd (episodes e past)))) /\
       (acted = true -> exists p o, nth_error obs e = Some o /\ m e = snd (cell p o (before e)))).

Lemma episodes_app e (past more : list (rb_op rec)) : episodes e (past ++ more) = fold_left (ep_step e) more (episodes e past).
Proof. unfold episodes. now rewrite fold_left_app. Qed.

Lemma calls_living : forall tr acted m before obs actions past, proper n acted tr ->
  (forall p ob avs acts, In (Acted true p ob avs acts) tr -> length acts = length ob) ->
  living acted m before obs actions past ->
  forall e, Forall (coherent cell zero) (fst (episodes e (past ++ calls cell zero m before obs actions tr))).
Proof.
  induction tr as [|x tr IH]; intros acted m before obs actions past P Q L e; [rewrite app_nil_r; apply L|].
  assert (Q' : forall p ob avs acts, In (Acted true p ob avs acts) tr -> length acts = length ob) by (intros; eapply Q; right; eauto).
  destruct x as [b|[|] p ob avs acts|[|] l bs]; cbn [proper] in P; cbn [calls].
  - eapply IH; eauto.
  - destruct P as (-> & Lo & P). apply (IH true _ m ob acts past P Q'). destruct L as [_ L]. split; [intros _; split; [exact Lo|rewrite (Q p ob avs acts (or_introl eq_refl)); exact Lo]|].
    intros e'. destruct (L e') as (L1 & L2 & L3). split; [exact L1|]. split; [exact L2|]. intros He. destruct (L3 He) as (ps & C & F & _). exists ps. split; [exact C|]. split; [exact F|]. intros _.
    cbn [remember]. destruct (nth_error ob e') as [o|] eqn:No; [|apply nth_error_None in No; lia]. exists p, o. auto.
  - eapply IH; eauto.
  - destruct P as (-> & Ll & P). rewrite app_assoc. apply (IH false _ before [] [] _ P Q'). destruct L as [L0 L]. destruct (L0 eq_refl) as [Lo La]. split; [discriminate|]. intros e'.
    destruct (L e') as (L1 & L2 & L3). rewrite episodes_app. destruct (episodes e' past) as [dn cur]. cbn [fst snd] in *. rewrite steps_effect by lia. rewrite Nat.sub_0_r, Ll. cbn [Nat.leb andb Nat.add].
    destruct (e' <? n) eqn:He; [apply Nat.ltb_lt in He|apply Nat.ltb_ge in He; cbn [fst snd]; split; [exact L1|]; split; [exact L2|]; lia].
    destruct (L3 He) as (ps & C & F & A). destruct (A eq_refl) as (p & o & No & Em). rewrite No.
    destruct (nth_error actions e') as [a|] eqn:Na; [|apply nth_error_None in Na; lia]. destruct (nth_error l e') as [[[[o' r] done] reset]|] eqn:Nl; [|apply nth_error_None in Nl; lia]. cbn zeta.
    set (x := mkTrans _ done). destruct (chain_snoc ps cur p x C) as [C2 F2]; [cbn; now rewrite F|cbn; now rewrite Em, F|]. cbn [remember]. rewrite Nl. cbn [ends].
    destruct (done || reset); cbn [fst snd].
    + split; [apply Forall_app; split; [exact L1|constructor; [exact (chain_coherent _ _ C2)|constructor]]|]. split; [lia|]. intros _. exists []. split; [split; [reflexivity|intros [|k] y N; discriminate]|]. split; [reflexivity|discriminate].
    + split; [exact L1|]. split; [exact L2|]. intros _. exists (ps ++ [p]). split; [exact C2|]. split; [|discriminate]. rewrite F2. cbn [payload x r_state]. now rewrite Em, F.
  - eapply IH; eauto.
Qed.
Lemma expected_coherent (tr : list seen) : proper n false tr -> (forall p ob avs acts, In (Acted true p ob avs acts) tr -> length acts = length ob) ->
  forall e, Forall (coherent cell zero) (fst (episodes e (expected_calls cell zero tr))).
Proof.
  intros P Q. apply (calls_living tr false (fun _ => zero) (fun _ => zero) [] [] [] P Q). split; [discriminate|]. intros e. cbn. split; [constructor|]. split; [reflexivity|]. intros _. exists [].
  split; [split; [reflexivity|intros [|k] x N; discriminate]|]. split; [reflexivity|discriminate].
Qed.
End Coherent.
