(** C103: the environment ABC. *)
From Verif Require Import Base P_Base M_ABC.
From Coq Require Import ZifyBool ZifyNat Lia.
From Coq Require Import QArith Reals Lra.
Close Scope Q_scope. Close Scope R_scope.
Open Scope nat_scope.

(** Position [k] of [n] is one, all others zero. *)
Definition one_hot (n k : nat) (v : list Q) : Prop := length v = n /\ k < n /\ forall i, i < n -> nth i v 0%Q = if i =? k then 1%Q else 0%Q.
(** The actions as numbers: in a discrete environment themselves, otherwise the index of the first largest entry of the clipped vector, or the index drawn. *)
Definition stands_for (P : abc_args) (draw : list Q -> nat) (a : action) (n : nat) : Prop := inner_action P draw a = Ok n.

(** Docstring, non-episodic: only the action equal to the state leads on, after the last state it starts again with reward 1. *)
Fixpoint right_ones (N c : nat) (ns : list nat) : nat :=
  match ns with [] => c | n :: ns => right_ones N (if n =? c mod N then S c else c) ns end.
Fixpoint rewards (l : list (list Q * Q * bool)) : Q := match l with [] => 0%Q | (_, r, _) :: l => (r + rewards l)%Q end.

Lemma observe_ok P st off : st <= c_size P -> off <= 1 -> exists o, observe P (mkSt (Some st) (Some off)) = Ok o /\ one_hot (c_size P + 2) (st + off) o.
Proof.
  intros H O. unfold observe, n_dim_obs. cbn [s_state s_offset]. replace (st + off <? c_size P + 1 + 1) with true by lia. eexists. split; [reflexivity|].
  replace (c_size P + 1 + 1) with (c_size P + 2) by lia. split; [now rewrite map_length, seq_length|]. split; [lia|]. intros i I.
  rewrite (nth_indep _ 0%Q ((fun j => if j =? st + off then 1%Q else 0%Q) 0)) by (rewrite map_length, seq_length; exact I). rewrite (map_nth (fun j => if j =? st + off then 1%Q else 0%Q)), seq_nth by exact I. reflexivity.
Qed.

Section Play.
Context (P : abc_args) (draw : list Q -> nat) (HN : 1 <= c_size P).
Notation N := (c_size P).
Lemma mod_next c : (if S (c mod N) =? N then 0 else S (c mod N)) = S c mod N /\ (if S (c mod N) =? N then S (c / N) else c / N) = S c / N.
Proof.
  pose proof (Nat.div_mod c N ltac:(lia)) as D. pose proof (Nat.mod_upper_bound c N ltac:(lia)) as B. destruct (Nat.eqb_spec (S (c mod N)) N) as [E|E].
  - assert (X : S c = S (c / N) * N + 0) by nia. split; [apply (Nat.mod_unique _ _ (S (c / N))); nia|apply (Nat.div_unique _ _ _ 0); nia].
  - split; [apply (Nat.mod_unique _ _ (c / N)); nia|apply (Nat.div_unique _ _ _ (S (c mod N))); nia].
Qed.
Lemma continuing_from : c_episodic P = false -> forall acts ns c off, off <= 1 -> Forall2 (stands_for P draw) acts ns ->
  exists outs, steps P draw acts (mkSt (Some (c mod N)) (Some off)) = (mkSt (Some (right_ones N c ns mod N)) (Some off), Ok outs) /\ length outs = length acts /\
    (rewards outs + inject_Z (Z.of_nat (c / N)) == inject_Z (Z.of_nat (right_ones N c ns / N)))%Q /\ Forall (fun o => snd o = false) outs /\
    (forall i, i < length acts -> exists o r d, nth_error outs i = Some (o, r, d) /\ one_hot (N + 2) (right_ones N c (firstn (S i) ns) mod N + off) o).
Proof.
  intros EP. induction acts as [|a acts IH]; intros ns c off O F; inversion F as [|? n ? ns' S1 F']; subst.
  - exists []. cbn. split; [reflexivity|]. split; [reflexivity|]. split; [ring|]. split; [constructor|]. intros i I. lia.
  - cbn [steps right_ones]. unfold step at 1. rewrite S1. cbn [s_state s_offset]. rewrite EP. destruct (mod_next c) as [M1 M2]. pose proof (Nat.mod_upper_bound c N ltac:(lia)) as B.
    set (c' := if n =? c mod N then S c else c). set (rw := if n =? c mod N then (if S (c mod N) =? N then 1%Q else 0%Q) else 0%Q).
    assert (E : (if n =? c mod N then if S (c mod N) =? N then (0, 1%Q, false) else (S (c mod N), 0%Q, false) else (c mod N, 0%Q, false)) = (c' mod N, rw, false)).
    { unfold c', rw. destruct (n =? c mod N); [|reflexivity]. rewrite <- M1. destruct (S (c mod N) =? N); reflexivity. }
    rewrite E. clear E. pose proof (Nat.mod_upper_bound c' N ltac:(lia)) as B'. destruct (observe_ok P (c' mod N) off) as (o & Eo & Ho); [lia|exact O|]. rewrite Eo. cbn [rmap].
    destruct (IH ns' c' off O F') as (outs & E1 & L1 & R1 & D1 & X1). rewrite E1. exists ((o, rw, false) :: outs). split; [reflexivity|]. split; [cbn; lia|]. split; [|split].
    + cbn [rewards]. rewrite <- R1. assert (Q : (rw + inject_Z (Z.of_nat (c / N)) == inject_Z (Z.of_nat (c' / N)))%Q).
      { unfold rw, c'. destruct (n =? c mod N); [|ring]. rewrite <- M2. destruct (S (c mod N) =? N); [|ring]. rewrite Nat2Z.inj_succ, <- Z.add_1_l, inject_Z_plus. reflexivity. }
      rewrite <- Q. ring.
    + constructor; [reflexivity|exact D1].
    + intros [|i] I; cbn [nth_error firstn right_ones]; [exists o, rw, false; split; [reflexivity|exact Ho]|]. cbn [length] in I. destruct (X1 i ltac:(lia)) as (o' & r' & d' & E2 & H2). exists o', r', d'. split; [exact E2|exact H2].
Qed.
End Play.

(** Non-episodic: after any actions the state is the number of right actions so far (modulo N), shown by a one-hot observation of N + 2 entries shifted by the offset of
    the episode; the rewards add up to the number of times that all N right actions were made; the episode never ends. *)
Theorem C103_continuing P draw coin s acts ns : 1 <= c_size P -> c_episodic P = false -> coin <= 1 -> Forall2 (stands_for P draw) acts ns ->
  let N := c_size P in
  exists off o0 s' outs, off <= 1 /\ reset P coin s = (mkSt (Some 0) (Some off), Ok o0) /\ one_hot (N + 2) off o0 /\ (c_partial P = false -> off = 0) /\
    steps P draw acts (fst (reset P coin s)) = (s', Ok outs) /\ length outs = length acts /\
    (rewards outs == inject_Z (Z.of_nat (right_ones N 0 ns / N)))%Q /\
    forall i, i < length acts -> exists o r, nth_error outs i = Some (o, r, false) /\ one_hot (N + 2) (right_ones N 0 (firstn (S i) ns) mod N + off) o.
Proof.
  intros HN EP C F N. set (off := if c_partial P then (if c_deterministic P then (match s_offset s with Some o => o | None => 0 end + 1) mod 2 else coin) else 0).
  assert (O : off <= 1). { unfold off. destruct (c_partial P); [|lia]. destruct (c_deterministic P); [|exact C]. pose proof (Nat.mod_upper_bound (match s_offset s with Some o => o | None => 0 end + 1) 2 ltac:(lia)). lia. }
  destruct (observe_ok P 0 off (Nat.le_0_l _) O) as (o0 & E0 & H0). destruct (continuing_from P draw HN EP acts ns 0 off O F) as (outs & E1 & L1 & R1 & D1 & X1). rewrite Nat.mod_0_l in E1 by lia.
  exists off, o0, (mkSt (Some (right_ones N 0 ns mod N)) (Some off)), outs. split; [exact O|]. split; [unfold reset; fold off; now rewrite E0|]. split; [exact H0|]. split; [intros K; unfold off; now rewrite K|].
  split; [exact E1|]. split; [exact L1|]. split; [rewrite Nat.div_0_l in R1 by lia; eapply Qeq_trans; [|exact R1]; ring|]. intros i I. destruct (X1 i I) as (o & r & d & E2 & H2). exists o, r.
  rewrite Forall_forall in D1. pose proof (D1 _ (nth_error_In _ _ E2)) as D2. cbn in D2. subst d. auto.
Qed.

(** Episodic. *)
Lemma same_length {X Y} {R : X -> Y -> Prop} {l l'} : Forall2 R l l' -> length l = length l'.
Proof. induction 1; cbn; congruence. Qed.
Fixpoint counts_up (c : nat) (ns : list nat) : bool := match ns with [] => true | n :: ns => (n =? c) && counts_up (S c) ns end.
Lemma counts_seq c ns : counts_up c ns = true <-> ns = seq c (length ns).
Proof.
  revert c. induction ns as [|n ns IH]; intros c; cbn [counts_up length seq]; [tauto|]. rewrite andb_true_iff, Nat.eqb_eq, IH. split; [intros [-> E]; now rewrite <- E|]. intros E. injection E as E1 E2. auto.
Qed.
Section Episodic.
Context (P : abc_args) (draw : list Q -> nat) (HN : 1 <= c_size P) (EP : c_episodic P = true).
Notation N := (c_size P).
(** After the terminal state nothing happens any more, as long as the actions stand for 0, ..., N - 1. *)
Lemma over off : off <= 1 -> forall acts ns, Forall2 (stands_for P draw) acts ns -> Forall (fun n => n < N) ns ->
  exists outs, steps P draw acts (mkSt (Some N) (Some off)) = (mkSt (Some N) (Some off), Ok outs) /\ length outs = length acts /\ forall i, i < length acts -> exists o, nth_error outs i = Some (o, 0%Q, true) /\ one_hot (N + 2) (N + off) o.
Proof.
  intros O. induction acts as [|a acts IH]; intros ns F L; inversion F as [|? n ? ns' S1 F']; subst; [exists []; cbn; repeat split; lia|]. inversion L as [|? ? L1 L2]; subst.
  cbn [steps]. unfold step at 1. rewrite S1. cbn [s_state s_offset]. rewrite EP. replace (n =? N) with false by lia. destruct (observe_ok P N off) as (o & Eo & Ho); [lia|exact O|]. rewrite Eo. cbn [rmap].
  destruct (IH ns' F' L2) as (outs & E1 & LE & X1). rewrite E1. exists ((o, 0%Q, true) :: outs). split; [reflexivity|]. split; [cbn; lia|]. intros [|i] I; [exists o; auto|]. cbn [length] in I. destruct (X1 i ltac:(lia)) as (o' & E2 & H2). exists o'. auto.
Qed.
Lemma episode_from off : off <= 1 -> forall acts ns c, c < N -> Forall2 (stands_for P draw) acts ns -> Forall (fun n => n < N) ns ->
  exists s' outs, steps P draw acts (mkSt (Some c) (Some off)) = (s', Ok outs) /\ length outs = length acts /\ forall i, i < length acts ->
    let right := counts_up c (firstn (S i) ns) in let done := negb right || (N <=? c + S i) in
    exists o, nth_error outs i = Some (o, if right && (c + S i =? N) then 1%Q else 0%Q, done) /\ one_hot (N + 2) ((if done then N else c + S i) + off) o.
Proof.
  intros O. induction acts as [|a acts IH]; intros ns c C F L; inversion F as [|? n ? ns' S1 F']; subst; [exists (mkSt (Some c) (Some off)), []; cbn; repeat split; lia|]. inversion L as [|? ? L1 L2]; subst.
  cbn [steps]. unfold step at 1. rewrite S1. cbn [s_state s_offset]. rewrite EP. destruct (n =? c) eqn:En; [destruct (S c =? N) eqn:Ec|].
  - destruct (observe_ok P N off) as (o & Eo & Ho); [lia|exact O|]. rewrite Eo. cbn [rmap]. destruct (over off O acts ns' F' L2) as (outs & E1 & LE & X1). rewrite E1. eexists. exists ((o, 1%Q, true) :: outs). split; [reflexivity|]. split; [cbn; lia|].
    intros [|i] I; cbn [length] in I; cbv zeta; cbn [nth_error firstn counts_up]; rewrite En; cbn [andb negb orb].
    + exists o. replace (c + 1 =? N) with true by lia. replace (N <=? c + 1) with true by lia. split; [reflexivity|exact Ho].
    + destruct (X1 i ltac:(lia)) as (o' & E2 & H2). exists o'. replace (N <=? c + S (S i)) with true by lia. replace (c + S (S i) =? N) with false by lia. rewrite orb_true_r, andb_false_r. auto.
  - destruct (observe_ok P (S c) off) as (o & Eo & Ho); [lia|exact O|]. rewrite Eo. cbn [rmap]. destruct (IH ns' (S c) ltac:(lia) F' L2) as (s' & outs & E1 & LE & X1). rewrite E1. eexists. exists ((o, 0%Q, false) :: outs). split; [reflexivity|]. split; [cbn; lia|].
    intros [|i] I; cbn [length] in I; cbv zeta; cbn [nth_error firstn counts_up]; rewrite En; cbn [andb negb orb].
    + exists o. replace (c + 1 =? N) with false by lia. replace (N <=? c + 1) with false by lia. replace (c + 1) with (S c) by lia. split; [reflexivity|exact Ho].
    + destruct (X1 i ltac:(lia)) as (o' & E2 & H2). exists o'. replace (c + S (S i)) with (S c + S i) by lia. auto.
  - destruct (observe_ok P N off) as (o & Eo & Ho); [lia|exact O|]. rewrite Eo. cbn [rmap]. destruct (over off O acts ns' F' L2) as (outs & E1 & LE & X1). rewrite E1. eexists. exists ((o, 0%Q, true) :: outs). split; [reflexivity|]. split; [cbn; lia|].
    intros [|i] I; cbn [length] in I; cbv zeta; cbn [nth_error firstn counts_up]; rewrite En; cbn [andb negb orb]; [exists o; split; [reflexivity|exact Ho]|]. destruct (X1 i ltac:(lia)) as (o' & E2 & H2). exists o'. auto.
Qed.
End Episodic.

(** Episodic: reward 1 is given exactly at the N-th step if the actions were 0, ..., N - 1; the episode is over at this step or at the first wrong action, and stays over;
    the observation is one-hot at the number of steps, or at N when the episode is over, shifted by the offset. *)
Theorem C103_episodic P draw coin s acts ns : 1 <= c_size P -> c_episodic P = true -> coin <= 1 -> Forall2 (stands_for P draw) acts ns -> Forall (fun n => n < c_size P) ns ->
  let N := c_size P in
  exists off o0 s' outs, off <= 1 /\ reset P coin s = (mkSt (Some 0) (Some off), Ok o0) /\ one_hot (N + 2) off o0 /\ (c_partial P = false -> off = 0) /\
    steps P draw acts (fst (reset P coin s)) = (s', Ok outs) /\ length outs = length acts /\
    forall i, i < length acts -> exists o r d, nth_error outs i = Some (o, r, d) /\
      (d = false <-> firstn (S i) ns = seq 0 (S i) /\ S i < N) /\ ((r == 1)%Q <-> firstn (S i) ns = seq 0 (S i) /\ S i = N) /\ (r == 0 \/ r == 1)%Q /\
      one_hot (N + 2) ((if d then N else S i) + off) o.
Proof.
  intros HN EP C F L N. set (off := if c_partial P then (if c_deterministic P then (match s_offset s with Some o => o | None => 0 end + 1) mod 2 else coin) else 0).
  assert (O : off <= 1). { unfold off. destruct (c_partial P); [|lia]. destruct (c_deterministic P); [|exact C]. pose proof (Nat.mod_upper_bound (match s_offset s with Some o => o | None => 0 end + 1) 2 ltac:(lia)). lia. }
  destruct (observe_ok P 0 off (Nat.le_0_l _) O) as (o0 & E0 & H0). destruct (episode_from P draw HN EP off O acts ns 0 ltac:(lia) F L) as (s' & outs & E1 & L1 & X1).
  exists off, o0, s', outs. split; [exact O|]. split; [unfold reset; fold off; now rewrite E0|]. split; [exact H0|]. split; [intros K; unfold off; now rewrite K|]. split; [exact E1|]. split; [exact L1|].
  intros i I. destruct (X1 i I) as (o & E2 & H2). cbn [Nat.add] in E2, H2. eexists o, _, _. split; [exact E2|].
  assert (LN : length (firstn (S i) ns) = S i) by (rewrite firstn_length, <- (same_length F); lia). pose proof (counts_seq 0 (firstn (S i) ns)) as CS. rewrite LN in CS. fold N in H2 |- *.
  destruct (counts_up 0 (firstn (S i) ns)) eqn:R; cbn [negb orb andb] in *.
  - assert (T : firstn (S i) ns = seq 0 (S i)) by (now apply CS). split; [rewrite Nat.leb_gt; tauto|]. split; [|split; [destruct (_ =? _); [now right|now left]|exact H2]].
    destruct (Nat.eqb_spec (S i) N); split; auto; try reflexivity; [intros Q; discriminate Q|intros [_ Q]; contradiction].
  - assert (T : firstn (S i) ns <> seq 0 (S i)) by (intros Q; apply CS in Q; discriminate). split; [split; [discriminate|tauto]|]. split; [split; [intros Q; discriminate Q|tauto]|]. split; [now left|exact H2].
Qed.

(** Deterministic and partially observable: episodes (counted from 0) with an even number are shifted, those with an odd number are not. *)
Fixpoint episodes (P : abc_args) (draw : list Q -> nat) (l : list (nat * list action)) (s : abc_state) : abc_state :=
  match l with [] => s | (coin, acts) :: l => episodes P draw l (fst (steps P draw acts (fst (reset P coin s)))) end.
Lemma offset_kept P draw : forall acts s, s_offset (fst (steps P draw acts s)) = s_offset s.
Proof.
  induction acts as [|a acts IH]; intros s; cbn [steps]; [reflexivity|]. assert (E : s_offset (fst (step P draw a s)) = s_offset s).
  { unfold step. destruct (inner_action P draw a); [|reflexivity]. destruct (s_state s); [|reflexivity]. destruct (if _ =? _ then _ else _) as ((st, r), d). reflexivity. }
  destruct (step P draw a s) as (s1, [o|e]); [|exact E]. specialize (IH s1). destruct (steps P draw acts s1) as (s2, r). cbn in *. congruence.
Qed.
Theorem C103_shifts P draw l coin acts : c_partial P = true -> c_deterministic P = true ->
  s_offset (fst (steps P draw acts (fst (reset P coin (episodes P draw l abc_init))))) = Some (if Nat.even (length l) then 1 else 0).
Proof.
  intros C D. assert (G : forall l s, match s_offset (episodes P draw l s) with Some o => o | None => 0 end mod 2 = (match s_offset s with Some o => o | None => 0 end + length l) mod 2).
  { clear - C D. induction l as [|(coin, acts) l IH]; intros s; cbn [episodes length]; [now rewrite Nat.add_0_r|]. rewrite IH, offset_kept. unfold reset. rewrite C, D. cbn [fst s_offset].
    rewrite Nat.add_mod_idemp_l by lia. f_equal. lia. }
  rewrite offset_kept. unfold reset. rewrite C, D. cbn [fst s_offset]. rewrite <- Nat.add_mod_idemp_l by lia. rewrite G. cbn [abc_init s_offset Nat.add]. rewrite Nat.add_mod_idemp_l by lia. f_equal.
  destruct (Nat.even (length l)) eqn:E; [apply Nat.even_spec in E; destruct E as (k & ->)|assert (O : Nat.Odd (length l)) by (apply Nat.odd_spec; rewrite <- Nat.negb_even, E; reflexivity); destruct O as (k & ->)].
  - replace (2 * k + 1) with (1 + k * 2) by lia. now rewrite Nat.mod_add.
  - replace (2 * k + 1 + 1) with (0 + S k * 2) by lia. now rewrite Nat.mod_add.
Qed.

(** Deterministic and continuous: if entry [a] of the vector lies within (-1, 1] and is larger than the others, the vector stands for [a]; entries are clipped first. *)
Lemma argmax_keep l : forall i best m, (forall k, k < length l -> (nth k l 0%Q <= m)%Q) -> argmax_from i best m l = best.
Proof.
  induction l as [|x l IH]; intros i best m H; cbn [argmax_from]; [reflexivity|]. pose proof (H 0 ltac:(cbn; lia)) as H0. cbn in H0. rewrite (proj2 (Qle_bool_iff _ _) H0). apply IH. intros k K. apply (H (S k)). cbn. lia.
Qed.
Lemma argmax_at l : forall a i best m, a < length l -> (m < nth a l 0)%Q -> (forall j, j < length l -> j <> a -> (nth j l 0 < nth a l 0)%Q) -> argmax_from i best m l = i + a.
Proof.
  induction l as [|x l IH]; intros a i best m A M H; cbn in A; [lia|]. cbn [argmax_from]. destruct a as [|a].
  - cbn in M. destruct (Qle_bool x m) eqn:E; [apply Qle_bool_iff in E; exfalso; exact (Qlt_not_le _ _ M E)|]. rewrite argmax_keep; [lia|]. intros k K. apply Qlt_le_weak. apply (H (S k)); cbn; lia.
  - cbn [nth] in M. assert (H' : forall j, j < length l -> j <> a -> (nth j l 0 < nth a l 0)%Q) by (intros j J Nj; apply (H (S j)); cbn; lia).
    destruct (Qle_bool x m); (rewrite (IH a) by (try lia; auto; apply (H 0); cbn; lia)); lia.
Qed.
Theorem C103_greedy P draw v a : c_discrete P = false -> c_deterministic P = true -> length v = c_size P -> a < c_size P -> (-1 < nth a v 0 <= 1)%Q ->
  (forall j, j < c_size P -> j <> a -> (nth j v 0 < nth a v 0)%Q) -> stands_for P draw (Vector v) a.
Proof.
  intros D E L A [G B] H. unfold stands_for, inner_action. rewrite D, L, Nat.eqb_refl, E. cbn [negb].
  assert (CN : forall j, j < length v -> nth j (map clip1 v) 0%Q = clip1 (nth j v 0%Q)). { intros j J. rewrite (nth_indep _ 0%Q (clip1 0%Q)) by (now rewrite map_length). apply map_nth. }
  assert (CA : (clip1 (nth a v 0) == nth a v 0)%Q).
  { unfold clip1. destruct (Qle_bool (nth a v 0%Q) (-1 # 1)) eqn:Q1; [apply Qle_bool_iff in Q1; exfalso; exact (Qlt_not_le _ _ G Q1)|]. destruct (Qle_bool 1 (nth a v 0%Q)) eqn:Q2; [|reflexivity]. apply Qle_bool_iff in Q2. apply Qle_antisym; [exact Q2|exact B]. }
  assert (CJ : forall x, (x < nth a v 0)%Q -> (clip1 x < nth a v 0)%Q).
  { intros x X. unfold clip1. destruct (Qle_bool x (-1 # 1)); [exact G|]. destruct (Qle_bool 1 x) eqn:Q2; [|exact X]. apply Qle_bool_iff in Q2. exact (Qle_lt_trans _ _ _ Q2 X). }
  assert (W : forall j, j < length (map clip1 v) -> j <> a -> (nth j (map clip1 v) 0 < nth a (map clip1 v) 0)%Q).
  { intros j J Nj. rewrite map_length in J. rewrite !CN by lia. rewrite CA. apply CJ, H; lia. }
  assert (LV : length (map clip1 v) = c_size P) by (now rewrite map_length). clear CN CA CJ. destruct (map clip1 v) as [|x l]; [cbn in LV; lia|]. cbn [argmax]. f_equal. destruct a as [|a].
  - apply argmax_keep. intros k K. apply Qlt_le_weak, (W (S k)); cbn; lia.
  - rewrite (argmax_at l a 1 0 x); [lia|cbn in LV; lia|apply (W 0); cbn; lia|]. intros j J Nj. apply (W (S j)); cbn; lia.
Qed.

(** Random and continuous (pfrl/envs/abc.py:135-136): entry [a] is drawn with the softmax probability of the clipped vector.  With N actions it lies between
    1 / (1 + (N - 1) e^2) and 1 / (1 + (N - 1) e^-2): with two actions or more every action can happen, whatever the vector. *)
Open Scope R_scope.
Fixpoint exp_sum (v : list R) : R := match v with [] => 0 | x :: v => exp x + exp_sum v end.
Definition prob (v : list R) (a : nat) : R := exp (nth a v 0) / exp_sum v.
Lemma exp_sum_bounds v lo hi : Forall (fun x => lo <= x <= hi) v -> INR (length v) * exp lo <= exp_sum v <= INR (length v) * exp hi.
Proof.
  assert (ME : forall x y, x <= y -> exp x <= exp y) by (intros x y [H| ->]; [left; now apply exp_increasing|right; reflexivity]).
  induction 1 as [|x v [H1 H2] F IH]; [cbn; lra|]. cbn [exp_sum]. change (length (x :: v)) with (S (length v)). rewrite S_INR. pose proof (ME _ _ H1). pose proof (ME _ _ H2). lra.
Qed.
Lemma split_nth (v : list R) a : (a < length v)%nat -> exp_sum v = exp (nth a v 0) + exp_sum (firstn a v ++ skipn (S a) v) /\ length (firstn a v ++ skipn (S a) v) = (length v - 1)%nat.
Proof.
  revert a. induction v as [|x v IH]; intros a A; [cbn in A; lia|]. destruct a as [|a]; [cbn; split; [reflexivity|lia]|]. cbn in A. destruct (IH a ltac:(lia)) as [E L]. change (skipn (S (S a)) (x :: v)) with (skipn (S a) v). cbn [nth firstn app exp_sum length]. split; [rewrite E; lra|]. rewrite L. lia.
Qed.
Lemma exp_shift x d : exp (x + d) = exp x * exp d. Proof. apply exp_plus. Qed.
Theorem C103_probabilities (v : list R) a : (a < length v)%nat -> Forall (fun x => -1 <= x <= 1) v ->
  1 / (1 + INR (length v - 1) * exp 2) <= prob v a <= 1 / (1 + INR (length v - 1) * exp (-2)).
Proof.
  intros A F. destruct (split_nth v a A) as [E L]. unfold prob. rewrite E. set (rest := firstn a v ++ skipn (S a) v) in *. set (x := nth a v 0).
  assert (X : -1 <= x <= 1) by (unfold x; rewrite Forall_forall in F; apply F, nth_In; exact A).
  assert (FR : Forall (fun y => -1 <= y <= 1) rest). { unfold rest. pose proof F as F'. rewrite <- (firstn_skipn a v) in F. rewrite <- (firstn_skipn (S a) v) in F'. apply Forall_app in F, F'. apply Forall_app. tauto. }
  assert (FX : Forall (fun y => x - 2 <= y <= x + 2) rest) by (eapply Forall_impl; [|exact FR]; cbn; intros; lra).
  destruct (exp_sum_bounds rest (x - 2) (x + 2) FX) as [B1 B2]. rewrite L in B1, B2. replace (x - 2) with (x + -2) in B1 by lra. rewrite exp_shift in B1, B2. set (n := INR (length v - 1)) in *.
  assert (N0 : 0 <= n) by apply pos_INR. pose proof (exp_pos x) as PX. pose proof (exp_pos 2) as P2. pose proof (exp_pos (-2)) as PM. set (r := exp_sum rest) in *.
  assert (R0 : 0 <= n * (exp x * exp (-2))) by (apply Rmult_le_pos; [exact N0|]; apply Rmult_le_pos; lra).
  assert (D1 : 0 < 1 + n * exp 2) by (assert (0 <= n * exp 2) by (apply Rmult_le_pos; lra); lra). assert (D2 : 0 < 1 + n * exp (-2)) by (assert (0 <= n * exp (-2)) by (apply Rmult_le_pos; lra); lra). assert (D3 : 0 < exp x + r) by lra.
  split.
  - apply (Rmult_le_reg_r (1 + n * exp 2)); [exact D1|]. apply (Rmult_le_reg_r (exp x + r)); [exact D3|]. unfold Rdiv. replace (1 * / (1 + n * exp 2) * (1 + n * exp 2) * (exp x + r)) with (exp x + r) by (field; lra).
    replace (exp x * / (exp x + r) * (1 + n * exp 2) * (exp x + r)) with (exp x * (1 + n * exp 2)) by (field; lra). lra.
  - apply (Rmult_le_reg_r (1 + n * exp (-2))); [exact D2|]. apply (Rmult_le_reg_r (exp x + r)); [exact D3|]. unfold Rdiv. replace (1 * / (1 + n * exp (-2)) * (1 + n * exp (-2)) * (exp x + r)) with (exp x + r) by (field; lra).
    replace (exp x * / (exp x + r) * (1 + n * exp (-2)) * (exp x + r)) with (exp x * (1 + n * exp (-2))) by (field; lra). lra.
Qed.
Close Scope R_scope.

(** Size 3, episodic, shifted: 0, 1, 2 gives reward 1 at the third step. *)
Definition c103_P := mkABC 3 true true true true.
Example C103_ex : steps c103_P (fun _ => 0) [Discrete 0; Discrete 1; Discrete 2; Discrete 0] (fst (reset c103_P 0 abc_init)) =
  (mkSt (Some 3) (Some 1), Ok [([0; 0; 1; 0; 0]%Q, 0%Q, false); ([0; 0; 0; 1; 0]%Q, 0%Q, false); ([0; 0; 0; 0; 1]%Q, 1%Q, true); ([0; 0; 0; 0; 1]%Q, 0%Q, true)]) /\
  Forall2 (stands_for c103_P (fun _ => 0)) [Discrete 0; Discrete 1; Discrete 2; Discrete 0] [0; 1; 2; 0].
Proof. split; [vm_compute; reflexivity|]. repeat constructor. Qed.
(** Size 2, not episodic, vectors; out of range entries are clipped: (3, 2) and (1, 1) stand for 0. *)
Definition c103_P' := mkABC 2 false false false true.
Example C103_ex' : right_ones 2 0 [0; 1; 1; 0; 0] = 3 /\ Forall2 (stands_for c103_P' (fun _ => 0)) [Vector [3; 2]%Q; Vector [0; 1#2]%Q; Vector [-5; 1]%Q; Vector [1; 1]%Q; Vector [1; 0]%Q] [0; 1; 1; 0; 0] /\
  rmap rewards (snd (steps c103_P' (fun _ => 0) [Vector [3; 2]%Q; Vector [0; 1#2]%Q; Vector [-5; 1]%Q; Vector [1; 1]%Q; Vector [1; 0]%Q] (fst (reset c103_P' 0 abc_init)))) = Ok (0 + (1 + (0 + (0 + (0 + 0)))))%Q.
Proof. split; [reflexivity|]. split; [|vm_compute; reflexivity]. repeat constructor. Qed.
Print Assumptions C103_continuing.
Print Assumptions C103_episodic.
Print Assumptions C103_shifts.
Print Assumptions C103_greedy.
Print Assumptions C103_probabilities.
