(** C100: pretrained models are downloaded whole, once, and are unpacked when the call returns. *)
From Verif Require Import Base M_Pretrained.

Section C100.
Context {byte member : Type}.
Variable remote : nat -> list byte.
Variable unzip : list byte -> option (list member).
Variable supported : nat -> bool.
Notation ST := (@st byte member).
Notation step := (@step byte member remote unzip supported).
Notation steps := (@steps byte member remote unzip supported).

(** The states that some processes, in any interleaving, with any failures, can bring about in a models directory that was empty. *)
Definition reachable (s : ST) : Prop := exists ls, steps start ls = Some s.
(** The labels that stand for something going wrong. *)
Definition failure (l : label) : bool := match l with Fail _ | Kill _ => true | _ => false end.
Definition unpacking (c : @pc byte member) : bool := match c with Opening _ | Unpacking _ _ => true | _ => false end.
(** No process was interrupted while it unpacked an archive. *)
Fixpoint unpacked_undisturbed (s : ST) (ls : list label) : Prop :=
  match ls with
  | [] => True
  | l :: t => (match l with Fail p | Kill p => unpacking (s_pc s p) = false | _ => True end) /\
              match step s l with Some s' => unpacked_undisturbed s' t | None => True end
  end.

(** ** Invariants *)
Definition critical (c : @pc byte member) : bool := match c with Idle | WaitModels _ | Returned _ _ | Raised | Dead => false | _ => true end.
Definition in_dl (c : @pc byte member) : bool := match c with HasCache1 _ | HasCache2 _ _ => true | _ => false end.
Definition pc_ok (s : ST) (c : @pc byte member) : Prop :=
  match c with
  | WaitCache1 k | HasCache1 k => s_zip s k = None
  | Fetching k got => got = firstn (length got) (remote k) /\ length got <= length (remote k) /\ s_zip s k = None /\ s_cache s k = None
  | WaitCache2 k got | HasCache2 k got => got = remote k /\ s_zip s k = None /\ s_cache s k = None
  | Renaming k => s_zip s k = None /\ s_cache s k <> None
  | Opening k => s_zip s k <> None
  | Unpacking k _ => s_zip s k <> None
  | Returned k _ => s_zip s k <> None
  | _ => True
  end.
Definition inv (s : ST) : Prop :=
  (forall p, critical (s_pc s p) = true <-> s_models s = Some p) /\
  (forall p, in_dl (s_pc s p) = true <-> s_dl s = Some p) /\
  (forall k c, s_cache s k = Some c -> c = remote k) /\ (forall k c, s_zip s k = Some c -> c = remote k) /\
  (forall p, pc_ok s (s_pc s p)).

Lemma upd_same {X} (f : nat -> X) i x : upd f i x i = x.
Proof. unfold upd. now rewrite Nat.eqb_refl. Qed.
Lemma upd_other {X} (f : nat -> X) i x j : j <> i -> upd f i x j = f j.
Proof. unfold upd. intros H. now rewrite (proj2 (Nat.eqb_neq j i) H). Qed.

Ltac other p q := destruct (Nat.eq_dec q p) as [->|NE]; [rewrite ?upd_same in *|rewrite ?(upd_other _ p _ q NE) in *].

Lemma inv_start : inv start.
Proof. repeat split; cbn; discriminate. Qed.

Lemma firstn_more {X} (r : list X) : forall i n, i <= length r -> firstn i r ++ firstn n (skipn i r) = firstn (i + Nat.min n (length r - i)) r.
Proof.
  induction r as [|x r IH]; intros i n L; cbn in L; [destruct i, n; [reflexivity|reflexivity|lia|lia]|]. destruct i as [|i].
  - cbn [firstn skipn app Nat.add]. rewrite Nat.sub_0_r. cbn [length]. destruct (Nat.le_ge_cases n (S (length r))); [now rewrite Nat.min_l by lia|].
    rewrite Nat.min_r by lia. rewrite firstn_all2 by (cbn; lia). symmetry. apply firstn_all2. cbn. lia.
  - cbn. f_equal. apply IH. lia.
Qed.
(** Moving process [p], which leaves the files alone: what remains to be checked. *)
Lemma inv_step s l s' : inv s -> step s l = Some s' -> inv s'.
Proof.
  intros (IM & ID & IC & IZ & IP) E.
  assert (EXC : forall p q, critical (s_pc s p) = true -> critical (s_pc s q) = true -> p = q).
  { intros p q A B. apply IM in A. apply IM in B. congruence. }
  assert (DLC : forall p, s_dl s = Some p -> s_models s = Some p).
  { intros p A. apply ID in A. apply IM. destruct (s_pc s p); try discriminate A; reflexivity. }
  (* a process that gives up its locks and is not critical any more *)
  assert (LEAVE : forall p c, critical c = false -> (match c with Returned k _ => s_zip s k <> None | _ => True end) -> inv (goto (leave s p) p c)).
  { intros p c NC RC. assert (ND : in_dl c = false) by (destruct c; try reflexivity; discriminate NC).
    repeat split; cbn; try assumption.
    - intros A. rename p0 into q. other p q; [congruence|]. apply IM in A. rewrite A. unfold disown. rewrite (proj2 (Nat.eqb_neq q p) NE). reflexivity.
    - intros A. rename p0 into q. unfold disown in A. destruct (s_models s) as [o|] eqn:O; [|discriminate]. destruct (Nat.eqb_spec o p); [discriminate|]. injection A as ->.
      rewrite upd_other by assumption. now apply IM.
    - intros A. rename p0 into q. other p q; [congruence|]. apply ID in A. rewrite A. unfold disown. rewrite (proj2 (Nat.eqb_neq q p) NE). reflexivity.
    - intros A. rename p0 into q. unfold disown in A. destruct (s_dl s) as [o|] eqn:O; [|discriminate]. destruct (Nat.eqb_spec o p); [discriminate|]. injection A as ->.
      rewrite upd_other by assumption. now apply ID.
    - intros q. other p q; [destruct c; try discriminate NC; try exact I; exact RC|apply IP]. }
  (* a process that moves without touching locks or files *)
  assert (MOVE : forall p c, critical c = critical (s_pc s p) -> in_dl c = in_dl (s_pc s p) -> pc_ok s c -> inv (goto s p c)).
  { intros p c C D P. repeat split; cbn; try assumption.
    - intros A. rename p0 into q. other p q; [rewrite C in A|]; now apply IM.
    - intros A. rename p0 into q. other p q; [rewrite C|]; now apply IM.
    - intros A. rename p0 into q. other p q; [rewrite D in A|]; now apply ID.
    - intros A. rename p0 into q. other p q; [rewrite D|]; now apply ID.
    - intros q. other p q; [exact P|apply IP]. }
  destruct l as [p k|p|p n|p|p]; cbn [M_Pretrained.step] in E.
  - assert (G : inv (goto s p (if supported k then WaitModels k else Raised)) \/ critical (s_pc s p) = true \/ s_pc s p = WaitModels k \/ busy (s_pc s p) = true \/ s_pc s p = Dead).
    { destruct (s_pc s p) eqn:PC; auto; left; apply MOVE; rewrite ?PC; destruct (supported k); try reflexivity; exact I. }
    destruct (s_pc s p) eqn:PC; try discriminate E; injection E as <-; destruct G as [G|[G|[G|[G|G]]]]; try discriminate G; exact G.
  - pose proof (IP p) as PP. destruct (s_pc s p) as [|k|k|k|k|k got|k got|k got|k|k|k todo|k b| |] eqn:PC; try discriminate E; cbn [pc_ok] in PP.
    + (* WaitModels *) destruct (s_models s) as [o|] eqn:O; [discriminate|]. injection E as <-. repeat split; cbn; try assumption.
      * intros A. rename p0 into q. other p q; [reflexivity|]. apply IM in A. congruence.
      * intros A. injection A as ->. now rewrite upd_same.
      * intros A. rename p0 into q. other p q; [discriminate|]. now apply ID.
      * intros A. rename p0 into q. other p q; [|now apply ID]. apply DLC in A. congruence.
      * intros q. other p q; [exact I|apply IP].
    + (* HasModels *) destruct (s_zip s k) eqn:Z; injection E as <-; [apply LEAVE; [reflexivity|congruence]|apply MOVE; rewrite ?PC; auto].
    + (* WaitCache1 *) destruct (s_dl s) as [o|] eqn:O; [discriminate|]. injection E as <-. repeat split; cbn; try assumption.
      * intros A. rename p0 into q. other p q; apply IM; [now rewrite PC|assumption].
      * intros A. rename p0 into q. other p q; [reflexivity|]. now apply IM.
      * intros A. rename p0 into q. other p q; [reflexivity|]. apply ID in A. congruence.
      * intros A. injection A as ->. now rewrite upd_same.
      * intros q. other p q; [exact PP|apply IP].
    + (* HasCache1 *)
      assert (DL : forall c, critical c = true -> in_dl c = false -> pc_ok s c -> inv (goto (lock_dl s None) p c)).
      { intros c C D P. repeat split; cbn; try assumption.
        - intros A. rename p0 into q. other p q; apply IM; [now rewrite PC|assumption].
        - intros A. rename p0 into q. other p q; [assumption|]. now apply IM.
        - intros A. rename p0 into q. other p q; [congruence|]. exfalso. apply NE. apply ID in A. apply DLC in A. apply IM in A. apply EXC; [exact A|now rewrite PC].
        - discriminate.
        - intros q. other p q; [destruct c; exact P|apply IP]. }
      destruct (s_cache s k) eqn:CK; injection E as <-; apply DL; try reflexivity; cbn; [split; congruence|repeat split; auto; lia].
    + (* Fetching *) destruct (Nat.eqb_spec (length got) (length (remote k))) as [EL|]; [|discriminate]. injection E as <-. destruct PP as (P1 & P2 & P3 & P4).
      assert (GR : got = remote k) by (rewrite P1, EL; apply firstn_all).
      repeat split; cbn; try assumption.
      * intros A. rename p0 into q. other p q; apply IM; [now rewrite PC|assumption].
      * intros A. rename p0 into q. other p q; [reflexivity|]. now apply IM.
      * intros A. rename p0 into q. other p q; [discriminate|]. now apply ID.
      * intros A. rename p0 into q. other p q; [|now apply ID]. apply ID in A. rewrite PC in A. exact A.
      * intros q. other p q; [cbn; auto|apply IP].
    + (* WaitCache2 *) destruct (s_dl s) as [o|] eqn:O; [discriminate|]. injection E as <-. repeat split; cbn; try assumption.
      * intros A. rename p0 into q. other p q; apply IM; [now rewrite PC|assumption].
      * intros A. rename p0 into q. other p q; [reflexivity|]. now apply IM.
      * intros A. rename p0 into q. other p q; [reflexivity|]. apply ID in A. congruence.
      * intros A. injection A as ->. now rewrite upd_same.
      * intros q. other p q; [exact PP|apply IP].
    + (* HasCache2 *) injection E as <-. destruct PP as (P1 & P2 & P3). repeat split; cbn; try assumption.
      * intros A. rename p0 into q. other p q; apply IM; [now rewrite PC|assumption].
      * intros A. rename p0 into q. other p q; [reflexivity|]. now apply IM.
      * intros A. rename p0 into q. other p q; [discriminate|]. exfalso. apply NE. apply ID in A. apply DLC in A. apply IM in A. apply EXC; [exact A|now rewrite PC].
      * discriminate.
      * intros k' c A. destruct (Nat.eq_dec k' k) as [->|NK]; [rewrite upd_same in A; congruence|rewrite upd_other in A by assumption; now apply IC].
      * intros q. other p q; [cbn; rewrite upd_same; split; [assumption|discriminate]|].
        assert (NCQ : critical (s_pc s q) = false). { destruct (critical (s_pc s q)) eqn:CQ; [|reflexivity]. exfalso. apply NE. apply EXC; [exact CQ|now rewrite PC]. }
        specialize (IP q). destruct (s_pc s q); try discriminate NCQ; exact IP.
    + (* Renaming *) destruct PP as (P1 & P2). destruct (s_cache s k) as [c|] eqn:CK; [|congruence]. injection E as <-. repeat split; cbn; try assumption.
      * intros A. rename p0 into q. other p q; apply IM; [now rewrite PC|assumption].
      * intros A. rename p0 into q. other p q; [reflexivity|]. now apply IM.
      * intros A. rename p0 into q. other p q; [discriminate|]. now apply ID.
      * intros A. rename p0 into q. other p q; [|now apply ID]. apply ID in A. rewrite PC in A. exact A.
      * intros k' c' A. destruct (Nat.eq_dec k' k) as [->|NK]; [rewrite upd_same in A; congruence|rewrite upd_other in A by assumption; now apply IC].
      * intros k' c' A. destruct (Nat.eq_dec k' k) as [->|NK]; [rewrite upd_same in A; injection A as <-; now apply IC|rewrite upd_other in A by assumption; now apply IZ].
      * intros q. other p q; [cbn; rewrite upd_same; discriminate|].
        assert (NCQ : critical (s_pc s q) = false). { destruct (critical (s_pc s q)) eqn:CQ; [|reflexivity]. exfalso. apply NE. apply EXC; [exact CQ|now rewrite PC]. }
        specialize (IP q). destruct (s_pc s q) as [| | | | | | | | | | |k' b| |]; try discriminate NCQ; try exact IP. cbn in *. unfold upd. destruct (k' =? k); [discriminate|exact IP].
    + (* Opening *) destruct (s_zip s k) as [c|] eqn:Z; [|congruence]. destruct (unzip c); injection E as <-; [|now apply LEAVE]. apply MOVE; rewrite ?PC; cbn; congruence.
    + (* Unpacking *) destruct todo as [|m ms]; injection E as <-; [now apply LEAVE|]. repeat split; cbn; try assumption.
      * intros A. rename p0 into q. other p q; apply IM; [now rewrite PC|assumption].
      * intros A. rename p0 into q. other p q; [reflexivity|]. now apply IM.
      * intros A. rename p0 into q. other p q; [discriminate|]. now apply ID.
      * intros A. rename p0 into q. other p q; [|now apply ID]. apply ID in A. rewrite PC in A. exact A.
      * intros q. other p q; [exact PP|apply IP].
  - pose proof (IP p) as PP. destruct (s_pc s p) as [|k|k|k|k|k got|k got|k got|k|k|k todo|k b| |] eqn:PC; try discriminate E. injection E as <-.
    destruct PP as (P1 & P2 & P3 & P4). apply MOVE; rewrite ?PC; try reflexivity. cbn [pc_ok]. rewrite app_length, firstn_length, skipn_length. repeat split; auto; [|lia].
    rewrite P1 at 1. apply firstn_more. exact P2.
  - destruct (busy (s_pc s p)); [|discriminate]. injection E as <-. now apply LEAVE.
  - injection E as <-. now apply LEAVE.
Qed.
Lemma inv_steps : forall ls s s', inv s -> steps s ls = Some s' -> inv s'.
Proof.
  induction ls as [|l ls IH]; intros s s' I E; cbn in E; [injection E as <-; exact I|]. destruct (step s l) as [s1|] eqn:E1; [|discriminate].
  exact (IH s1 s' (inv_step s l s1 I E1) E).
Qed.
Lemma inv_reachable s : reachable s -> inv s.
Proof. intros (ls & E). exact (inv_steps ls _ _ inv_start E). Qed.

(** Whatever happens, the cache and the archive are never partial files. *)
Theorem C100_never_partial_files s k c : reachable s -> s_cache s k = Some c \/ s_zip s k = Some c -> c = remote k.
Proof. intros R [H|H]; destruct (inv_reachable s R) as (_ & _ & IC & IZ & _); [now apply IC|now apply IZ]. Qed.

(** ** Unpacking *)
Section Valid.
Variable entries : nat -> list member.
Hypothesis valid : forall k, unzip (remote k) = Some (entries k).
Definition unpacks (k : nat) (c : @pc byte member) : bool := match c with Opening k' | Unpacking k' _ => k' =? k | _ => false end.
Definition pc_ok2 (s : ST) (c : @pc byte member) : Prop :=
  match c with
  | Opening k => s_unpacked s k = []
  | Unpacking k todo => s_unpacked s k ++ todo = entries k
  | Returned k _ => s_unpacked s k = entries k
  | _ => True
  end.
Definition inv2 (s : ST) : Prop :=
  (forall k, s_zip s k = None -> s_unpacked s k = []) /\ (forall p, pc_ok2 s (s_pc s p)) /\
  (forall k, s_zip s k <> None -> (forall p, unpacks k (s_pc s p) = false) -> s_unpacked s k = entries k).
Lemma unpacks_critical k c : unpacks k c = true -> critical c = true.
Proof. destruct c; try discriminate; reflexivity. Qed.
Lemma inv2_step s l s' : inv s -> inv2 s -> (match l with Fail p | Kill p => unpacking (s_pc s p) = false | _ => True end) -> step s l = Some s' -> inv2 s'.
Proof.
  intros IV (JN & JP & JF) U E. pose proof IV as (IM & ID & IC & IZ & IP).
  assert (EXC : forall p q, critical (s_pc s p) = true -> critical (s_pc s q) = true -> p = q).
  { intros p q A B. apply IM in A. apply IM in B. congruence. }
  (* a process moves and only locks, the cache or the count change *)
  assert (MOVE : forall p c s1, s_pc s1 = s_pc s -> s_zip s1 = s_zip s -> s_unpacked s1 = s_unpacked s -> (forall k, unpacks k c = unpacks k (s_pc s p)) -> pc_ok2 s c -> inv2 (goto s1 p c)).
  { intros p c s1 E1 E2 E3 UN PC. repeat split; cbn; rewrite ?E1, ?E2, ?E3; [exact JN| |].
    - intros q. other p q.
      + destruct c; cbn in *; rewrite ?E3; exact PC.
      + specialize (JP q). destruct (s_pc s q); cbn in *; rewrite ?E3; exact JP.
    - intros k Z A. apply (JF k Z). intros q. specialize (A q). other p q; [now rewrite <- UN|exact A]. }
  assert (QUIET : forall p k, critical (s_pc s p) = true -> unpacks k (s_pc s p) = false -> forall q, unpacks k (s_pc s q) = false).
  { intros p k C N q. destruct (unpacks k (s_pc s q)) eqn:UQ; [|reflexivity]. rewrite (EXC q p (unpacks_critical _ _ UQ) C) in UQ. congruence. }
  destruct l as [p k|p|p n|p|p]; cbn [M_Pretrained.step] in E.
  - destruct (s_pc s p) eqn:PC; try discriminate E; injection E as <-; apply MOVE; try reflexivity; rewrite ?PC; destruct (supported k); try reflexivity; exact I.
  - pose proof (IP p) as PP. pose proof (JP p) as QQ. pose proof (QUIET p) as QT. destruct (s_pc s p) as [|k|k|k|k|k got|k got|k got|k|k|k todo|k b| |] eqn:PC; try discriminate E; cbn [pc_ok pc_ok2] in PP, QQ.
    + destruct (free (s_models s)); [|discriminate]. injection E as <-. apply MOVE; try reflexivity; now rewrite ?PC.
    + destruct (s_zip s k) eqn:Z; injection E as <-; apply MOVE; try reflexivity; rewrite ?PC; try reflexivity. cbn. apply JF; [congruence|]. now apply QT.
    + destruct (free (s_dl s)); [|discriminate]. injection E as <-. apply MOVE; try reflexivity; now rewrite ?PC.
    + destruct (s_cache s k) eqn:CK; injection E as <-; apply MOVE; try reflexivity; now rewrite ?PC.
    + destruct (length got =? length (remote k)); [|discriminate]. injection E as <-. apply MOVE; try reflexivity; now rewrite ?PC.
    + destruct (free (s_dl s)); [|discriminate]. injection E as <-. apply MOVE; try reflexivity; now rewrite ?PC.
    + injection E as <-. apply MOVE; try reflexivity; now rewrite ?PC.
    + destruct PP as (P1 & P2). destruct (s_cache s k) as [c|] eqn:CK; [|congruence]. injection E as <-. repeat split; cbn.
      * intros k' Z. unfold upd in Z. destruct (k' =? k); [discriminate|]. now apply JN.
      * intros q. other p q; [cbn; now apply JN|]. specialize (JP q). destruct (s_pc s q); exact JP.
      * intros k' Z A. pose proof (A p) as AP. rewrite upd_same in AP. cbn in AP. assert (NK : k' <> k) by (intros ->; rewrite Nat.eqb_refl in AP; discriminate).
        rewrite upd_other in Z by exact NK. apply JF; [exact Z|]. now apply QT.
    + destruct (s_zip s k) as [c|] eqn:Z; [|congruence]. rewrite (IZ k c Z), valid in E. injection E as <-. apply MOVE; try reflexivity; rewrite ?PC; try reflexivity.
      cbn. now rewrite QQ.
    + destruct todo as [|m ms]; injection E as <-.
      * rewrite app_nil_r in QQ. repeat split; cbn; [exact JN| |].
        -- intros q. other p q; [exact QQ|]. specialize (JP q). destruct (s_pc s q); exact JP.
        -- intros k' Z A. destruct (Nat.eq_dec k' k) as [->|NK]; [exact QQ|]. apply JF; [exact Z|]. apply QT; [reflexivity|]. cbn. apply Nat.eqb_neq. auto.
      * repeat split; cbn.
        -- intros k' Z. destruct (Nat.eq_dec k' k) as [->|NK]; [congruence|]. rewrite upd_other by exact NK. now apply JN.
        -- intros q. other p q; [cbn; rewrite upd_same, <- app_assoc; exact QQ|].
           assert (NCQ : critical (s_pc s q) = false). { destruct (critical (s_pc s q)) eqn:CQ; [|reflexivity]. exfalso. apply NE. apply EXC; [exact CQ|now rewrite PC]. }
           specialize (JP q). destruct (s_pc s q) as [| | | | | | | | | | |k' b| |]; try discriminate NCQ; try exact I. cbn in *. unfold upd. destruct (Nat.eqb_spec k' k) as [->|]; [|exact JP].
           exfalso. rewrite JP in QQ. apply (f_equal (@length _)) in QQ. rewrite app_length in QQ. cbn in QQ. lia.
        -- intros k' Z A. pose proof (A p) as AP. rewrite upd_same in AP. cbn in AP. assert (NK : k' <> k) by (intros ->; rewrite Nat.eqb_refl in AP; discriminate).
           rewrite upd_other by exact NK. apply JF; [exact Z|]. apply QT; [reflexivity|]. cbn. apply Nat.eqb_neq. auto.
  - destruct (s_pc s p) as [|k|k|k|k|k got|k got|k got|k|k|k todo|k b| |] eqn:PC; try discriminate E. injection E as <-. apply MOVE; try reflexivity; now rewrite ?PC.
  - destruct (busy (s_pc s p)) eqn:B; [|discriminate]. injection E as <-. apply MOVE; try reflexivity; try exact I. intros k. destruct (s_pc s p); try reflexivity; discriminate U.
  - injection E as <-. apply MOVE; try reflexivity; try exact I. intros k. destruct (s_pc s p); try reflexivity; discriminate U.
Qed.
Lemma inv2_steps : forall ls s s', inv s -> inv2 s -> unpacked_undisturbed s ls -> steps s ls = Some s' -> inv2 s'.
Proof.
  induction ls as [|l ls IH]; intros s s' I J U E; cbn in E, U; [injection E as <-; exact J|]. destruct (step s l) as [s1|] eqn:E1; [|discriminate].
  destruct U as [U1 U2]. exact (IH s1 s' (inv_step s l s1 I E1) (inv2_step s l s1 I J U1 E1) U2 E).
Qed.
(** If no process was interrupted while unpacking, then a model that a call has reported, cached or not, is completely unpacked, and nothing twice. *)
Theorem C100_available_partial ls s p k b : steps start ls = Some s -> unpacked_undisturbed start ls -> s_pc s p = Returned k b -> s_unpacked s k = entries k.
Proof.
  intros E U R. assert (J0 : inv2 start). { split; [reflexivity|]. split; [exact (fun _ => I)|]. intros k' H. exfalso. apply H. reflexivity. } pose proof (inv2_steps ls _ _ inv_start J0 U E) as (_ & JP & _).
  specialize (JP p). now rewrite R in JP.
Qed.

(** ** Completion: from every reachable state every pending call can still be completed by the processes that are alive, with nothing but ordinary steps. *)
Definition ordinary (l : label) : bool := match l with Go _ | Chunk _ _ => true | _ => false end.
Definition asked (c : @pc byte member) : option nat :=
  match c with Idle | Raised | Dead => None
  | WaitModels k | HasModels k | WaitCache1 k | HasCache1 k | Fetching k _ | WaitCache2 k _ | HasCache2 k _ | Renaming k | Opening k | Unpacking k _ | Returned k _ => Some k end.
Definition rank (c : @pc byte member) : nat :=
  match c with
  | HasModels k => 11 + length (entries k) | WaitCache1 k => 10 + length (entries k) | HasCache1 k => 9 + length (entries k)
  | Fetching k got => (if length got =? length (remote k) then 7 else 8) + length (entries k)
  | WaitCache2 k _ => 6 + length (entries k) | HasCache2 k _ => 5 + length (entries k)
  | Renaming k => 4 + length (entries k) | Opening k => 2 + length (entries k) | Unpacking _ todo => 1 + length todo | _ => 0
  end.
Lemma steps_app : forall l1 l2 s, steps s (l1 ++ l2) = match steps s l1 with Some s' => steps s' l2 | None => None end.
Proof. induction l1 as [|l l1 IH]; intros l2 s; cbn; [reflexivity|]. destruct (step s l); [apply IH|reflexivity]. Qed.
Lemma solo1 s p : inv s -> critical (s_pc s p) = true ->
  exists l s' k, asked (s_pc s p) = Some k /\ ordinary l = true /\ step s l = Some s' /\ (forall q, q <> p -> s_pc s' q = s_pc s q) /\
    ((exists b, s_pc s' p = Returned k b) \/ (critical (s_pc s' p) = true /\ asked (s_pc s' p) = Some k /\ rank (s_pc s' p) < rank (s_pc s p))).
Proof.
  intros IV C. pose proof IV as (IM & ID & IC & IZ & IP). pose proof (IP p) as PP.
  assert (DL : in_dl (s_pc s p) = false -> s_dl s = None).
  { intros N. destruct (s_dl s) as [o|] eqn:DL; [|reflexivity]. exfalso. pose proof (proj2 (ID o) eq_refl) as O. assert (CO : critical (s_pc s o) = true) by (destruct (s_pc s o); try discriminate O; reflexivity).
    apply IM in CO. apply IM in C. assert (o = p) by congruence. subst o. congruence. }
  destruct (s_pc s p) as [|k|k|k|k|k got|k got|k got|k|k|k todo|k b| |] eqn:PC; try discriminate C; cbn [pc_ok] in PP.
  - destruct (s_zip s k) eqn:Z; eexists (Go p), _, k; (split; [reflexivity|split; [reflexivity|split; [cbn; rewrite PC, Z; reflexivity|split; [intros q NE; cbn; now apply upd_other|cbn; rewrite upd_same]]]]); [left; eauto|right; cbn; repeat split; lia].
  - eexists (Go p), _, k; (split; [reflexivity|split; [reflexivity|split; [cbn; rewrite PC, (DL eq_refl); reflexivity|split; [intros q NE; cbn; now apply upd_other|cbn; rewrite upd_same]]]]). right; cbn; repeat split; lia.
  - destruct (s_cache s k) eqn:Z; eexists (Go p), _, k; (split; [reflexivity|split; [reflexivity|split; [cbn; rewrite PC, Z; reflexivity|split; [intros q NE; cbn; now apply upd_other|cbn; rewrite upd_same]]]]); right; cbn; repeat split; try lia.
    destruct (length (remote k)); cbn; lia.
  - destruct PP as (P1 & P2 & _). destruct (Nat.eqb_spec (length got) (length (remote k))) as [EL|NL].
    + eexists (Go p), _, k; (split; [reflexivity|split; [reflexivity|split; [cbn; rewrite PC, EL, Nat.eqb_refl; reflexivity|split; [intros q NE; cbn; now apply upd_other|cbn; rewrite upd_same]]]]). right; cbn. rewrite EL, Nat.eqb_refl. repeat split; lia.
    + eexists (Chunk p (length (remote k))), _, k; (split; [reflexivity|split; [reflexivity|split; [cbn; rewrite PC; reflexivity|split; [intros q NE; cbn; now apply upd_other|cbn; rewrite upd_same]]]]). right; cbn.
      rewrite app_length, firstn_length, skipn_length. replace (length got + _) with (length (remote k)) by lia. rewrite Nat.eqb_refl. rewrite (proj2 (Nat.eqb_neq _ _) NL). repeat split; lia.
  - eexists (Go p), _, k; (split; [reflexivity|split; [reflexivity|split; [cbn; rewrite PC, (DL eq_refl); reflexivity|split; [intros q NE; cbn; now apply upd_other|cbn; rewrite upd_same]]]]). right; cbn; repeat split; lia.
  - eexists (Go p), _, k; (split; [reflexivity|split; [reflexivity|split; [cbn; rewrite PC; reflexivity|split; [intros q NE; cbn; now apply upd_other|cbn; rewrite upd_same]]]]). right; cbn; repeat split; lia.
  - destruct PP as [P1 P2]. destruct (s_cache s k) as [c|] eqn:Z; [|congruence]. eexists (Go p), _, k; (split; [reflexivity|split; [reflexivity|split; [cbn; rewrite PC, Z; reflexivity|split; [intros q NE; cbn; now apply upd_other|cbn; rewrite upd_same]]]]). right; cbn; repeat split; lia.
  - destruct (s_zip s k) as [c|] eqn:Z; [|congruence]. eexists (Go p), _, k; (split; [reflexivity|split; [reflexivity|split; [cbn; rewrite PC, Z, (IZ k c Z), valid; reflexivity|split; [intros q NE; cbn; now apply upd_other|cbn; rewrite upd_same]]]]). right; cbn; repeat split; lia.
  - destruct todo as [|m ms]; eexists (Go p), _, k; (split; [reflexivity|split; [reflexivity|split; [cbn; rewrite PC; reflexivity|split; [intros q NE; cbn; now apply upd_other|cbn; rewrite upd_same]]]]); [left; eauto|right; cbn; repeat split; lia].
Qed.
Lemma solo : forall n s p, rank (s_pc s p) <= n -> inv s -> critical (s_pc s p) = true ->
  exists ls s' k b, asked (s_pc s p) = Some k /\ Forall (fun l => ordinary l = true) ls /\ steps s ls = Some s' /\ (forall q, q <> p -> s_pc s' q = s_pc s q) /\ s_pc s' p = Returned k b.
Proof.
  induction n as [|n IH]; intros s p Rk IV C; destruct (solo1 s p IV C) as (l & s1 & k & A & O & E & OT & [(b & B)|(C1 & A1 & R1)]); try lia.
  1, 2: exists [l], s1, k, b; repeat split; auto; cbn [M_Pretrained.steps]; now rewrite E.
  destruct (IH s1 p ltac:(lia) (inv_step s l s1 IV E) C1) as (ls & s2 & k2 & b & A2 & O2 & E2 & OT2 & B).
  exists (l :: ls), s2, k, b. repeat split; auto; [cbn [M_Pretrained.steps]; now rewrite E|intros q NE; rewrite OT2 by exact NE; now apply OT|congruence].
Qed.
Theorem C100_no_deadlock s p : reachable s -> busy (s_pc s p) = true ->
  exists ls s' k b, asked (s_pc s p) = Some k /\ Forall (fun l => ordinary l = true) ls /\ steps s ls = Some s' /\ s_pc s' p = Returned k b.
Proof.
  intros R B. pose proof (inv_reachable s R) as IV. destruct (critical (s_pc s p)) eqn:C.
  { destruct (solo _ s p (le_n _) IV C) as (ls & s' & k & b & H1 & H2 & H3 & _ & H4). now exists ls, s', k, b. }
  destruct (s_pc s p) as [|k|k|k|k|k got|k got|k got|k|k|k todo|k b| |] eqn:PC; try discriminate C; try discriminate B.
  assert (WIN : forall s, inv s -> s_pc s p = WaitModels k -> s_models s = None -> exists ls s' b, Forall (fun l => ordinary l = true) ls /\ steps s ls = Some s' /\ s_pc s' p = Returned k b).
  { clear - valid. intros s IV PC M. assert (E : step s (Go p) = Some (goto (lock_models s (Some p)) p (HasModels k))) by (cbn; rewrite PC, M; reflexivity).
    destruct (solo _ (goto (lock_models s (Some p)) p (HasModels k)) p (le_n _) (inv_step _ _ _ IV E)) as (ls & s' & k' & b & A & O & E' & _ & B); [cbn; now rewrite upd_same|].
    cbn in A. rewrite upd_same in A. injection A as <-. exists (Go p :: ls), s', b. split; [constructor; auto|]. split; [cbn [M_Pretrained.steps]; now rewrite E|exact B]. }
  destruct (s_models s) as [q|] eqn:M.
  - assert (NE : p <> q). { intros <-. destruct IV as (IM & _). apply IM in M. rewrite PC in M. discriminate. }
    assert (CQ : critical (s_pc s q) = true) by (apply IV; exact M).
    destruct (solo _ s q (le_n _) IV CQ) as (ls1 & s1 & kq & bq & _ & O1 & E1 & OT & B1). pose proof (inv_steps _ _ _ IV E1) as IV1.
    assert (M1 : s_models s1 = None). { destruct (s_models s1) as [r|] eqn:M1; [|reflexivity]. exfalso. pose proof IV as (IM & _). pose proof IV1 as (IM1 & _). apply IM1 in M1.
      destruct (Nat.eq_dec r q) as [->|NR]; [rewrite B1 in M1; discriminate|]. rewrite OT in M1 by exact NR. apply IM in M1. congruence. }
    destruct (WIN s1 IV1 ltac:(rewrite OT by exact NE; exact PC) M1) as (ls2 & s2 & b & O2 & E2 & B2). exists (ls1 ++ ls2), s2, k, b. split; [reflexivity|]. split; [apply Forall_app; auto|]. split; [rewrite steps_app, E1; exact E2|exact B2].
  - destruct (WIN s IV PC M) as (ls & s' & b & O & E & B2). now exists ls, s', k, b.
Qed.
End Valid.

(** ** One download per model and failure. *)
Definition failures (ls : list label) : nat := length (filter failure ls).
Definition downloads (s : ST) (k : nat) : nat := count_occ Nat.eq_dec (s_fetched s) k.
Definition inv3 (n : nat) (s : ST) : Prop := forall k, downloads s k <= n \/
  (downloads s k = S n /\ (s_zip s k <> None \/ s_cache s k <> None \/ exists p got, s_pc s p = WaitCache2 k got \/ s_pc s p = HasCache2 k got)).
Lemma inv3_step n s l s' : inv s -> inv3 n s -> step s l = Some s' -> inv3 (n + if failure l then 1 else 0) s'.
Proof.
  intros IV J E k. pose proof IV as (IM & ID & IC & IZ & IP).
  assert (EXC : forall p q, critical (s_pc s p) = true -> critical (s_pc s q) = true -> p = q).
  { intros p q A B. apply IM in A. apply IM in B. congruence. }
  assert (DN : forall s1 p c, s_fetched s1 = s_fetched s -> downloads (goto s1 p c) k = downloads s k) by (intros s1 p c H; unfold downloads; cbn; now rewrite H).
  destruct l as [p k0|p|p m|p|p]; cbn [M_Pretrained.step failure] in *; rewrite ?Nat.add_0_r.
  4, 5: left; match type of E with (if ?b then _ else _) = _ => destruct b; [|discriminate] | _ => idtac end; injection E as <-; rewrite DN by reflexivity; destruct (J k) as [H|[H _]]; lia.
  - assert (G : s' = goto s p (if supported k0 then WaitModels k0 else Raised) /\ critical (s_pc s p) = false) by (destruct (s_pc s p); try discriminate E; (split; [injection E as <-; reflexivity|reflexivity])).
    destruct G as [-> NC]. rewrite DN by reflexivity. destruct (J k) as [H|[H [Z|[Z|(q & got & Q)]]]]; [now left|right; auto..]. split; [exact H|]. right. right. exists q, got. cbn.
    rewrite upd_other; [exact Q|]. intros ->. destruct Q as [Q|Q]; rewrite Q in NC; discriminate.
  - pose proof (IP p) as PP. destruct (s_pc s p) as [|k0|k0|k0|k0|k0 got0|k0 got0|k0 got0|k0|k0|k0 todo|k0 b| |] eqn:PC; try discriminate E; cbn [pc_ok] in PP.
    all: assert (OTH : forall q got, q <> p -> critical (s_pc s p) = true -> ~ (s_pc s q = WaitCache2 k got \/ s_pc s q = HasCache2 k got)) by (intros q got NE C [Q|Q]; apply NE, EXC; auto; rewrite Q; reflexivity).
    + destruct (free (s_models s)); [|discriminate]. injection E as <-. rewrite DN by reflexivity. destruct (J k) as [H|[H [Z|[Z|(q & got & Q)]]]]; [now left|right; auto..]. split; [exact H|]. right. right. exists q, got. cbn. rewrite upd_other; [exact Q|]. intros ->. rewrite PC in Q. destruct Q; discriminate.
    + assert (G : s_fetched s' = s_fetched s /\ s_zip s' = s_zip s /\ s_cache s' = s_cache s) by (destruct (s_zip s k0); injection E as <-; auto). destruct G as (G1 & G2 & G3). unfold downloads. rewrite G1, G2, G3.
      destruct (J k) as [H|[H [Z|[Z|(q & got & Q)]]]]; [now left|right; auto..]. exfalso. destruct (Nat.eq_dec q p) as [->|NE]; [rewrite PC in Q; destruct Q; discriminate|]. apply (OTH q got NE); [now rewrite PC|exact Q].
    + destruct (free (s_dl s)); [|discriminate]. injection E as <-. rewrite DN by reflexivity. destruct (J k) as [H|[H [Z|[Z|(q & got & Q)]]]]; [now left|right; auto..]. exfalso. destruct (Nat.eq_dec q p) as [->|NE]; [rewrite PC in Q; destruct Q; discriminate|]. apply (OTH q got NE); [now rewrite PC|exact Q].
    + assert (G : s_fetched s' = s_fetched s /\ s_zip s' = s_zip s /\ s_cache s' = s_cache s) by (destruct (s_cache s k0); injection E as <-; auto). destruct G as (G1 & G2 & G3). unfold downloads. rewrite G1, G2, G3.
      destruct (J k) as [H|[H [Z|[Z|(q & got & Q)]]]]; [now left|right; auto..]. exfalso. destruct (Nat.eq_dec q p) as [->|NE]; [rewrite PC in Q; destruct Q; discriminate|]. apply (OTH q got NE); [now rewrite PC|exact Q].
    + destruct (length got0 =? length (remote k0)); [|discriminate]. injection E as <-. destruct PP as (P1 & P2 & P3 & P4). unfold downloads. cbn [goto fetched s_fetched s_zip s_cache s_pc count_occ]. destruct (Nat.eq_dec k0 k) as [->|NK].
      * destruct (J k) as [H|[H [Z|[Z|(q & got & Q)]]]]; [|contradiction|contradiction|]. 
        -- change (count_occ Nat.eq_dec (s_fetched s) k) with (downloads s k). destruct (Nat.eq_dec (downloads s k) n) as [En|]; [|left; lia]. right. split; [lia|]. right. right. exists p, got0. rewrite upd_same. auto.
        -- exfalso. destruct (Nat.eq_dec q p) as [->|NE]; [rewrite PC in Q; destruct Q; discriminate|]. apply (OTH q got NE); [now rewrite PC|exact Q].
      * destruct (J k) as [H|[H [Z|[Z|(q & got & Q)]]]]; [now left|right; auto..]. exfalso. destruct (Nat.eq_dec q p) as [->|NE]; [rewrite PC in Q; destruct Q; discriminate|]. apply (OTH q got NE); [now rewrite PC|exact Q].
    + destruct (free (s_dl s)); [|discriminate]. injection E as <-. rewrite DN by reflexivity. destruct (J k) as [H|[H [Z|[Z|(q & got & Q)]]]]; [now left|right; auto..]. split; [exact H|]. right. right. cbn. destruct (Nat.eq_dec q p) as [->|NE].
      * rewrite PC in Q. destruct Q as [Q|Q]; [|discriminate]. injection Q as -> ->. exists p, got. rewrite upd_same. auto.
      * exfalso. apply (OTH q got NE); [now rewrite PC|exact Q].
    + injection E as <-. rewrite DN by reflexivity. cbn. destruct (J k) as [H|[H [Z|[Z|(q & got & Q)]]]]; [now left|right; auto| |].
      * right. split; [exact H|]. right. left. unfold upd. destruct (k =? k0); [discriminate|exact Z].
      * right. split; [exact H|]. right. left. destruct (Nat.eq_dec q p) as [->|NE].
        -- rewrite PC in Q. destruct Q as [Q|Q]; [discriminate|]. injection Q as -> ->. rewrite upd_same. discriminate.
        -- exfalso. apply (OTH q got NE); [now rewrite PC|exact Q].
    + destruct PP as [P1 P2]. destruct (s_cache s k0) as [c|] eqn:CK; [|congruence]. injection E as <-. rewrite DN by reflexivity. cbn. destruct (J k) as [H|[H [Z|[Z|(q & got & Q)]]]]; [now left|..].
      * right. split; [exact H|]. left. unfold upd. destruct (k =? k0); [discriminate|exact Z].
      * right. split; [exact H|]. destruct (Nat.eq_dec k k0) as [->|NK]; [left; rewrite upd_same; discriminate|right; left; rewrite upd_other by exact NK; exact Z].
      * exfalso. destruct (Nat.eq_dec q p) as [->|NE]; [rewrite PC in Q; destruct Q; discriminate|]. apply (OTH q got NE); [now rewrite PC|exact Q].
    + assert (G : s_fetched s' = s_fetched s /\ s_zip s' = s_zip s /\ s_cache s' = s_cache s) by (destruct (s_zip s k0) as [z|]; [destruct (unzip z)|]; injection E as <-; auto). destruct G as (G1 & G2 & G3). unfold downloads. rewrite G1, G2, G3.
      destruct (J k) as [H|[H [Z|[Z|(q & got & Q)]]]]; [now left|right; auto..]. exfalso. destruct (Nat.eq_dec q p) as [->|NE]; [rewrite PC in Q; destruct Q; discriminate|]. apply (OTH q got NE); [now rewrite PC|exact Q].
    + assert (G : s_fetched s' = s_fetched s /\ s_zip s' = s_zip s /\ s_cache s' = s_cache s) by (destruct todo; injection E as <-; auto). destruct G as (G1 & G2 & G3). unfold downloads. rewrite G1, G2, G3.
      destruct (J k) as [H|[H [Z|[Z|(q & got & Q)]]]]; [now left|right; auto..]. exfalso. destruct (Nat.eq_dec q p) as [->|NE]; [rewrite PC in Q; destruct Q; discriminate|]. apply (OTH q got NE); [now rewrite PC|exact Q].
  - destruct (s_pc s p) as [|k0|k0|k0|k0|k0 got0|k0 got0|k0 got0|k0|k0|k0 todo|k0 b| |] eqn:PC; try discriminate E. injection E as <-. rewrite DN by reflexivity. destruct (J k) as [H|[H [Z|[Z|(q & got & Q)]]]]; [now left|right; auto..]. split; [exact H|]. right. right. exists q, got. cbn. rewrite upd_other; [exact Q|]. intros ->. rewrite PC in Q. destruct Q; discriminate.
Qed.
Theorem C100_one_download ls s k : steps start ls = Some s -> downloads s k <= 1 + failures ls.
Proof.
  assert (G : forall ls n s s', inv s -> inv3 n s -> steps s ls = Some s' -> inv3 (n + failures ls) s').
  { clear. induction ls as [|l ls IH]; intros n s s' I J E; cbn in E; [injection E as <-; unfold failures; cbn; now rewrite Nat.add_0_r|]. destruct (step s l) as [s1|] eqn:E1; [|discriminate].
    pose proof (IH _ s1 s' (inv_step s l s1 I E1) (inv3_step n s l s1 I J E1) E) as H. unfold failures in *. cbn. destruct (failure l); cbn [length] in *; [now replace (n + S (length (filter failure ls))) with (n + 1 + length (filter failure ls)) by lia|now rewrite Nat.add_0_r in H]. }
  intros E. assert (J0 : inv3 0 start) by (intros k'; left; apply le_n). destruct (G ls 0 start s inv_start J0 E k) as [H|[H _]]; cbn in *; lia.
Qed.
End C100.

(** False in general: a process killed (or stopped by an exception) between the renaming and the end of the unpacking leaves the archive behind,
    and every later call returns the model as cached although it was never unpacked. *)
Definition rem (k : nat) : list nat := [k; 7].
Definition unz (l : list nat) : option (list nat) := match l with k :: _ => Some [10 + k; 20 + k] | [] => None end.
Notation run := (@steps nat nat rem unz (fun _ => true) start).
Definition broken : list label := [Call 0 3; Go 0; Go 0; Go 0; Go 0; Chunk 0 5; Go 0; Go 0; Go 0; Go 0; Go 0; Kill 0; Call 1 3; Go 1; Go 1].
Theorem C100_available_refuted : ~ (forall ls s p k b ms, run ls = Some s -> s_pc s p = Returned k b -> unz (rem k) = Some ms -> s_unpacked s k = ms).
Proof.
  intros H. destruct (run broken) as [s|] eqn:E; [|vm_compute in E; discriminate]. specialize (H broken s 1 3 true [13; 23] E). vm_compute in E. injection E as <-. specialize (H eq_refl eq_refl). discriminate H.
Qed.
(** Two processes ask for the same model; the second one waits for the first one and finds the unpacked model. *)
Definition together : list label := [Call 0 3; Call 1 3; Go 0; Go 0; Go 0; Go 0; Chunk 0 1; Chunk 0 5; Go 0; Go 0; Go 0; Go 0; Go 0; Go 0; Go 0; Go 0; Go 1; Go 1].
Example C100_ex : match run together with Some s => s_pc s 0 = Returned 3 false /\ s_pc s 1 = Returned 3 true /\ s_unpacked s 3 = [13; 23] /\ s_fetched s = [3] | None => False end /\
  unpacked_undisturbed rem unz (fun _ => true) start together.
Proof. split; [vm_compute; repeat split|]. cbn. repeat split. Qed.
Print Assumptions C100_never_partial_files.
Print Assumptions C100_available_refuted.
Print Assumptions C100_available_partial.
Print Assumptions C100_no_deadlock.
Print Assumptions C100_one_download.
