(** Lemmas for C142. *)
From Coq Require Import Permutation.
From Verif Require Import Base P_Base M_RandomAccessQueue M_SampleNK S_SampleNK P_RandomAccessQueue P_SampleNK S_Uniform.
Close Scope Q_scope. Open Scope nat_scope.

Lemma list_eqb_ok {X} (eqb : X -> X -> bool) (H : forall x y, eqb x y = true <-> x = y) : forall l l', list_eqb eqb l l' = true <-> l = l'.
Proof.
  induction l as [|x l IH]; intros [|x' l']; cbn; try easy. rewrite andb_true_iff, H, IH. split; [now intros [-> ->]|]. intros E. now injection E.
Qed.
Lemma nth_error_ext_len {T} (l : list T) : forall l', length l = length l' -> (forall i, i < length l -> nth_error l i = nth_error l' i) -> l = l'.
Proof.
  induction l as [|x l IH]; intros [|y l'] L H; cbn in L; try lia; [reflexivity|]. pose proof (H 0 ltac:(cbn; lia)) as H0. cbn in H0. injection H0 as ->. f_equal. apply IH; [lia|]. intros i Hi. exact (H (S i) ltac:(cbn; lia)).
Qed.

(** ** Outcomes *)
Lemma outcomes_in n m : forall ds, In ds (outcomes n m) <-> length ds = m /\ Forall (fun x => x < n) ds.
Proof.
  induction m as [|m IH]; intros ds; cbn [outcomes].
  - split; [intros [<-|[]]; auto|]. intros [L _]. destruct ds; [now left|discriminate].
  - rewrite in_flat_map. split.
    + intros (x & Hx & Hd). apply in_map_iff in Hd. destruct Hd as (t & <- & Ht). apply IH in Ht. destruct Ht as [L F]. apply in_seq in Hx. split; [cbn; lia|]. constructor; [lia|exact F].
    + intros [L F]. destruct ds as [|x ds]; [discriminate|]. inversion F; subst. exists x. split; [apply in_seq; lia|]. apply in_map. apply IH. split; [cbn in L; lia|assumption].
Qed.
Lemma NoDup_app' {A} (l l' : list A) : NoDup l -> NoDup l' -> (forall x, In x l -> ~ In x l') -> NoDup (l ++ l').
Proof.
  induction 1 as [|x l Hx N IH]; intros N' D; [exact N'|]. cbn. constructor.
  - rewrite in_app_iff. intros [H|H]; [contradiction|]. exact (D x (or_introl eq_refl) H).
  - apply IH; [exact N'|]. intros y Hy. apply D. now right.
Qed.
Lemma NoDup_map_inj {A B} (f : A -> B) l : (forall x y, In x l -> In y l -> f x = f y -> x = y) -> NoDup l -> NoDup (map f l).
Proof.
  intros I N. induction N as [|x l Hx N IH]; cbn; [constructor|]. constructor.
  - rewrite in_map_iff. intros (y & E & Hy). assert (y = x) by (apply I; [now right|now left|exact E]). now subst.
  - apply IH. intros y z Hy Hz. apply I; now right.
Qed.
Lemma outcomes_nodup n m : NoDup (outcomes n m).
Proof.
  induction m as [|m IH]; cbn [outcomes]; [repeat constructor; auto|].
  assert (G : forall l, NoDup l -> NoDup (flat_map (fun x => map (cons x) (outcomes n m)) l)).
  { induction 1 as [|x l Hx N IHl]; cbn; [constructor|]. apply NoDup_app'; [|exact IHl|].
    - apply NoDup_map_inj; [|exact IH]. intros a b _ _ E. now injection E.
    - intros ds Hd Hd'. apply in_map_iff in Hd. destruct Hd as (t & <- & _). apply in_flat_map in Hd'. destruct Hd' as (y & Hy & Ht). apply in_map_iff in Ht. destruct Ht as (t' & E & _). injection E as -> _. contradiction. }
  apply G, seq_NoDup.
Qed.
Lemma outcomes_length n m : length (outcomes n m) = n ^ m.
Proof.
  induction m as [|m IH]; [reflexivity|]. cbn [outcomes Nat.pow]. assert (G : forall l, length (flat_map (fun x => map (cons x) (outcomes n m)) l) = length l * n ^ m).
  { induction l as [|x l IHl]; [reflexivity|]. cbn. rewrite app_length, map_length, IHl, IH. reflexivity. }
  now rewrite G, seq_length.
Qed.

(** An injective renaming of the numbers below n maps outcomes to outcomes, injectively. *)
Definition renames (n : nat) (f : nat -> nat) : Prop := (forall x y, f x = f y -> x = y) /\ forall x, x < n -> f x < n.
Lemma count_le n m f (P P' : list nat -> bool) : renames n f -> (forall ds, In ds (outcomes n m) -> P ds = true -> P' (map f ds) = true) ->
  length (filter P (outcomes n m)) <= length (filter P' (outcomes n m)).
Proof.
  intros [I B] H. rewrite <- (map_length (map f)). apply NoDup_incl_length.
  - apply NoDup_map_inj; [|apply NoDup_filter, outcomes_nodup]. intros x y _ _ E. revert y E. induction x as [|a x IH]; intros [|b y] E; try discriminate; [reflexivity|]. cbn in E. injection E as E1 E2. f_equal; [now apply I|now apply IH].
  - intros ds Hd. apply in_map_iff in Hd. destruct Hd as (t & <- & Ht). apply filter_In in Ht. destruct Ht as [Ht Pt]. apply filter_In. split; [|now apply H].
    apply outcomes_in in Ht. apply outcomes_in. destruct Ht as [L F]. split; [now rewrite map_length|]. clear - F B. induction F; cbn; constructor; auto.
Qed.

(** ** Renaming the draws renames the sample *)
Lemma list_set_map {A B} (f : A -> B) l : forall i x, list_set (map f l) i (f x) = map f (list_set l i x).
Proof. induction l as [|a l IH]; intros [|i] x; cbn; auto. now rewrite IH. Qed.
Section Rename.
Context (f : nat -> nat) (I : forall x y, f x = f y -> x = y).
Definition ren (o : oracle) : oracle := {| choice_norepl := map f (choice_norepl o); draw := fun r => map f (draw o r) |}.
Definition rens (s : snk) : snk := mkSnk (map f (res s)) (map f (sel s)) (jj s) (calls s).
Lemma memb_map x l : memb (f x) (map f l) = memb x l.
Proof.
  apply eq_true_iff_eq. rewrite !memb_In, in_map_iff. split; [|intros H; now exists x]. intros (y & E & Hy). apply I in E. now subst.
Qed.
Lemma reject_map fuel o k i : forall s x, reject fuel (ren o) k i (rens s) (f x) = match reject fuel o k i s x with Ok (s, x) => Ok (rens s, f x) | Err e => Err e end.
Proof.
  induction fuel as [|fuel IH]; intros s x; cbn [reject]; unfold rens at 1; cbn [sel]; rewrite memb_map; (destruct (memb x (sel s)); [|reflexivity]); [reflexivity|].
  cbn [res jj calls rens]. rewrite nth_error_map. destruct (nth_error (res s) (jj s)) as [y|]; cbn [option_map]; [|reflexivity]. destruct (S (jj s) =? 2 * k).
  - rewrite list_set_map, firstn_map. cbn [ren draw]. rewrite <- map_app. exact (IH (mkSnk (firstn k (list_set (res s) i y) ++ draw o (calls s)) (sel s) k (S (calls s))) y).
  - rewrite list_set_map. exact (IH (mkSnk (list_set (res s) i y) (sel s) (S (jj s)) (calls s)) y).
Qed.
Lemma pick_map fuel o k is : forall s, pick fuel (ren o) k is (rens s) = match pick fuel o k is s with Ok s => Ok (rens s) | Err e => Err e end.
Proof.
  induction is as [|i is IH]; intros s; cbn [pick]; [reflexivity|]. cbn [rens res]. rewrite nth_error_map. destruct (nth_error (res s) i) as [x|]; cbn [option_map]; [|reflexivity].
  change (mkSnk (map f (res s)) (map f (sel s)) (jj s) (calls s)) with (rens s). rewrite reject_map. destruct (reject fuel o k i s x) as [[s' x']|]; cbn [rbind]; [|reflexivity].
  exact (IH (mkSnk (res s') (x' :: sel s') (jj s') (calls s'))).
Qed.
Lemma sample_map fuel o n k : sample_n_k fuel (ren o) n k = match sample_n_k fuel o n k with Ok l => Ok (map f l) | Err e => Err e end.
Proof.
  unfold sample_n_k. destruct (negb _); [reflexivity|]. destruct (k =? 0)%Z; [reflexivity|]. destruct (n <=? 3 * k)%Z; [reflexivity|].
  change (mkSnk (draw (ren o) 0) [] (Z.to_nat k) 1) with (rens (mkSnk (draw o 0) [] (Z.to_nat k) 1)). rewrite pick_map. destruct (pick _ _ _ _ _) as [s|]; cbn [rbind]; [|reflexivity]. cbn [rens res]. now rewrite firstn_map.
Qed.
Lemma generator_map k w ds : forall r, draw (generator k (map f w) (map f ds)) r = draw (ren (generator k w ds)) r.
Proof. intros [|r]; cbn [generator ren draw]; [now rewrite firstn_map|]. now rewrite skipn_map, firstn_map. Qed.
End Rename.
(** Only the draws matter. *)
Lemma reject_ext fuel o o' k i : (forall r, draw o r = draw o' r) -> forall s x, reject fuel o k i s x = reject fuel o' k i s x.
Proof.
  intros H. induction fuel as [|fuel IH]; intros s x; cbn [reject]; [reflexivity|]. destruct (memb x (sel s)); [|reflexivity]. destruct (nth_error (res s) (jj s)); [|reflexivity]. rewrite H. now rewrite !IH.
Qed.
Lemma pick_ext fuel o o' k is : (forall r, draw o r = draw o' r) -> forall s, pick fuel o k is s = pick fuel o' k is s.
Proof.
  intros H. induction is as [|i is IH]; intros s; cbn [pick]; [reflexivity|]. destruct (nth_error (res s) i); [|reflexivity]. rewrite (reject_ext _ _ _ _ _ H). destruct (reject _ _ _ _ _ _) as [[s' x']|]; [|reflexivity]. cbn [rbind]. apply IH.
Qed.
Lemma sample_ext fuel o o' n k : choice_norepl o = choice_norepl o' -> (forall r, draw o r = draw o' r) -> sample_n_k fuel o n k = sample_n_k fuel o' n k.
Proof. intros C H. unfold sample_n_k. now rewrite C, H, (pick_ext _ _ _ _ _ H). Qed.
Lemma sample_renamed fuel f k w ds n m : (forall x y, f x = f y -> x = y) -> sample_n_k fuel (generator k (map f w) (map f ds)) n m = match sample_n_k fuel (generator k w ds) n m with Ok l => Ok (map f l) | Err e => Err e end.
Proof. intros I. rewrite <- (sample_map f I). apply sample_ext; [reflexivity|]. now apply generator_map. Qed.

(** ** A renaming that takes one sample to another *)
Fixpoint pos (x : nat) (l : list nat) : option nat := match l with [] => None | y :: l => if x =? y then Some 0 else option_map S (pos x l) end.
Lemma pos_nth x l : forall i, pos x l = Some i -> nth_error l i = Some x.
Proof.
  induction l as [|y l IH]; intros i E; cbn in E; [discriminate|]. destruct (x =? y) eqn:Exy; [injection E as <-; apply Nat.eqb_eq in Exy; now subst|]. destruct (pos x l) as [j|]; [|discriminate]. cbn in E. injection E as <-. exact (IH j eq_refl).
Qed.
Lemma pos_none x l : pos x l = None -> ~ In x l.
Proof.
  induction l as [|y l IH]; intros E H; cbn in *; [exact H|]. destruct (x =? y) eqn:Exy; [discriminate|]. apply Nat.eqb_neq in Exy. destruct (pos x l); [discriminate|]. destruct H as [->|H]; [contradiction|]. exact (IH eq_refl H).
Qed.
Lemma pos_of l : NoDup l -> forall i x, nth_error l i = Some x -> pos x l = Some i.
Proof.
  induction 1 as [|y l Hy N IH]; intros [|i] x E; cbn in E; try discriminate; cbn.
  - injection E as ->. now rewrite Nat.eqb_refl.
  - destruct (x =? y) eqn:Exy; [apply Nat.eqb_eq in Exy; subst; exfalso; apply Hy; exact (nth_error_In _ _ E)|]. now rewrite (IH i x E).
Qed.
Definition full (n : nat) (l : list nat) : list nat := l ++ filter (fun x => negb (memb x l)) (seq 0 n).
Lemma full_perm n l : NoDup l -> (forall x, In x l -> x < n) -> NoDup (full n l) /\ (forall x, In x (full n l) <-> x < n) /\ length (full n l) = n.
Proof.
  intros N B. assert (ND : NoDup (full n l)).
  { unfold full. apply NoDup_app'; [exact N|apply NoDup_filter, seq_NoDup|]. intros x H H'. apply filter_In in H'. destruct H' as [_ H']. apply memb_In in H. rewrite H in H'. discriminate. }
  assert (IN : forall x, In x (full n l) <-> x < n).
  { intros x. unfold full. rewrite in_app_iff, filter_In, in_seq. split; [intros [H|H]; [now apply B|lia]|]. intros H. destruct (memb x l) eqn:E; [left; now apply memb_In|]. right. split; [lia|reflexivity]. }
  split; [exact ND|]. split; [exact IN|]. transitivity (length (seq 0 n)); [|apply seq_length]. apply Permutation_length. apply NoDup_Permutation; [exact ND|apply seq_NoDup|]. intros x. rewrite IN, in_seq. lia.
Qed.
Definition renaming (n : nat) (l l' : list nat) (x : nat) : nat := match pos x (full n l) with Some i => nth i (full n l') 0 | None => x end.
Lemma renaming_ok n l l' : length l = length l' -> NoDup l -> (forall x, In x l -> x < n) -> NoDup l' -> (forall x, In x l' -> x < n) -> renames n (renaming n l l') /\ map (renaming n l l') l = l'.
Proof.
  intros L N B N' B'. destruct (full_perm n l N B) as (F1 & F2 & F3). destruct (full_perm n l' N' B') as (F1' & F2' & F3').
  assert (S : forall x i, pos x (full n l) = Some i -> nth_error (full n l') i = Some (nth i (full n l') 0)).
  { intros x i E. apply pos_nth in E. apply nth_error_nth'. assert (i < length (full n l)) by (apply nth_error_Some; congruence). lia. }
  assert (O : forall x, pos x (full n l) = None -> n <= x). { intros x E. apply pos_none in E. rewrite F2 in E. lia. }
  split; [split|].
  - intros x y E. unfold renaming in E. destruct (pos x (full n l)) as [i|] eqn:Ex, (pos y (full n l)) as [j|] eqn:Ey.
    + pose proof (S x i Ex) as A. pose proof (S y j Ey) as A'. rewrite <- E in A'. assert (i = j). { eapply NoDup_nth_error; [exact F1'| |now rewrite A, A']. apply nth_error_Some. congruence. }
      subst j. apply pos_nth in Ex. apply pos_nth in Ey. congruence.
    + pose proof (nth_error_In _ _ (S x i Ex)) as A. rewrite F2', E in A. specialize (O y Ey). lia.
    + pose proof (nth_error_In _ _ (S y j Ey)) as A. rewrite F2', <- E in A. specialize (O x Ex). lia.
    + exact E.
  - intros x Hx. unfold renaming. destruct (pos x (full n l)) as [i|] eqn:Ex; [|exact Hx]. apply F2'. exact (nth_error_In _ _ (S x i Ex)).
  - apply nth_error_ext_len. rewrite map_length. exact L. intros i Hi. rewrite map_length in Hi. rewrite nth_error_map. destruct (nth_error l i) as [x|] eqn:Ex; [|apply nth_error_None in Ex; lia]. cbn [option_map].
    assert (P : pos x (full n l) = Some i) by (apply pos_of; [exact F1|]; unfold full; rewrite nth_error_app1 by exact Hi; exact Ex). unfold renaming. rewrite P. rewrite <- (S x i P). unfold full. rewrite nth_error_app1 by lia. reflexivity.
Qed.

(** ** Calls that do not finish *)
Section Unfinished.
Context (n k r : nat) (w ds : list nat).
Context (Hk : 0 < k) (Hd : length ds = 2 * k + r * k) (Hn : Forall (fun x => x < n) ds).
Notation tail := (skipn k ds).
(** The number of draws after the first k that were looked at. *)
Definition looked (s : snk) : nat := (calls s - 1) * k + (jj s - k).
Definition fine (s : snk) (x : list nat) : Prop :=
  k <= length (res s) /\ Forall (fun x => x < n) (res s) /\ Forall (fun x => x < n) (sel s) /\ 1 <= calls s /\ k <= jj s < 2 * k /\ looked s <= length tail /\
  (forall q, q < k -> nth_error (res s) (k + q) = nth_error tail ((calls s - 1) * k + q)) /\
  (forall p y, p < looked s -> nth_error tail p = Some y -> In y (sel s) \/ In y x).
Definition stuck (i : nat) : Prop := exists l, length l <= i /\ Forall (fun x => x < n) l /\ incl tail l.
Lemma tail_length : length tail = k + r * k. Proof. rewrite skipn_length. lia. Qed.
Lemma list_set_length {A} (l : list A) : forall i x, length (list_set l i x) = length l.
Proof. induction l as [|a l IH]; intros [|i] x; cbn; auto. Qed.
Lemma list_set_other {A} (l : list A) : forall i j x, i <> j -> nth_error (list_set l i x) j = nth_error l j.
Proof. induction l as [|a l IH]; intros [|i] [|j] x H; cbn; auto; try lia. Qed.
Lemma list_set_here {A} (l : list A) : forall i x, i < length l -> nth_error (list_set l i x) i = Some x.
Proof. induction l as [|a l IH]; intros [|i] x H; cbn in *; auto; try lia. apply IH. lia. Qed.
Lemma Forall_skip {A} (P : A -> Prop) l : Forall P l -> forall a, Forall P (skipn a l).
Proof. induction 1 as [|x l Hx F IH]; intros [|a]; cbn; auto. Qed.
Lemma nth_skip {A} (l : list A) : forall a j, nth_error (skipn a l) j = nth_error l (a + j).
Proof. induction l as [|x l IH]; intros [|a] j; cbn; auto. now destruct j. Qed.
Lemma nth_first {A} (l : list A) : forall a j, j < a -> nth_error (firstn a l) j = nth_error l j.
Proof. induction l as [|x l IH]; intros [|a] [|j] H; cbn; auto; try lia. apply IH. lia. Qed.

Lemma reject_stuck fuel i : i < k -> forall s x, length tail < fuel + looked s -> fine s [x] -> nth_error (res s) i = Some x -> length (sel s) = i ->
  match reject fuel (generator k w ds) k i s x with Ok (s', x') => fine s' [x'] /\ sel s' = sel s /\ x' < n | Err _ => stuck i end.
Proof.
  intros Hi. induction fuel as [|fuel IH]; intros s x Hf (F1 & F2 & F3 & F4 & F5 & F6 & F7 & F8) Nx Ls; cbn [reject]; (destruct (memb x (sel s)) eqn:Em; [|split; [now repeat split|]; split; [reflexivity|]; exact (proj1 (Forall_forall _ _) F2 x (nth_error_In _ _ Nx))]).
  - exfalso. clear - Hf F6. cbn in Hf. lia.
  - pose proof (F7 (jj s - k) ltac:(lia)) as E7. replace (k + (jj s - k)) with (jj s) in E7 by lia. change ((calls s - 1) * k + (jj s - k)) with (looked s) in E7. apply memb_In in Em.
    destruct (nth_error (res s) (jj s)) as [y|] eqn:Ny.
    + assert (Hy : y < n) by exact (proj1 (Forall_forall _ _) F2 y (nth_error_In _ _ Ny)). assert (Lk : looked s < length tail) by (apply nth_error_Some; congruence).
      assert (G8 : forall p z, p < S (looked s) -> nth_error tail p = Some z -> In z (sel s) \/ In z [y]).
      { intros p z Hp Hz. destruct (Nat.eq_dec p (looked s)) as [->|Np]; [rewrite <- E7 in Hz; injection Hz as ->; right; now left|]. destruct (F8 p z ltac:(lia) Hz) as [H|[<-|[]]]; left; assumption. }
      destruct (S (jj s) =? 2 * k) eqn:Ej.
      * apply Nat.eqb_eq in Ej. assert (LL : looked (mkSnk (firstn k (list_set (res s) i y) ++ draw (generator k w ds) (calls s)) (sel s) k (S (calls s))) = S (looked s)).
        { unfold looked. cbn [calls jj]. rewrite Nat.sub_diag, Nat.add_0_r. replace (S (calls s) - 1) with (S (calls s - 1)) by lia. cbn [Nat.mul]. lia. }
        assert (L1 : length (firstn k (list_set (res s) i y)) = k) by (rewrite firstn_length, list_set_length; lia).
        assert (DR : draw (generator k w ds) (calls s) = firstn k (skipn (2 * k + (calls s - 1) * k) ds)) by (destruct (calls s) as [|c]; [lia|]; cbn [generator draw]; now replace (S c - 1) with c by lia).
        assert (N1 : nth_error (firstn k (list_set (res s) i y) ++ draw (generator k w ds) (calls s)) i = Some y).
        { rewrite nth_error_app1 by lia. rewrite nth_first by exact Hi. apply list_set_here; lia. }
        pose proof (IH (mkSnk (firstn k (list_set (res s) i y) ++ draw (generator k w ds) (calls s)) (sel s) k (S (calls s))) y) as G. rewrite LL in G. apply G; [lia| |exact N1|exact Ls].
        unfold fine. rewrite LL. cbn [res sel calls jj]. repeat split; try lia; auto.
        -- rewrite app_length. lia.
        -- apply Forall_app. split; [apply P_SampleNK.Forall_firstn, P_SampleNK.Forall_list_set; assumption|]. rewrite DR. apply P_SampleNK.Forall_firstn, Forall_skip, Hn.
        -- intros q Hq. rewrite nth_error_app2 by lia. rewrite L1. replace (k + q - k) with q by lia. rewrite DR, nth_first by exact Hq. rewrite !nth_skip. f_equal. replace (S (calls s) - 1) with (S (calls s - 1)) by lia. cbn [Nat.mul]. lia.
      * apply Nat.eqb_neq in Ej. assert (LL : looked (mkSnk (list_set (res s) i y) (sel s) (S (jj s)) (calls s)) = S (looked s)) by (unfold looked; cbn [calls jj]; lia).
        assert (N1 : nth_error (list_set (res s) i y) i = Some y) by (apply list_set_here; lia).
        pose proof (IH (mkSnk (list_set (res s) i y) (sel s) (S (jj s)) (calls s)) y) as G. rewrite LL in G. apply G; [lia| |exact N1|exact Ls]. unfold fine. rewrite LL. cbn [res sel calls jj]. repeat split; try lia; auto.
        -- now rewrite list_set_length.
        -- apply P_SampleNK.Forall_list_set; assumption.
        -- intros q Hq. rewrite list_set_other by lia. now apply F7.
    + (* no draws left *)
      symmetry in E7. apply nth_error_None in E7. exists (sel s). split; [lia|]. split; [exact F3|]. intros z Hz. apply In_nth_error in Hz. destruct Hz as [p Hp]. assert (p < length tail) by (apply nth_error_Some; congruence).
      destruct (F8 p z ltac:(lia) Hp) as [H1|[<-|[]]]; assumption.
Qed.
Lemma pick_stuck fuel : length tail < fuel -> forall m i s, i + m = k -> length (sel s) = i -> fine s [] -> match pick fuel (generator k w ds) k (seq i m) s with Ok _ => True | Err _ => stuck k end.
Proof.
  intros Hf. induction m as [|m IH]; intros i s Hi Ls F; cbn [seq pick]; [exact I|]. pose proof F as (F1 & F2 & F3 & F4 & F5 & F6 & F7 & F8). destruct (nth_error (res s) i) as [x|] eqn:Nx; [|apply nth_error_None in Nx; lia].
  assert (Fx : fine s [x]) by (repeat split; try assumption; try lia; intros p y Hp Hy; destruct (F8 p y Hp Hy) as [H|[]]; now left).
  pose proof (reject_stuck fuel i ltac:(lia) s x ltac:(lia) Fx Nx Ls) as G. destruct (reject _ _ _ _ _ _) as [[s' x']|]; cbn [rbind]; [|destruct G as (l & A & B & C); exists l; repeat split; [lia|exact B|exact C]].
  destruct G as [(G1 & G2 & G3 & G4 & G5 & G6 & G7 & G8) [Es Hx]]. apply IH; [lia|cbn [sel length]; rewrite Es; lia|]. unfold fine, looked in *. cbn [res sel calls jj] in *. repeat split; auto; try lia.
  - intros p y Hp Hy. destruct (G8 p y Hp Hy) as [H|[<-|[]]]; left; cbn; auto.
Qed.
Lemma sample_stuck fuel : 3 * k < n -> length tail < fuel -> match sample_n_k fuel (generator k w ds) (Z.of_nat n) (Z.of_nat k) with Ok _ => True | Err _ => stuck k end.
Proof.
  intros H3 Hf. unfold sample_n_k. replace (negb ((0 <=? Z.of_nat k) && (Z.of_nat k <=? Z.of_nat n))%Z) with false by lia. replace (Z.of_nat k =? 0)%Z with false by lia. replace (Z.of_nat n <=? 3 * Z.of_nat k)%Z with false by lia. rewrite Nat2Z.id.
  assert (F : fine (mkSnk (draw (generator k w ds) 0) [] k 1) []).
  { unfold fine, looked. cbn [res sel calls jj generator draw]. assert (length (firstn (2 * k) ds) = 2 * k) by (rewrite firstn_length; lia). repeat split; try lia; auto.
    - apply P_SampleNK.Forall_firstn, Hn.
    - intros q Hq. rewrite nth_first by lia. rewrite nth_skip. f_equal; lia. }
  pose proof (pick_stuck fuel Hf k 0 (mkSnk (draw (generator k w ds) 0) [] k 1) eq_refl eq_refl F) as G. destruct (pick _ _ _ _ _); cbn [rbind]; [exact I|exact G].
Qed.
End Unfinished.

Lemma stuck_form n k r ds : 0 < n -> length ds = 2 * k + r * k -> Forall (fun x => x < n) ds -> stuck n k ds k ->
  In ds (flat_map (fun l => flat_map (fun a => map (fun js => a ++ map (fun j => nth j l 0) js) (outcomes k (k + r * k))) (outcomes n k)) (outcomes n k)).
Proof.
  intros Hn L F (l & Ll & Fl & Inc). apply in_flat_map. exists (l ++ repeat 0 (k - length l)). split.
  - apply outcomes_in. split; [rewrite app_length, repeat_length; lia|]. apply Forall_app. split; [exact Fl|]. apply Forall_forall. intros x Hx. apply repeat_spec in Hx. now subst.
  - apply in_flat_map. exists (firstn k ds). split; [apply outcomes_in; split; [rewrite firstn_length; lia|now apply P_SampleNK.Forall_firstn]|].
    assert (G : forall t, incl t l -> exists js, length js = length t /\ Forall (fun j => j < k) js /\ map (fun j => nth j (l ++ repeat 0 (k - length l)) 0) js = t).
    { induction t as [|x t IH]; intros I; [now exists []|]. destruct (IH (fun y Hy => I y (or_intror Hy))) as (js & A & B & C). destruct (In_nth l x 0 (I x (or_introl eq_refl))) as (j & Hj & Nj). exists (j :: js).
      split; [cbn; lia|]. split; [constructor; [lia|exact B]|]. cbn [map]. rewrite C, app_nth1 by exact Hj. now rewrite Nj. }
    destruct (G (skipn k ds) Inc) as (js & A & B & C). apply in_map_iff. exists js. split; [rewrite C; apply firstn_skipn|]. apply outcomes_in. split; [rewrite A, skipn_length; lia|exact B].
Qed.
Lemma flat_map_const {A B} (g : A -> list B) c l : (forall x, In x l -> length (g x) = c) -> length (flat_map g l) = length l * c.
Proof. induction l as [|x l IH]; intros H; [reflexivity|]. cbn. rewrite app_length, (H x (or_introl eq_refl)), IH; [reflexivity|]. intros y Hy. apply H. now right. Qed.
Lemma unfinished_le n k r fuel w : 0 < k -> 3 * k < n -> k + r * k < fuel ->
  unfinished n k r (fun ds => sample_n_k fuel (generator k w ds) (Z.of_nat n) (Z.of_nat k)) <= n ^ (2 * k) * k ^ (k + r * k).
Proof.
  intros Hk H3 Hf. unfold unfinished.
  replace (n ^ (2 * k) * k ^ (k + r * k)) with (length (flat_map (fun l => flat_map (fun a => map (fun js => a ++ map (fun j => nth j l 0) js) (outcomes k (k + r * k))) (outcomes n k)) (outcomes n k))).
  - apply NoDup_incl_length; [apply NoDup_filter, outcomes_nodup|]. intros ds Hd. apply filter_In in Hd. destruct Hd as [Hd E]. apply outcomes_in in Hd. destruct Hd as [L F]. apply stuck_form; [lia|exact L|exact F|].
    assert (Lt : length (skipn k ds) < fuel) by (rewrite skipn_length; lia). pose proof (sample_stuck n k r w ds Hk L F fuel H3 Lt) as G. destruct (sample_n_k _ _ _ _); [discriminate|exact G].
  - rewrite (flat_map_const _ (n ^ k * k ^ (k + r * k))).
    + rewrite outcomes_length, Nat.mul_assoc, <- Nat.pow_add_r. f_equal. f_equal. lia.
    + intros l _. rewrite (flat_map_const _ (k ^ (k + r * k))); [now rewrite outcomes_length|]. intros a _. now rewrite map_length, outcomes_length.
Qed.
Lemma unfinished_small n k r u : 0 < k -> 3 * k < n -> u <= n ^ (2 * k) * k ^ (k + r * k) -> u * 3 ^ (r * k) <= k ^ k * n ^ (2 * k + r * k).
Proof.
  intros Hk H3 H. rewrite Nat.pow_add_r in H. assert (E : k ^ (r * k) * 3 ^ (r * k) <= n ^ (r * k)) by (rewrite <- Nat.pow_mul_l; apply Nat.pow_le_mono_l; lia).
  rewrite Nat.pow_add_r. apply Nat.le_trans with (n ^ (2 * k) * (k ^ k * k ^ (r * k)) * 3 ^ (r * k)); [now apply Nat.mul_le_mono_r|].
  replace (n ^ (2 * k) * (k ^ k * k ^ (r * k)) * 3 ^ (r * k)) with (k ^ k * n ^ (2 * k) * (k ^ (r * k) * 3 ^ (r * k))) by ring.
  rewrite (Nat.mul_assoc (k ^ k) (n ^ (2 * k)) (n ^ (r * k))). now apply Nat.mul_le_mono_l.
Qed.

(** ** Counting *)
Lemma ways_le n k r fuel w l l' : distinct_sample n k l -> distinct_sample n k l' -> (3 * k < n) ->
  ways (list_eqb Nat.eqb) n k r (fun ds => sample_n_k fuel (generator k w ds) (Z.of_nat n) (Z.of_nat k)) l <=
  ways (list_eqb Nat.eqb) n k r (fun ds => sample_n_k fuel (generator k w ds) (Z.of_nat n) (Z.of_nat k)) l'.
Proof.
  intros (L & N & B) (L' & N' & B') H3. destruct (renaming_ok n l l' ltac:(lia) N B N' B') as [R M]. unfold ways. apply count_le with (f := renaming n l l'); [exact R|]. intros ds _ E.
  assert (W : forall w1 w2 d, sample_n_k fuel (generator k w1 d) (Z.of_nat n) (Z.of_nat k) = sample_n_k fuel (generator k w2 d) (Z.of_nat n) (Z.of_nat k)).
  { intros w1 w2 d. unfold sample_n_k. destruct (negb _); [reflexivity|]. destruct (_ =? 0)%Z; [reflexivity|]. replace (Z.of_nat n <=? 3 * Z.of_nat k)%Z with false by lia. cbn [generator draw].
    rewrite (pick_ext _ (generator k w1 d) (generator k w2 d)); [reflexivity|]. intros [|q]; reflexivity. }
  rewrite (W w (map (renaming n l l') w)). rewrite (sample_renamed fuel _ k w ds _ _ (proj1 R)). destruct (sample_n_k fuel (generator k w ds) (Z.of_nat n) (Z.of_nat k)) as [m|]; [|discriminate].
  apply (list_eqb_ok _ Nat.eqb_eq) in E. subst m. apply (list_eqb_ok _ Nat.eqb_eq). exact M.
Qed.
(** Samples with a property that renaming keeps. *)
Lemma member_le n k r fuel w i i' : i < n -> i' < n -> 3 * k < n ->
  length (filter (fun ds => match sample_n_k fuel (generator k w ds) (Z.of_nat n) (Z.of_nat k) with Ok l => memb i l | Err _ => false end) (outcomes n (2 * k + r * k))) <=
  length (filter (fun ds => match sample_n_k fuel (generator k w ds) (Z.of_nat n) (Z.of_nat k) with Ok l => memb i' l | Err _ => false end) (outcomes n (2 * k + r * k))).
Proof.
  intros Hi Hi' H3. destruct (renaming_ok n [i] [i']) as [R M]; [reflexivity|repeat constructor; auto|intros x [<-|[]]; exact Hi|repeat constructor; auto|intros x [<-|[]]; exact Hi'|].
  apply count_le with (f := renaming n [i] [i']); [exact R|]. intros ds _ E.
  assert (W : forall w1 w2 d, sample_n_k fuel (generator k w1 d) (Z.of_nat n) (Z.of_nat k) = sample_n_k fuel (generator k w2 d) (Z.of_nat n) (Z.of_nat k)).
  { intros w1 w2 d. unfold sample_n_k. destruct (negb _); [reflexivity|]. destruct (_ =? 0)%Z; [reflexivity|]. replace (Z.of_nat n <=? 3 * Z.of_nat k)%Z with false by lia. cbn [generator draw].
    rewrite (pick_ext _ (generator k w1 d) (generator k w2 d)); [reflexivity|]. intros [|q]; reflexivity. }
  rewrite (W w (map (renaming n [i] [i']) w)). rewrite (sample_renamed fuel _ k w ds _ _ (proj1 R)). destruct (sample_n_k fuel (generator k w ds) (Z.of_nat n) (Z.of_nat k)) as [m|]; [|discriminate].
  cbn [map] in M. injection M as M. remember (renaming n [i] [i']) as g. rewrite <- M. rewrite memb_map; [exact E|apply R].
Qed.

(** ** The queue *)
Lemma getmany_inv {A} (q : raq A) : forall ixs ys, raq_getmany q ixs = Ok ys -> Forall2 (fun i x => nth_error (raq_iter q) i = Some x) ixs ys.
Proof.
  induction ixs as [|i ixs IH]; intros ys E; cbn [raq_getmany] in E; [injection E as <-; constructor|]. destruct (raq_getitem q (Z.of_nat i)) as [y|] eqn:Y; [|discriminate]. cbn [rbind] in E.
  destruct (raq_getmany q ixs) as [zs|]; [|discriminate]. cbn in E. injection E as <-. constructor; [|auto]. rewrite raq_getitem_spec, py_get_nonneg, Nat2Z.id in Y by lia.
  destruct (nth_error (raq_iter q) i); [now injection Y as ->|discriminate].
Qed.
Lemma F2_unique {A} (xs : list A) : NoDup xs -> forall ixs ys, Forall2 (fun i x => nth_error xs i = Some x) ixs ys -> forall ixs', Forall2 (fun i x => nth_error xs i = Some x) ixs' ys -> ixs = ixs'.
Proof.
  intros N. induction 1 as [|i y ixs ys H F IH]; intros ixs' F'; inversion F'; subst; [reflexivity|]. f_equal; [|auto]. eapply NoDup_nth_error; [exact N|apply nth_error_Some; congruence|congruence].
Qed.
Lemma indices {A} (xs : list A) : NoDup xs -> forall ys, NoDup ys -> (forall y, In y ys -> In y xs) -> exists l, Forall2 (fun i x => nth_error xs i = Some x) l ys /\ distinct_sample (length xs) (length ys) l.
Proof.
  intros N. induction 1 as [|y ys Hy Ny IH]; intros I; [exists []; repeat split; [constructor|constructor|intros x []]|]. destruct (IH (fun z Hz => I z (or_intror Hz))) as (l & F & L & D & B). destruct (In_nth_error _ _ (I y (or_introl eq_refl))) as (i & Hi).
  exists (i :: l). split; [now constructor|]. split; [cbn; lia|]. split.
  - constructor; [|exact D]. intros Hil. clear - F Hi Hil Hy. induction F as [|j z l ys Hj F IH]; [exact Hil|]. destruct Hil as [->|Hil]; [apply Hy; left; congruence|]. apply IH; [|exact Hil]. intros Hz. apply Hy. now right.
  - intros x [<-|Hx]; [apply nth_error_Some; congruence|now apply B].
Qed.
Lemma queue_ways {A} (eqb : A -> A -> bool) (Heqb : forall x y, eqb x y = true <-> x = y) (q : raq A) k r fuel w l ys : NoDup (raq_iter q) -> Forall2 (fun i x => nth_error (raq_iter q) i = Some x) l ys -> (forall x, In x l -> x < length (raq_iter q)) ->
  ways (list_eqb eqb) (length (raq_iter q)) k r (fun ds => raq_sample fuel (generator k w ds) q (Z.of_nat k)) ys =
  ways (list_eqb Nat.eqb) (length (raq_iter q)) k r (fun ds => sample_n_k fuel (generator k w ds) (Z.of_nat (length (raq_iter q))) (Z.of_nat k)) l.
Proof.
  intros N F B. unfold ways. f_equal. apply filter_ext_in. intros ds _. unfold raq_sample. rewrite raq_len_iter. destruct (sample_n_k _ _ _ _) as [m|]; [|reflexivity]. cbn [rbind].
  apply eq_true_iff_eq. rewrite (list_eqb_ok _ Nat.eqb_eq). split.
  - destruct (raq_getmany q m) as [zs|] eqn:G; [|discriminate]. rewrite (list_eqb_ok _ Heqb). intros ->. exact (F2_unique _ N _ _ (getmany_inv q m ys G) _ F).
  - intros ->. destruct (raq_getmany_spec q l B) as (zs & -> & F'). apply (list_eqb_ok _ Heqb). clear - F F'. revert zs F'. induction F as [|i y l ys H F IH]; intros zs F'; inversion F'; subst; [reflexivity|]. f_equal; [congruence|now apply IH].
Qed.
