(** C15: random sub-sequences. *)
From Verif Require Import Base M_RandomAccessQueue M_SampleNK S_SampleNK M_ReplayBuffer M_Episodic S_Episodic P_Episodic.

(** A contiguous block of exactly min(L, len) elements, for every outcome of randint. *)
Theorem C15_block : forall A rnd (l : list A) L, randint_ok rnd ->
  block (random_subseq rnd l L) l /\ length (random_subseq rnd l L) = Nat.min L (length l).
Proof. exact @random_subseq_ok. Qed.
Print Assumptions C15_block.

Theorem C15_short : forall A rnd (l : list A) L, length l <= L -> random_subseq rnd l L = l.
Proof. exact @random_subseq_short. Qed.
Print Assumptions C15_short.

(** Every block of the requested length is a possible outcome. *)
Theorem C15_every_block_possible : forall A (a sub c : list A) L, length sub = L ->
  exists rnd, randint_ok rnd /\ random_subseq rnd (a ++ sub ++ c) L = sub.
Proof. exact @random_subseq_all_offsets. Qed.
Print Assumptions C15_every_block_possible.

(** sample_episodes(n, max_len): blocks of n distinct stored episodes. *)
Theorem C15_sample_episodes : forall T fuel o offs (b : ebuf T) n max_len,
  n <= length (raq_iter (episodic_memory b)) -> numpy_contract (length (raq_iter (episodic_memory b))) n o ->
  (forall j, randint_ok (offs j)) ->
  match eb_sample_episodes fuel o offs b n max_len with
  | Ok xs => exists ixs, distinct_sample (length (raq_iter (episodic_memory b))) n ixs /\
      Forall2 (fun i x => exists ep, nth_error (raq_iter (episodic_memory b)) i = Some ep /\ block x ep /\
                 length x = match max_len with None => length ep | Some L => Nat.min L (length ep) end) ixs xs
  | Err e => e = OutOfFuel
  end.
Proof. exact @sample_episodes_ok. Qed.
Print Assumptions C15_sample_episodes.

(** The blocks are chosen independently: whatever the episodes sampled, every combination of blocks of them is
    a possible outcome. *)
Lemma subseqs_any {A} L : forall (eps subs : list (list A)) k,
  Forall2 (fun s ep => block s ep /\ length s = Nat.min L (length ep)) subs eps ->
  exists offs, (forall j, randint_ok (offs j)) /\ subseqs k offs eps L = subs.
Proof.
  induction eps as [|ep eps IH]; intros subs k H; inversion H as [|s ? subs' ? [Hb Hl] H']; subst.
  - exists (fun _ _ => 0). split; [intros j i Hi; lia|reflexivity].
  - destruct (IH subs' (S k) H') as (offs & Ho & E).
    assert (exists r, randint_ok r /\ random_subseq r ep L = s) as (r & Hr & Er).
    { destruct Hb as (a & c & ->). destruct (Nat.le_gt_cases (length (a ++ s ++ c)) L) as [Hs|Hs].
      - exists (fun _ => 0). split; [intros i Hi; lia|]. rewrite random_subseq_short by exact Hs.
        rewrite !app_length in *. destruct a; [|cbn [length] in *; lia]. destruct c; [|cbn [length] in *; lia].
        cbn [app]. apply app_nil_r.
      - apply random_subseq_all_offsets. lia. }
    exists (fun j => if j =? k then r else offs j). split.
    + intros j. destruct (j =? k); auto.
    + cbn [subseqs]. rewrite Nat.eqb_refl, Er. f_equal. rewrite <- E. clear.
      assert (G : forall (es : list (list A)) m, k < m -> subseqs m (fun j => if j =? k then r else offs j) es L = subseqs m offs es L).
      { induction es as [|e es IH]; intros m Hm; [reflexivity|]. cbn [subseqs]. rewrite IH by lia.
        destruct (Nat.eqb_spec m k); [lia|reflexivity]. }
      apply G. lia.
Qed.
Theorem C15_independent : forall T fuel o offs0 (b : ebuf T) n L eps subs,
  eb_sample_episodes fuel o offs0 b n None = Ok eps ->
  Forall2 (fun s ep => block s ep /\ length s = Nat.min L (length ep)) subs eps ->
  exists offs, (forall j, randint_ok (offs j)) /\ eb_sample_episodes fuel o offs b n (Some L) = Ok subs.
Proof.
  intros T fuel o offs0 b n L eps subs E H. unfold eb_sample_episodes in *.
  destruct (passert (n <=? raq_len (episodic_memory b))); [|discriminate]. cbn [rbind] in *.
  destruct (raq_sample fuel o (episodic_memory b) (Z.of_nat n)) as [x|]; [|discriminate]. cbn [rbind] in *.
  injection E as ->. destruct (subseqs_any L eps subs 0 H) as (offs & Ho & Es). exists offs. now rewrite Es.
Qed.
Print Assumptions C15_independent.

Example C15_case : randint_ok (fun k => k - 1) /\ random_subseq (fun k => k - 1) [1; 2; 3; 4; 5] 3 = [3; 4; 5].
Proof. split; [intros k; lia|reflexivity]. Qed.
Example C15_case_episodes :
  (b0 <- eb_init false None ;;
   b <- eb_run b0 (map (fun n => RAppend 0 (mkTrans n ((n =? 3) || (n =? 5)))) [1; 2; 3; 4; 5]) ;;
   xs <- eb_sample_episodes 5 {| choice_norepl := [1; 0]; draw := fun _ => [] |} (fun _ _ => 0) b 2 (Some 2) ;;
   Ok (map (map payload) xs)) = Ok [[4; 5]; [1; 2]].
Proof. vm_compute. reflexivity. Qed.
