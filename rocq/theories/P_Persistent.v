From Verif Require Import Base P_Base M_RandomAccessQueue S_RandomAccessQueue P_RandomAccessQueue M_Batch M_Persistent S_Persistent.
From Coq Require Import ZifyBool ZifyNat.
Open Scope nat_scope.

(** ** Bytes *)
Lemma le_bytes_length n : forall z, length (le_bytes n z) = n.
Proof. induction n; intros; cbn [le_bytes length]; auto. Qed.
Lemma le_value_bytes n : forall z, (0 <= z < 256 ^ Z.of_nat n)%Z -> le_value (le_bytes n z) = z.
Proof.
  induction n; intros z Hz; cbn [le_bytes le_value].
  - cbn in Hz. lia.
  - rewrite IHn.
    + pose proof (Z.div_mod z 256). lia.
    + rewrite Nat2Z.inj_succ, Z.pow_succ_r in Hz by lia. split.
      * apply Z.div_pos; lia.
      * apply Z.div_lt_upper_bound; lia.
Qed.
Lemma pack_length r : length (pack_index r) = 32.
Proof. unfold pack_index. rewrite !app_length, !le_bytes_length. reflexivity. Qed.

Lemma skipn_app_exact {A} (a b : list A) n : length a = n -> skipn n (a ++ b) = b.
Proof. intros <-. rewrite skipn_app, skipn_all, Nat.sub_diag. reflexivity. Qed.
Lemma firstn_app_exact {A} (a b : list A) n : length a = n -> firstn n (a ++ b) = a.
Proof. intros <-. rewrite firstn_app, firstn_all, Nat.sub_diag. cbn. apply app_nil_r. Qed.

Lemma unpack_pack r :
  (0 <= i_off r < 2 ^ 64)%Z -> (0 <= i_len r < 2 ^ 64)%Z -> (0 <= i_crc r < 2 ^ 32)%Z ->
  i_off (unpack_index (pack_index r)) = i_off r /\ i_len (unpack_index (pack_index r)) = i_len r /\
  i_crc (unpack_index (pack_index r)) = i_crc r.
Proof.
  intros H1 H2 H3. unfold unpack_index, pack_index. cbn [i_off i_len i_crc].
  set (a := le_bytes 8 (i_gen r)). set (b := le_bytes 8 (i_off r)). set (c := le_bytes 8 (i_len r)).
  set (d := le_bytes 4 (i_crc r)). set (e := le_bytes 4 0).
  assert (La : length a = 8) by apply le_bytes_length. assert (Lb : length b = 8) by apply le_bytes_length.
  assert (Lc : length c = 8) by apply le_bytes_length. assert (Ld : length d = 4) by apply le_bytes_length.
  split; [|split].
  - rewrite (skipn_app_exact a) by auto. rewrite (firstn_app_exact b) by auto. apply le_value_bytes. exact H1.
  - rewrite (app_assoc a). rewrite (skipn_app_exact (a ++ b)) by (rewrite app_length; lia).
    rewrite (firstn_app_exact c) by auto. apply le_value_bytes. exact H2.
  - rewrite (app_assoc a), (app_assoc (a ++ b)). rewrite (skipn_app_exact ((a ++ b) ++ c)) by (rewrite !app_length; lia).
    rewrite (firstn_app_exact d) by auto. apply le_value_bytes. exact H3.
Qed.

(** ** Files *)
Lemma update_at_mid f : forall pre x post, update_at (pre ++ x :: post) (length pre) f = pre ++ f x :: post.
Proof. induction pre; intros; cbn [update_at app length]; [reflexivity|]. now rewrite IHpre. Qed.
Lemma update_at_end f : forall pre, update_at pre (length pre) f = pre ++ [f (None, None)].
Proof. induction pre; cbn [update_at app length]; [reflexivity|]. now rewrite IHpre. Qed.

Lemma apply_all_app a b s : apply_all (a ++ b) s = apply_all b (apply_all a s).
Proof. apply fold_left_app. Qed.

Lemma apply_wdat me dir pre i post : forall bytes d,
  apply_all (map (WDat (length pre)) bytes) (mkStore me dir (pre ++ (Some i, Some d) :: post)) =
  mkStore me dir (pre ++ (Some i, Some (d ++ bytes)) :: post).
Proof.
  induction bytes as [|b t IH]; intros d; cbn [map apply_all fold_left].
  - now rewrite app_nil_r.
  - cbn [apply_micro st_meta st_dir st_files]. rewrite update_at_mid. cbn [fst snd add_byte option_map].
    unfold apply_all in IH. rewrite IH. now rewrite <- app_assoc.
Qed.
Lemma apply_widx me dir pre d post : forall bytes i,
  apply_all (map (WIdx (length pre)) bytes) (mkStore me dir (pre ++ (Some i, d) :: post)) =
  mkStore me dir (pre ++ (Some (i ++ bytes), d) :: post).
Proof.
  induction bytes as [|b t IH]; intros i; cbn [map apply_all fold_left].
  - now rewrite app_nil_r.
  - cbn [apply_micro st_meta st_dir st_files]. rewrite update_at_mid. cbn [fst snd add_byte option_map].
    unfold apply_all in IH. rewrite IH. now rewrite <- app_assoc.
Qed.
Lemma apply_wmeta dir files : forall bytes m,
  apply_all (map WMeta bytes) (mkStore (Some m) dir files) = mkStore (Some (m ++ bytes)) dir files.
Proof.
  induction bytes as [|b t IH]; intros m; cbn [map apply_all fold_left].
  - now rewrite app_nil_r.
  - cbn [apply_micro st_meta st_dir st_files add_byte option_map]. unfold apply_all in IH. rewrite IH. now rewrite <- app_assoc.
Qed.

Section Proof.
Context {V : Type} (K : codec V) (HK : codec_ok K).
Section Anc.
Context (anc : option nat).

Definition dat (vs : list V) : list Z := concat (map (dumps K) vs).
Definition blen (vs : list V) : Z := Z.of_nat (length (dat vs)).
Fixpoint recs (g : nat) (off : Z) (vs : list V) : list Z :=
  match vs with
  | [] => []
  | v :: t => let len := Z.of_nat (length (dumps K v)) in
              pack_index (mkIrec (Z.of_nat g) off len (crc32 K (dumps K v))) ++ recs g (off + len)%Z t
  end.
Fixpoint recs_ok (off : Z) (vs : list V) : Prop :=
  match vs with [] => True | v :: t => (off <= chunksize K)%Z /\ recs_ok (off + Z.of_nat (length (dumps K v)))%Z t end.

Lemma dat_app a b : dat (a ++ b) = dat a ++ dat b.
Proof. unfold dat. now rewrite map_app, concat_app. Qed.
Lemma dat_one v : dat [v] = dumps K v.
Proof. unfold dat. cbn. apply app_nil_r. Qed.
Lemma blen_app a b : blen (a ++ b) = (blen a + blen b)%Z.
Proof. unfold blen. rewrite dat_app, app_length. lia. Qed.
Lemma blen_cons v t : blen (v :: t) = (Z.of_nat (length (dumps K v)) + blen t)%Z.
Proof. unfold blen, dat. cbn [map concat]. rewrite app_length. lia. Qed.
Lemma recs_app g : forall a b off, recs g off (a ++ b) = recs g off a ++ recs g (off + blen a)%Z b.
Proof.
  induction a as [|v t IH]; intros; cbn [recs app].
  - unfold blen; cbn. now rewrite Z.add_0_r.
  - rewrite IH, <- app_assoc, blen_cons. do 3 f_equal. lia.
Qed.
Lemma recs_ok_app : forall a b off, recs_ok off (a ++ b) <-> recs_ok off a /\ recs_ok (off + blen a)%Z b.
Proof.
  induction a as [|v t IH]; intros; cbn [recs_ok app].
  - unfold blen; cbn. rewrite Z.add_0_r. tauto.
  - rewrite IH, blen_cons. rewrite Z.add_assoc. tauto.
Qed.

Lemma parse_short fuel b : length b < 32 -> parse_index fuel b = [].
Proof.
  intros H. destruct fuel; cbn [parse_index]; [reflexivity|]. unfold index_format_size.
  rewrite firstn_length. replace (Nat.min 32 (length b) =? 32) with false by lia. reflexivity.
Qed.
Lemma parse_cons n r b : parse_index (S n) (pack_index r ++ b) = unpack_index (pack_index r) :: parse_index n b.
Proof.
  cbn [parse_index]. unfold index_format_size.
  rewrite (firstn_app_exact _ _ 32 (pack_length r)), (skipn_app_exact _ _ 32 (pack_length r)), pack_length. reflexivity.
Qed.
Lemma parse_length g pi : length pi < 32 -> forall vs off fuel, length vs <= fuel ->
  length (parse_index fuel (recs g off vs ++ pi)) = length vs.
Proof.
  intros Hp. induction vs as [|v t IH]; intros off fuel Hf; cbn [recs app].
  - now rewrite parse_short.
  - destruct fuel as [|n]; [cbn in Hf; lia|]. rewrite <- app_assoc, parse_cons. cbn [length] in *. rewrite IH; lia.
Qed.
Lemma recs_length g : forall vs off, length (recs g off vs) = 32 * length vs.
Proof. induction vs; intros; cbn [recs length]; [reflexivity|]. rewrite app_length, pack_length, IHvs. lia. Qed.

Lemma read_recs g pi pd : length pi < 32 -> forall vs pre fuel,
  recs_ok (blen pre) vs -> length vs <= fuel ->
  rmapM (read_item K (dat (pre ++ vs) ++ pd)) (parse_index fuel (recs g (blen pre) vs ++ pi)) = Ok vs.
Proof.
  intros Hp. induction vs as [|v t IH]; intros pre fuel Hr Hf; cbn [recs app].
  - now rewrite parse_short.
  - destruct fuel as [|n]; [cbn in Hf; lia|]. rewrite <- app_assoc, parse_cons. cbn [rmapM].
    destruct Hr as [Hr1 Hr2].
    pose proof (k_len K HK v) as Hl. pose proof (k_crc K HK (dumps K v)) as Hc. pose proof (k_chunk K HK) as Hch.
    destruct (unpack_pack (mkIrec (Z.of_nat g) (blen pre) (Z.of_nat (length (dumps K v))) (crc32 K (dumps K v)))) as (E1 & E2 & E3);
      cbn [i_off i_len i_crc] in *; [unfold blen in *; lia|lia|lia|].
    unfold read_item at 1. rewrite E1, E2, E3. rewrite Nat2Z.id.
    replace (Z.to_nat (blen pre)) with (length (dat pre)) by (unfold blen; lia).
    rewrite dat_app, <- app_assoc. rewrite !(skipn_app_exact (dat pre)) by reflexivity.
    replace (dat (v :: t)) with (dumps K v ++ dat t) by reflexivity. rewrite <- app_assoc.
    rewrite !(firstn_app_exact (dumps K v)) by reflexivity.
    rewrite Z.eqb_refl. cbn [passert rbind]. rewrite (k_loads K HK). cbn [rbind].
    specialize (IH (pre ++ [v]) n).
    assert (Eb : blen (pre ++ [v]) = (blen pre + Z.of_nat (length (dumps K v)))%Z)
      by (rewrite blen_app; f_equal; unfold blen; now rewrite dat_one).
    rewrite Eb in IH. rewrite !dat_app, dat_one in IH.
    rewrite <- !app_assoc in IH. rewrite IH; [reflexivity|exact Hr2|cbn in Hf; lia].
Qed.

(** ** Directory invariant *)
Definition chunk_ok (vs : list V) (f : chunkfile) : Prop :=
  exists g pi pd, f = (Some (recs g 0 vs ++ pi), Some (dat vs ++ pd)) /\ length pi < 32 /\ recs_ok 0 vs.
Definition tail_ok (t : list chunkfile) : Prop := t = [] \/ t = [(Some [], None)].
Definition files_ok (files : list chunkfile) (past : list V) : Prop :=
  exists chunks full tl, files = full ++ tl /\ Forall2 chunk_ok chunks full /\ tail_ok tl /\ past = concat chunks.
Definition meta_ok (st : store) : Prop := exists b m, st_meta st = Some b /\ loads_meta K b = Ok m /\ m_comm_size m = 1 /\ m_ancestor m = anc.
Definition Inv (st : store) (past : list V) : Prop :=
  (meta_ok st \/ (st_meta st = None /\ st_dir st = false)) /\ (st_dir st = false -> st_files st = []) /\ files_ok (st_files st) past.

Definition entry_ok (vs : list V) (e : nat * nat * (list Z * list Z)) : Prop :=
  snd (fst e) = length vs /\ read_chunk K (fst (snd e)) (snd (snd e)) = Ok vs.
Lemma count_all_ok tl : tail_ok tl -> forall chunks full g, Forall2 chunk_ok chunks full ->
  Forall2 entry_ok chunks (count_all_chunks g (full ++ tl)) /\
  map (fun c => fst (fst c)) (count_all_chunks g (full ++ tl)) = seq g (length chunks).
Proof.
  intros Ht. induction chunks as [|vs t IH]; intros full g H.
  - inversion H; subst. cbn [app length seq]. destruct Ht as [->| ->]; cbn; auto.
  - destruct full as [|f full]; [inversion H|].
    assert (Hf : chunk_ok vs f) by (inversion H; auto). assert (Hr : Forall2 chunk_ok t full) by (inversion H; auto).
    destruct Hf as (g0 & pi & pd & -> & Hp & Hok). cbn [app count_all_chunks].
    destruct (IH full (S g) Hr) as [A B]. split.
    + constructor; [|exact A]. split; cbn [fst snd].
      * unfold read_chunk_index. rewrite parse_length; auto. rewrite app_length, recs_length. lia.
      * unfold read_chunk, read_chunk_index. apply (read_recs g0 pi pd Hp vs []); auto.
        rewrite app_length, recs_length. lia.
    + cbn [map fst length seq]. now rewrite B.
Qed.

Lemma select_prefix m : forall l remain,
  exists j, j <= length l /\ select_chunks (Some m) remain l = firstn j l /\
    (j = length l \/ (remain <= Z.of_nat (list_sum (map (fun c => snd (fst c)) (firstn j l))))%Z) /\
    ((0 < remain)%Z -> l <> [] -> 0 < j).
Proof.
  induction l as [|[[g c] f] t IH]; intros remain; cbn [select_chunks].
  - exists 0. cbn. split; [auto|]. split; [auto|]. split; [auto|congruence].
  - destruct (0 <? remain)%Z eqn:E.
    + destruct (IH (remain - Z.of_nat c)%Z) as (j & Hj & Es & Hor & _). exists (S j). cbn [length firstn map list_sum fst snd].
      rewrite Es. split; [lia|]. split; [reflexivity|]. split; [|lia].
      destruct Hor as [->|Hor]; [now left|right]. change (list_sum (c :: map (fun c0 => snd (fst c0)) (firstn j t))) with (c + list_sum (map (fun c0 : nat * nat * (list Z * list Z) => snd (fst c0)) (firstn j t))). lia.
    + exists 0. cbn. split; [lia|]. split; [reflexivity|]. split; [right; lia|lia].
Qed.
Lemma select_none l r : select_chunks None r l = l.
Proof. induction l as [|[[g c] f] t IH]; cbn; [reflexivity|]. now rewrite IH. Qed.

Lemma rmapM_entries : forall chunks es, Forall2 entry_ok chunks es ->
  rmapM (fun c : nat * nat * (list Z * list Z) => read_chunk K (fst (snd c)) (snd (snd c))) es = Ok chunks.
Proof. induction 1 as [|vs e t es [_ H] _ IH]; cbn; [reflexivity|]. rewrite H. cbn. now rewrite IH. Qed.

Lemma Forall2_skipn {A B} (P : A -> B -> Prop) : forall l l' n, Forall2 P l l' -> Forall2 P (skipn n l) (skipn n l').
Proof. intros l l' n H. revert n. induction H; intros [|n]; cbn; auto. Qed.
Lemma rev_firstn_rev {A} (l : list A) j : rev (firstn j (rev l)) = skipn (length l - j) l.
Proof. rewrite firstn_rev, rev_involutive. reflexivity. Qed.
Lemma skipn_map' {A B} (f : A -> B) : forall n l, map f (skipn n l) = skipn n (map f l).
Proof. induction n; intros [|a l]; cbn; auto. Qed.
Lemma skipn_seq' : forall n k len, skipn n (seq k len) = seq (k + n) (len - n).
Proof.
  induction n; intros k len; cbn [skipn]; [rewrite Nat.add_0_r, Nat.sub_0_r; reflexivity|].
  destruct len; cbn [seq]; [reflexivity|]. rewrite IHn. f_equal; lia.
Qed.
Lemma list_max_seq k n : 0 < n -> list_max (seq k n) = k + n - 1.
Proof.
  intros H. revert k. induction n as [|n IH]; [lia|]. intros k. cbn [seq].
  change (list_max (k :: seq (S k) n)) with (Nat.max k (list_max (seq (S k) n))).
  destruct n; [cbn; lia|]. rewrite IH; lia.
Qed.
Lemma entry_counts : forall chunks es, Forall2 entry_ok chunks es ->
  list_sum (map (fun c => snd (fst c)) es) = length (concat chunks).
Proof.
  induction 1 as [|vs e t es [H _] _ IH]; cbn [map concat]; [reflexivity|].
  rewrite app_length, <- IH, <- H. reflexivity.
Qed.

Lemma read_chunks_ok chunks full tl maxlen :
  Forall2 chunk_ok chunks full -> tail_ok tl -> check_maxlen maxlen = true ->
  exists ds, read_chunks K maxlen (full ++ tl) = Ok (ds, length chunks) /\
    (exists n, ds = skipn n chunks) /\
    forall pre, trunc maxlen (pre ++ concat ds) = trunc maxlen (pre ++ concat chunks).
Proof.
  intros Hc Ht Hm. unfold read_chunks.
  destruct (count_all_ok tl Ht chunks full 0 Hc) as [He Hg].
  set (es := count_all_chunks 0 (full ++ tl)) in *.
  pose proof (Forall2_len _ _ _ He) as Hl.
  destruct maxlen as [m|].
  - destruct (select_prefix m (rev es) (Z.of_nat m)) as (j & Hj & -> & Hor & Hpos).
    rewrite rev_firstn_rev. set (n := length es - j).
    rewrite rev_length in Hj, Hor.
    pose proof (Forall2_skipn _ _ _ n He) as He'.
    rewrite (rmapM_entries _ _ He'). cbn [rbind]. exists (skipn n chunks). split; [|split; [eauto|]].
    + f_equal. f_equal. destruct (skipn n es) eqn:E.
      * destruct chunks as [|c0 ch]; [reflexivity|]. exfalso.
        assert (Hz : length (skipn n es) = 0) by now rewrite E. rewrite skipn_length in Hz.
        cbn [check_maxlen] in Hm. assert (rev es <> []). { intros E0. apply (f_equal (@length _)) in E0. rewrite rev_length in E0. cbn in *. lia. }
        specialize (Hpos ltac:(lia) H). cbn [length] in Hl. lia.
      * rewrite <- E. rewrite skipn_map', Hg, skipn_seq'.
        assert (Hz : length (skipn n es) <> 0) by (rewrite E; cbn; lia). rewrite skipn_length in Hz.
        rewrite list_max_seq; lia.
    + intros pre. destruct Hor as [Hall|Hs].
      * assert (n = 0) as -> by lia. reflexivity.
      * rewrite firstn_rev, map_rev in Hs.
        assert (Hs' : m <= length (concat (skipn n chunks))).
        { rewrite <- (entry_counts _ _ He'). unfold n.
          assert (Er : forall l, list_sum (rev l) = list_sum l).
          { induction l as [|a l IH]; [reflexivity|]. cbn [rev]. rewrite list_sum_app, IH. change (list_sum l + (a + 0) = a + list_sum l). lia. }
          rewrite Er in Hs. lia. }
        rewrite <- (firstn_skipn n chunks) at 2. rewrite concat_app. cbn [trunc].
        rewrite (app_assoc pre). unfold lastn. rewrite !app_length.
        rewrite !skipn_app, !app_length.
        rewrite (skipn_all2 (n := length pre + length (concat (skipn n chunks)) - m) pre) by lia.
        rewrite (skipn_all2 (n := length pre + length (concat (firstn n chunks)) + length (concat (skipn n chunks)) - m) pre) by lia.
        rewrite (skipn_all2 (concat (firstn n chunks))) by lia.
        cbn [app]. f_equal. lia.
  - rewrite select_none, rev_involutive. rewrite (rmapM_entries _ _ He). cbn [rbind]. exists chunks. split; [|split; [exists 0; reflexivity|reflexivity]].
    f_equal. f_equal. rewrite Hg. destruct es eqn:E; [destruct chunks; [reflexivity|inversion He]|].
    rewrite list_max_seq; cbn [length] in *; lia.
Qed.

Lemma extend_all_spec : forall (ds : list (list V)) (q : raq V), raq_iter q = trunc (maxlen q) (raq_iter q) ->
  exists q', extend_all q ds = Ok q' /\ raq_iter q' = trunc (maxlen q) (raq_iter q ++ concat ds) /\ maxlen q' = maxlen q.
Proof.
  induction ds as [|xs t IH]; intros q Hq; cbn [extend_all concat].
  - exists q. rewrite app_nil_r. auto.
  - destruct (raq_extend_spec q xs) as (q1 & E1 & I1 & M1). rewrite E1. cbn [rbind].
    destruct (IH q1) as (q2 & E2 & I2 & M2).
    { rewrite M1, I1. now rewrite trunc_idem. }
    exists q2. rewrite E2, I2, M2, M1, I1. rewrite trunc_trunc_app, <- app_assoc. auto.
Qed.

(** ** The state while a session is appending *)
Definition mid (st : store) (q : @pq V) (past : list V) : Prop :=
  meta_ok st /\ st_dir st = true /\
  exists (chunks : list (list V)) (full : list chunkfile) (cur : list V),
    st_files st = full ++ [(Some (recs (length full) 0 cur), Some (dat cur))] /\
    Forall2 chunk_ok chunks full /\ past = concat chunks ++ cur /\ recs_ok 0 cur /\
    q_gen q = S (length full) /\
    q_tail q = mkW (length full) (blen cur) (chunksize K <? blen cur)%Z.

Lemma chunk_exact g cur : recs_ok 0 cur -> chunk_ok cur (Some (recs g 0 cur), Some (dat cur)).
Proof. intros H. exists g, [], []. rewrite !app_nil_r. cbn. split; [reflexivity|]. split; [lia|exact H]. Qed.

Lemma mid_inv st q past : mid st q past -> Inv st past.
Proof.
  intros (Hm & Hd & chunks & full & cur & Hf & Hc & Hp & Hr & _ & _).
  split; [auto|]. split; [congruence|]. exists (chunks ++ [cur]), (st_files st), []. rewrite app_nil_r. split; [reflexivity|].
  split; [|split; [now left|]].
  - rewrite Hf. apply Forall2_app; [exact Hc|]. constructor; [|constructor]. now apply chunk_exact.
  - rewrite concat_app. cbn. now rewrite app_nil_r.
Qed.

Lemma new_writer_ok gen : new_writer K gen = Ok (mkW gen 0 false, [CIdx gen; CDat gen]).
Proof.
  unfold new_writer. pose proof (k_chunk K HK). replace (0 <? chunksize K)%Z with true by lia. cbn.
  now replace (chunksize K <? 0)%Z with false by lia.
Qed.

(** Creating a new pair of files at the end. *)
Lemma create_pair me dir (full : list chunkfile) tl : tail_ok tl -> forall k,
  apply_all (firstn k [CIdx (length full); CDat (length full)]) (mkStore me dir (full ++ tl)) =
  mkStore me dir (match k with 0 => full ++ tl | 1 => full ++ [(Some [], None)] | _ => full ++ [(Some [], Some [])] end).
Proof.
  intros Ht k.
  assert (E1 : update_at (full ++ tl) (length full) (fun x => (Some [], snd x)) = full ++ [(Some [], None)]).
  { destruct Ht as [->| ->]; [rewrite app_nil_r; apply update_at_end|apply update_at_mid]. }
  destruct k as [|[|k]]; cbn [firstn apply_all fold_left apply_micro st_meta st_dir st_files].
  - reflexivity.
  - now rewrite E1.
  - rewrite firstn_nil. cbn [fold_left]. rewrite E1, update_at_mid. reflexivity.
Qed.

(** Writing one item in a chunk that is not full, cut anywhere. *)
Lemma write_prefix me (full : list chunkfile) cur v k :
  (blen cur <= chunksize K)%Z -> recs_ok 0 cur ->
  let tr := map (WDat (length full)) (dumps K v) ++
            map (WIdx (length full)) (pack_index (mkIrec (Z.of_nat (length full)) (blen cur) (Z.of_nat (length (dumps K v))) (crc32 K (dumps K v)))) in
  let st := mkStore me true (full ++ [(Some (recs (length full) 0 cur), Some (dat cur))]) in
  exists f, apply_all (firstn k tr) st = mkStore me true (full ++ [f]) /\
    (k < length tr -> chunk_ok cur f) /\
    (length tr <= k -> f = (Some (recs (length full) 0 (cur ++ [v])), Some (dat (cur ++ [v])))).
Proof.
  intros Hb Hr tr st. set (pk := pack_index _) in *.
  assert (Lp : length pk = 32) by apply pack_length.
  unfold tr. rewrite firstn_app, apply_all_app. rewrite !firstn_map, map_length. unfold st. rewrite apply_wdat, apply_widx.
  eexists. split; [reflexivity|]. rewrite app_length, !map_length, Lp. split; intros Hk.
  - exists (length full), (firstn (k - length (dumps K v)) pk), (firstn k (dumps K v)). split; [reflexivity|]. split; [|exact Hr].
    rewrite firstn_length, Lp. lia.
  - rewrite !firstn_all2 by lia. rewrite recs_app, dat_app, dat_one. cbn [recs]. rewrite app_nil_r. reflexivity.
Qed.

Lemma append_ok st q past v :
  mid st q past -> raq_iter (q_buf q) = trunc (maxlen (q_buf q)) (raq_iter (q_buf q)) ->
  exists q' tr, pq_append K q v = Ok (q', tr) /\ 0 < length tr /\
    raq_iter (q_buf q') = trunc (maxlen (q_buf q)) (raq_iter (q_buf q) ++ [v]) /\ maxlen (q_buf q') = maxlen (q_buf q) /\
    mid (apply_all tr st) q' (past ++ [v]) /\
    (forall k, k < length tr -> Inv (apply_all (firstn k tr) st) past).
Proof.
  intros Hmid Hq. pose proof (mid_inv _ _ _ Hmid) as Hinv.
  destruct Hmid as (Hm & Hd & chunks & full & cur & Hf & Hc & Hp & Hr & Hg & Hw).
  unfold pq_append. rewrite Hw, Hg. cbn [w_full].
  destruct (raq_append_spec (q_buf q) v Hq) as (b & Eb & Ib & Mb).
  destruct st as [me dir files]. cbn [st_dir st_files] in *. subst dir files.
  destruct (chunksize K <? blen cur)%Z eqn:Efull.
  - (* rotation *)
    rewrite new_writer_ok. cbn [rbind]. unfold writer_append. cbn [w_full w_gen w_off]. cbn [rbind]. rewrite Eb. cbn [rbind].
    set (files := full ++ [(Some (recs (length full) 0 cur), Some (dat cur))]) in *.
    assert (Lf : S (@length chunkfile full) = @length chunkfile files) by (unfold files; rewrite (@app_length chunkfile); cbn [length]; lia).
    rewrite Lf.
    pose proof (write_prefix me files [] v) as Hwp. cbn zeta in Hwp.
    replace (blen (@nil V)) with 0%Z in Hwp by reflexivity. cbn [recs dat map concat] in Hwp.
    change (dat (@nil V)) with (@nil Z) in Hwp.
    pose proof (k_chunk K HK) as Hch.
    set (tr := map (WDat (length files)) (dumps K v) ++ _) in *.
    assert (Hc' : Forall2 chunk_ok (chunks ++ [cur]) files).
    { unfold files. apply Forall2_app; [exact Hc|]. constructor; [|constructor]. now apply chunk_exact. }
    assert (Hp' : past = concat (chunks ++ [cur])) by (rewrite concat_app; cbn; now rewrite app_nil_r).
    pose proof (create_pair me true files [] (or_introl eq_refl)) as Hcp. rewrite app_nil_r in Hcp.
    eexists _, ([CIdx (length files); CDat (length files)] ++ tr). split; [reflexivity|]. split; [cbn; lia|].
    cbn [q_buf]. split; [exact Ib|]. split; [exact Mb|]. split.
    + rewrite apply_all_app. specialize (Hcp 2). cbn [firstn] in Hcp. rewrite Hcp.
      destruct (Hwp (length tr)) as (f & Ef & _ & Hfull); [lia|exact I|]. rewrite firstn_all in Ef. rewrite Ef.
      rewrite (Hfull (le_n _)). split; [|split; [reflexivity|]].
      * destruct Hm as (b0 & m0 & A & B). exists b0, m0. exact (conj A B).
      * exists (chunks ++ [cur]), files, [v]. cbn [st_files q_gen q_tail app].
        split; [reflexivity|]. split; [exact Hc'|]. split; [now rewrite Hp'|]. split; [cbn; lia|]. split; [lia|].
        replace (blen [v]) with (0 + Z.of_nat (length (dumps K v)))%Z by (unfold blen; now rewrite dat_one). reflexivity.
    + intros k Hk. rewrite firstn_app, apply_all_app, Hcp. cbn [length] in *.
      rewrite app_length in Hk. cbn [length] in Hk.
      assert (HI : forall fs, files_ok fs past -> Inv (mkStore me true fs) past).
      { intros fs Hfs. split; [left|]. { destruct Hm as (b0 & m0 & A & B). exists b0, m0. exact (conj A B). }
        cbn [st_dir st_files]. split; [congruence|exact Hfs]. }
      destruct k as [|[|k]].
      * cbn [Nat.sub firstn apply_all fold_left]. apply HI. exists (chunks ++ [cur]), files, []. rewrite app_nil_r.
        repeat split; auto. now left.
      * cbn [Nat.sub firstn apply_all fold_left]. apply HI. exists (chunks ++ [cur]), files, [(Some [], None)].
        repeat split; auto. now right.
      * replace (S (S k) - 2) with k by lia.
        destruct (Hwp k) as (f & Ef & Hpart & _); [lia|exact I|]. rewrite Ef. apply HI.
        exists ((chunks ++ [cur]) ++ [[]]), (files ++ [f]), []. rewrite app_nil_r. split; [reflexivity|]. split; [|split; [now left|]].
        -- apply Forall2_app; [exact Hc'|]. constructor; [|constructor]. apply Hpart. lia.
        -- rewrite concat_app. cbn. now rewrite app_nil_r.
  - cbn [rbind]. unfold writer_append. cbn [w_full w_gen w_off]. cbn [rbind]. rewrite Eb. cbn [rbind].
    pose proof (write_prefix me full cur v) as Hwp. cbn zeta in Hwp.
    set (tr := map (WDat (length full)) (dumps K v) ++ _) in *.
    assert (Ltr : 0 < length tr). { unfold tr. rewrite app_length, !map_length, pack_length. lia. }
    eexists _, ([] ++ tr). split; [reflexivity|]. cbn [app]. split; [exact Ltr|].
    cbn [q_buf]. split; [exact Ib|]. split; [exact Mb|]. split.
    + destruct (Hwp (length tr)) as (f & Ef & _ & Hfull); [lia|exact Hr|]. rewrite firstn_all in Ef. rewrite Ef.
      rewrite (Hfull (le_n _)). split; [|split; [reflexivity|]].
      * destruct Hm as (b0 & m0 & A & B). exists b0, m0. exact (conj A B).
      * exists chunks, full, (cur ++ [v]). cbn [st_files q_gen q_tail].
        split; [reflexivity|]. split; [exact Hc|]. split; [rewrite Hp; now rewrite app_assoc|].
        split; [apply recs_ok_app; split; [exact Hr|]; cbn; lia|]. split; [reflexivity|].
        rewrite blen_app. replace (blen [v]) with (Z.of_nat (length (dumps K v))) by (unfold blen; now rewrite dat_one). reflexivity.
    + intros k Hk.
      destruct (Hwp k) as (f & Ef & Hpart & _); [lia|exact Hr|]. rewrite Ef.
      split; [left|]. { destruct Hm as (b0 & m0 & A & B). exists b0, m0. exact (conj A B). }
      cbn [st_dir st_files]. split; [congruence|]. exists (chunks ++ [cur]), (full ++ [f]), []. rewrite app_nil_r. split; [reflexivity|].
      split; [|split; [now left|]].
      * apply Forall2_app; [exact Hc|]. constructor; [|constructor]. apply Hpart. lia.
      * rewrite concat_app. cbn. now rewrite app_nil_r.
Qed.

Lemma appends_ok : forall items st q past,
  mid st q past -> raq_iter (q_buf q) = trunc (maxlen (q_buf q)) (raq_iter (q_buf q)) ->
  exists q' trs, pq_appends K q items = Ok (q', trs) /\
    raq_iter (q_buf q') = trunc (maxlen (q_buf q)) (raq_iter (q_buf q) ++ items) /\
    forall k, Inv (apply_all (firstn k (concat trs)) st) (past ++ completed k items trs).
Proof.
  induction items as [|v t IH]; intros st q past Hmid Hq; cbn [pq_appends].
  - exists q, []. rewrite app_nil_r. split; [reflexivity|]. split; [exact Hq|].
    intros k. cbn [concat completed]. rewrite firstn_nil, app_nil_r. cbn. eapply mid_inv; eauto.
  - destruct (append_ok st q past v Hmid Hq) as (q1 & tr & E1 & Lt & I1 & M1 & Hmid1 & Hcut).
    rewrite E1. cbn [rbind].
    destruct (IH (apply_all tr st) q1 (past ++ [v]) Hmid1) as (q2 & trs & E2 & I2 & Hk).
    { rewrite M1, I1. now rewrite trunc_idem. }
    rewrite E2. cbn [rbind]. exists q2, (tr :: trs). split; [reflexivity|]. split.
    + rewrite I2, M1, I1, trunc_trunc_app, <- app_assoc. reflexivity.
    + intros k. cbn [concat completed]. rewrite firstn_app, apply_all_app.
      destruct (length tr <=? k) eqn:Ek.
      * rewrite (firstn_all2 tr) by lia. specialize (Hk (k - length tr)). rewrite <- app_assoc in Hk. exact Hk.
      * replace (k - length tr) with 0 by lia. cbn [firstn apply_all fold_left]. rewrite app_nil_r. apply Hcut. lia.
Qed.

Lemma open_from_ok st past buf ml :
  Inv st past -> check_maxlen ml = true -> maxlen buf = ml -> raq_iter buf = trunc ml (raq_iter buf) ->
  exists q tr, pq_open_from K buf st ml anc = Ok (q, tr) /\
    raq_iter (q_buf q) = trunc ml (raq_iter buf ++ past) /\ maxlen (q_buf q) = ml /\
    mid (apply_all tr st) q past /\
    forall k, (k = 0 \/ st_meta st <> None \/ length (dumps_meta K (mkMeta ml 1 anc)) < k) -> k < length tr ->
      Inv (apply_all (firstn k tr) st) past.
Proof.
  intros (Hm & Hd & chunks & full & tl & Hf & Hc & Ht & Hp) Hml Hmb Hb.
  unfold pq_open_from.
  set (dm := dumps_meta K (mkMeta ml 1 anc)).
  (* the meta part *)
  assert (Hmeta : exists m trm, load_meta K st ml anc = Ok (m, trm) /\
    (st_meta st = None -> trm = CMeta :: map WMeta dm) /\
    (st_meta st <> None -> trm = []) /\
    exists b, loads_meta K b = Ok m /\ (m_comm_size m = 1 /\ m_ancestor m = anc) /\ apply_all trm st = mkStore (Some b) (st_dir st) (st_files st)).
  { unfold load_meta. destruct Hm as [(b & m & E1 & E2 & E3 & E4)|[E1 E2]].
    - rewrite E1, E2. cbn [rbind]. rewrite E3. cbn [Nat.eqb passert rbind]. eexists _, _. split; [reflexivity|].
      split; [congruence|]. split; [auto|]. exists b. split; [auto|]. split; [auto|]. destruct st; cbn in *. now subst.
    - rewrite E1. eexists _, _. split; [reflexivity|]. split; [auto|]. split; [congruence|].
      exists dm. split; [apply (k_meta K HK)|]. split; [split; reflexivity|].
      cbn [apply_all fold_left apply_micro]. change (apply_all (map WMeta dm) (mkStore (Some []) (st_dir st) (st_files st)) = mkStore (Some dm) (st_dir st) (st_files st)).
      rewrite apply_wmeta. reflexivity. }
  destruct Hmeta as (m & trm & El & Hnone & Hsome & b & Eb & Ecs & Ea). rewrite El. cbn [rbind].
  (* the data part *)
  assert (Hdat : exists buf' trd,
    (if st_dir st then '(ds, gen) <- read_chunks K ml (st_files st);; b0 <- extend_all buf ds;; Ok (b0, gen, [])
     else Ok (buf, 0, [MkDir])) = Ok (buf', length chunks, trd) /\
    raq_iter buf' = trunc ml (raq_iter buf ++ past) /\ maxlen buf' = ml /\
    (st_dir st = true -> trd = []) /\ (st_dir st = false -> trd = [MkDir] /\ chunks = [])).
  { destruct (st_dir st) eqn:Edir.
    - rewrite Hf. destruct (read_chunks_ok chunks full tl ml Hc Ht Hml) as (ds & Er & _ & Hds). rewrite Er. cbn [rbind].
      destruct (extend_all_spec ds buf) as (b' & E' & I' & M'); [congruence|]. rewrite E'. cbn [rbind].
      eexists _, _. split; [reflexivity|]. rewrite I', Hmb, Hds, Hp. split; [reflexivity|]. split; [congruence|]. split; [auto|congruence].
    - specialize (Hd eq_refl). rewrite Hd in Hf. symmetry in Hf. apply app_eq_nil in Hf. destruct Hf as [-> ->].
      inversion Hc; subst. eexists _, _. split; [reflexivity|]. cbn [concat]. rewrite app_nil_r. split; [exact Hb|].
      split; [auto|]. split; [congruence|auto]. }
  destruct Hdat as (buf' & trd & -> & Ib & Mb & Ht1 & Ht2). cbn [rbind]. rewrite new_writer_ok. cbn [rbind].
  eexists _, _. split; [reflexivity|]. cbn [q_buf]. split; [exact Ib|]. split; [exact Mb|].
  assert (Lc : length chunks = length full) by (eapply Forall2_len; eauto).
  assert (Hdir : forall k, apply_all (firstn k trd) (mkStore (Some b) (st_dir st) (st_files st)) =
     mkStore (Some b) (if length trd <=? k then true else st_dir st) (st_files st)).
  { intros k. destruct (st_dir st) eqn:Edir.
    - rewrite (Ht1 eq_refl). rewrite firstn_nil. cbn. reflexivity.
    - destruct (Ht2 eq_refl) as [-> _]. destruct k; [reflexivity|]. cbn [firstn]. rewrite firstn_nil. reflexivity. }
  rewrite Lc.
  assert (Hok : meta_ok (mkStore (Some b) true (st_files st))) by (exists b, m; auto).
  split.
  - rewrite !apply_all_app, Ea. pose proof (Hdir (length trd)) as Hd'. rewrite firstn_all, Nat.leb_refl in Hd'. rewrite Hd'.
    rewrite Hf. pose proof (create_pair (Some b) true full tl Ht 2) as Hcp. cbn [firstn] in Hcp. rewrite Hcp.
    split; [exists b, m; auto|]. split; [reflexivity|]. exists chunks, full, []. cbn [st_files q_gen q_tail].
    split; [reflexivity|]. split; [exact Hc|]. split; [now rewrite app_nil_r|]. split; [exact I|]. split; [auto|].
    pose proof (k_chunk K HK). unfold blen. cbn. now replace (chunksize K <? 0)%Z with false by lia.
  - intros k Hk Hkl. rewrite !firstn_app, !apply_all_app.
    destruct (st_meta st) as [b0|] eqn:Em.
    + rewrite (Hsome ltac:(discriminate)) in *. rewrite firstn_nil. cbn [apply_all fold_left length] in *. rewrite Nat.sub_0_r.
      assert (Ea' : st = mkStore (Some b) (st_dir st) (st_files st)) by exact Ea.
      rewrite Ea'. fold (apply_all (firstn k trd) (mkStore (Some b) (st_dir st) (st_files st))). rewrite Hdir.
      cbn [st_dir st_files] in *.
      fold (apply_all (firstn (k - length trd) [CIdx (length full); CDat (length full)]) (mkStore (Some b) (if length trd <=? k then true else st_dir st) (st_files st))).
      rewrite Hf. rewrite (create_pair _ _ _ _ Ht).
      split; [left; exists b, m; auto|]. cbn [st_dir st_files]. split.
      * destruct (length trd <=? k) eqn:Ek; [congruence|]. intros Edir. destruct (Ht2 Edir) as [-> Ech].
        cbn [length] in *. replace (k - 1) with 0 by lia. rewrite <- Hf. apply Hd; auto.
      * destruct (k - length trd) as [|[|k']].
        -- exists chunks, full, tl. auto.
        -- exists chunks, full, [(Some [], None)]. repeat split; auto. now right.
        -- exists (chunks ++ [[]]), (full ++ [(Some [], Some [])]), []. rewrite app_nil_r. split; [reflexivity|].
           split; [|split; [now left|]].
           ++ apply Forall2_app; [exact Hc|]. constructor; [|constructor]. exact (chunk_exact 0 [] I).
           ++ rewrite concat_app. cbn. rewrite app_nil_r. exact Hp.
    + destruct Hk as [->|[Hk|Hk]]; [|congruence|].
      * rewrite firstn_O. cbn [Nat.sub]. rewrite !firstn_O. cbn [apply_all fold_left].
        split; [rewrite Em; exact Hm|]. split; [exact Hd|]. exists chunks, full, tl. auto.
      * rewrite (Hnone eq_refl) in *. fold dm in Hk.
        rewrite (firstn_all2 (n := k)) by (cbn [length]; rewrite map_length; lia). rewrite Ea.
        set (k1 := k - length (CMeta :: map WMeta dm)) in *. rewrite Hdir, Hf, (create_pair _ _ _ _ Ht).
        split; [left; exists b, m; auto|]. cbn [st_dir st_files].
        assert (Edir : st_dir st = false). { destruct Hm as [(x & y & E & _)|[_ E]]; [congruence|exact E]. }
        destruct (Ht2 Edir) as [Htrd Ech]. split.
        -- destruct (length trd <=? k1) eqn:Ek; [congruence|]. intros _.
           rewrite Htrd in *. cbn [length] in *. replace (k1 - 1) with 0 by lia. rewrite <- Hf. auto.
        -- destruct (k1 - length trd) as [|[|k']].
           ++ exists chunks, full, tl. auto.
           ++ exists chunks, full, [(Some [], None)]. repeat split; auto. now right.
           ++ exists (chunks ++ [[]]), (full ++ [(Some [], Some [])]), []. rewrite app_nil_r. split; [reflexivity|].
              split; [|split; [now left|]].
              ** apply Forall2_app; [exact Hc|]. constructor; [|constructor]. exact (chunk_exact 0 [] I).
              ** rewrite concat_app. cbn. rewrite app_nil_r. exact Hp.
Qed.

Lemma load_ancestor_raq : forall fuel dk p need (buf : raq V) buf' m,
  load_ancestor K fuel dk p need buf = Ok (buf', m) -> raq_iter buf = trunc (maxlen buf) (raq_iter buf) ->
  maxlen buf' = maxlen buf /\ raq_iter buf' = trunc (maxlen buf) (raq_iter buf').
Proof.
  induction fuel as [|n IH]; intros dk p need buf buf' m H Hb; cbn [load_ancestor] in H; [discriminate|].
  destruct (nth_error dk p) as [st|]; [|discriminate]. destruct (st_meta st) as [bs|]; [|discriminate].
  destruct (loads_meta K bs) as [mm|e]; [|discriminate]. cbn [rbind] in H.
  destruct need as [need|]; [|discriminate].
  match type of H with rbind ?e _ = _ => destruct e as [buf1|e1] eqn:E1 end; [|discriminate]. cbn [rbind] in H.
  assert (H1 : maxlen buf1 = maxlen buf /\ raq_iter buf1 = trunc (maxlen buf) (raq_iter buf1)).
  { destruct (m_ancestor mm) as [a|]; [|injection E1 as <-; auto].
    destruct (_ <? _)%Z; [|injection E1 as <-; auto].
    destruct (load_ancestor K n dk a _ buf) as [[b2 m2]|e] eqn:E2; [|discriminate]. cbn [rbind] in E1. injection E1 as <-.
    eapply IH; eauto. }
  destruct (_ <=? 0)%Z; [injection H as <- _; exact H1|].
  destruct (read_chunks K _ _) as [[ds g]|e]; [|discriminate]. cbn [rbind] in H.
  destruct (raq_extend_spec buf1 (concat ds)) as (b2 & E2 & I2 & M2). rewrite E2 in H. cbn [rbind] in H. injection H as <- _.
  destruct H1 as [Ha _]. rewrite M2, I2, Ha. split; [reflexivity|]. now rewrite trunc_idem.
Qed.

Lemma opens_from st ml q tr : opens K anc st ml q tr ->
  exists buf, pq_open_from K buf st ml anc = Ok (q, tr) /\ check_maxlen ml = true /\ maxlen buf = ml /\ raq_iter buf = trunc ml (raq_iter buf).
Proof.
  unfold opens. destruct anc as [a|].
  - intros (fuel & dk & H). unfold pq_open_ancestor in H. destruct (check_maxlen ml); [|discriminate]. cbn [passert rbind] in H.
    destruct (load_ancestor _ _ _ _ _ _) as [[buf m]|e] eqn:E; [|discriminate]. cbn [rbind] in H.
    exists buf. split; [exact H|]. split; [reflexivity|].
    apply load_ancestor_raq in E; cbn in *; [exact E|]. destruct ml; reflexivity.
  - intros H. unfold pq_open in H. destruct (check_maxlen ml); [|discriminate]. cbn [passert rbind] in H.
    exists (mkRaq ml [] []). split; [exact H|]. split; [reflexivity|]. split; [reflexivity|]. cbn. destruct ml; reflexivity.
Qed.

Lemma inv_empty : Inv empty_store [].
Proof. split; [right; auto|]. split; [auto|]. exists [], [], []. repeat split; auto. now left. Qed.

Lemma history_inv st past : history K anc st past -> Inv st past.
Proof.
  induction 1 as [|st past ml items k q tr q' trs Hh IH Eo Ea Hk]; [exact inv_empty|].
  destruct (opens_from _ _ _ _ Eo) as (buf & Ef & Hml & Hmb & Hb).
  destruct (open_from_ok st past buf ml IH Hml Hmb Hb) as (q0 & tr0 & E0 & I0 & M0 & Hmid & Hcut).
  rewrite Ef in E0. injection E0 as <- <-.
  assert (Hq : raq_iter (q_buf q) = trunc (maxlen (q_buf q)) (raq_iter (q_buf q))) by (rewrite M0, I0; now rewrite trunc_idem).
  destruct (appends_ok items _ q past Hmid Hq) as (q1 & trs1 & E1 & _ & Hall).
  rewrite Ea in E1. injection E1 as <- <-.
  rewrite firstn_app, apply_all_app.
  destruct (Nat.ltb_spec k (length tr)) as [Hlt|Hge].
  - replace (k - length tr) with 0 by lia. rewrite firstn_O. cbn [apply_all fold_left].
    specialize (Hall 0). rewrite firstn_O in Hall. cbn [apply_all fold_left] in Hall.
    assert (Hz : completed 0 items trs = []).
    { destruct items as [|v items]; [reflexivity|]. cbn [pq_appends] in Ea.
      destruct (append_ok _ q past v Hmid Hq) as (qa & ta & Ev & Lt & _). rewrite Ev in Ea. cbn [rbind] in Ea.
      destruct (pq_appends K qa items) as [[qb tb]|e]; [|discriminate]. cbn [rbind] in Ea. injection Ea as _ <-.
      cbn [completed]. now replace (length ta <=? 0) with false by lia. }
    rewrite Hz, app_nil_r. apply Hcut; auto.
  - rewrite (firstn_all2 tr) by lia. apply Hall.
Qed.

Lemma completed_all : forall items trs q q', pq_appends K q items = Ok (q', trs) -> forall k, length (concat trs) <= k -> completed k items trs = items.
Proof.
  clear. induction items as [|v t IH]; intros trs q q' H k Hk; cbn [pq_appends] in H.
  - injection H as <- <-. reflexivity.
  - destruct (pq_append K q v) as [[qa ta]|e]; [|discriminate]. cbn [rbind] in H.
    destruct (pq_appends K qa t) as [[qb tb]|e] eqn:Eb; [|discriminate]. cbn [rbind] in H. injection H as <- <-.
    cbn [concat] in Hk. rewrite app_length in Hk. cbn [completed]. replace (length ta <=? k) with true by lia.
    f_equal. eapply IH; eauto. lia.
Qed.

(** After any successful opening, what appending does. *)
Lemma session_ok st past ml q tr items :
  history K anc st past -> opens K anc st ml q tr ->
  exists q' trs, pq_appends K q items = Ok (q', trs) /\
    raq_iter (q_buf q') = trunc ml (raq_iter (q_buf q) ++ items) /\
    history K anc (apply_all (tr ++ concat trs) st) (past ++ items).
Proof.
  intros Hh Eo. destruct (opens_from _ _ _ _ Eo) as (buf & Ef & Hml & Hmb & Hb).
  destruct (open_from_ok st past buf ml (history_inv _ _ Hh) Hml Hmb Hb) as (q0 & tr0 & E0 & I0 & M0 & Hmid & _).
  rewrite Ef in E0. injection E0 as <- <-.
  assert (Hq : raq_iter (q_buf q) = trunc (maxlen (q_buf q)) (raq_iter (q_buf q))) by (rewrite M0, I0; now rewrite trunc_idem).
  destruct (appends_ok items _ q past Hmid Hq) as (q1 & trs1 & E1 & I1 & _).
  exists q1, trs1. split; [exact E1|]. split; [now rewrite I1, M0|].
  pose proof (h_session K anc st past ml items (length (tr ++ concat trs1) + S (length (dumps_meta K (mkMeta ml 1 anc)))) q tr q1 trs1 Hh Eo E1) as Hs.
  rewrite firstn_all2 in Hs by lia. rewrite (completed_all items trs1 q q1 E1) in Hs by (rewrite app_length; lia).
  apply Hs. right. right. lia.
Qed.
End Anc.

Theorem recovery st past ml :
  history K None st past -> check_maxlen ml = true ->
  exists q tr, pq_open K st ml = Ok (q, tr) /\ raq_iter (q_buf q) = trunc ml past /\
    forall items, exists q' trs, pq_appends K q items = Ok (q', trs) /\ raq_iter (q_buf q') = trunc ml (past ++ items) /\
      history K None (apply_all (tr ++ concat trs) st) (past ++ items).
Proof.
  intros Hh Hml. unfold pq_open. rewrite Hml. cbn [passert rbind].
  destruct (open_from_ok None st past (mkRaq ml [] []) ml (history_inv _ _ _ Hh) Hml eq_refl) as (q & tr & E & I0 & _).
  { cbn. destruct ml; reflexivity. }
  cbn [raq_iter front back rev app] in I0. exists q, tr. split; [exact E|]. split; [exact I0|].
  intros items. destruct (session_ok None st past ml q tr items Hh) as (q' & trs & E' & I' & H').
  { unfold opens, pq_open. rewrite Hml. exact E. }
  exists q', trs. split; [exact E'|]. split; [|exact H']. rewrite I', I0. apply trunc_trunc_app.
Qed.

(** ** Ancestors *)
Lemma count_index_ok : forall chunks full tl, Forall2 chunk_ok chunks full -> tail_ok tl ->
  count_index (full ++ tl) = length (concat chunks).
Proof.
  intros chunks full tl H Ht. induction H as [|vs f t fs Hf _ IH]; cbn [app concat].
  - destruct Ht as [->| ->]; reflexivity.
  - destruct Hf as (g & pi & pd & -> & Hp & Hr). cbn [count_index]. rewrite IH, app_length. f_equal.
    unfold read_chunk_index. apply parse_length; auto. rewrite app_length, recs_length. lia.
Qed.

Lemma load_ancestor_one anc st past (n : nat) dk p need (buf : raq V) :
  nth_error dk p = Some st -> Inv anc st past -> st_meta st <> None -> (0 <= need)%Z ->
  (match anc with None => True | Some _ => (need <= Z.of_nat (length past))%Z end) -> raq_iter buf = [] ->
  exists buf' m, load_ancestor K (S n) dk p (Some need) buf = Ok (buf', m) /\
    (maxlen buf = Some (Z.to_nat need) \/ (need >= Z.of_nat (length past))%Z ->
     match maxlen buf with Some M => (need <= Z.of_nat M)%Z | None => True end ->
     raq_iter buf' = lastn (Z.to_nat need) past).
Proof.
  intros En (Hm & _ & chunks & full & tl & Hf & Hc & Ht & Hp) Hn Hneed Hle Hbuf.
  destruct Hm as [(b & m & E1 & E2 & E3 & E4)|[E1 _]]; [|congruence].
  cbn [load_ancestor]. rewrite En, E1, E2. cbn [rbind]. rewrite Hf, (count_index_ok chunks full tl Hc Ht), <- Hp.
  assert (Hstep : match m_ancestor m with
     | Some a => if (Z.of_nat (length past) <? need)%Z then ' (b0, _) <- load_ancestor K n dk a (Some (need - Z.of_nat (length past))%Z) buf;; Ok b0 else Ok buf
     | None => Ok buf end = Ok buf).
  { rewrite E4. destruct anc; [|reflexivity]. now replace (Z.of_nat (length past) <? need)%Z with false by lia. }
  rewrite Hstep. cbn [rbind]. rewrite raq_len_iter, Hbuf. cbn [length]. rewrite Z.sub_0_r.
  destruct (need <=? 0)%Z eqn:E0.
  - exists buf, m. split; [reflexivity|]. intros _ _. rewrite Hbuf. replace (Z.to_nat need) with 0 by lia.
    unfold lastn. rewrite Nat.sub_0_r, skipn_all. reflexivity.
  - destruct (read_chunks_ok chunks full tl (Some (Z.to_nat need)) Hc Ht) as (ds & Er & (j & Hj) & Hds).
    { cbn [check_maxlen]. lia. }
    rewrite Er. cbn [rbind]. destruct (raq_extend_spec buf (concat ds)) as (b2 & Ee & I2 & M2). rewrite Ee. cbn [rbind].
    exists b2, m. split; [reflexivity|]. intros Hor HM. rewrite I2, Hbuf. cbn [app]. specialize (Hds []). cbn [app trunc] in Hds.
    destruct Hor as [->|Hge].
    + cbn [trunc]. now rewrite Hds, Hp.
    + assert (Hall : concat ds = past).
      { rewrite (lastn_all (Z.to_nat need) (concat chunks)) in Hds by (rewrite <- Hp; lia). rewrite <- Hp in Hds.
        rewrite <- Hds. symmetry. apply lastn_all. rewrite Hj.
        assert (length (concat (skipn j chunks)) <= length past).
        { rewrite Hp. rewrite <- (firstn_skipn j chunks) at 2. rewrite concat_app, app_length. lia. }
        lia. }
      rewrite Hall. rewrite (lastn_all (Z.to_nat need)) by lia. destruct (maxlen buf) as [M|]; cbn [trunc]; [|reflexivity].
      apply lastn_all. lia.
Qed.

Lemma read_exact chunks full tl M : Forall2 chunk_ok chunks full -> tail_ok tl -> 0 < M -> length (concat chunks) <= M ->
  exists ds g, read_chunks K (Some M) (full ++ tl) = Ok (ds, g) /\ concat ds = concat chunks.
Proof.
  intros Hc Ht HM Hl. destruct (read_chunks_ok chunks full tl (Some M) Hc Ht) as (ds & Er & (j & Hj) & Hds).
  { cbn [check_maxlen]. lia. }
  exists ds, (length chunks). split; [exact Er|]. specialize (Hds []). cbn [app trunc] in Hds.
  assert (length (concat ds) <= length (concat chunks)).
  { rewrite Hj. rewrite <- (firstn_skipn j chunks) at 2. rewrite concat_app, app_length. lia. }
  rewrite !lastn_all in Hds by lia. exact Hds.
Qed.

(** A chain that fits is loaded whole, farthest directory first. *)
Lemma load_chain_fits dk p ds : chain K dk p ds -> forall fuel M need,
  length ds <= fuel -> length (concat ds) <= need -> need <= M ->
  exists buf m, load_ancestor K fuel dk p (Some (Z.of_nat need)) (mkRaq (Some M) [] []) = Ok (buf, m) /\
    raq_iter buf = concat (rev ds) /\ maxlen buf = Some M.
Proof.
  induction 1 as [p st d En Hh Hn|p st d a ds En Hh Hn Hch IH]; intros fuel M need Hfu Hl HM;
    (destruct fuel as [|n]; [cbn in Hfu; lia|]); cbn [load_ancestor]; rewrite En;
    pose proof (history_inv _ _ _ Hh) as (Hm & _ & chunks & full & tl & Hf & Hc & Ht & Hp);
    (destruct Hm as [(b & m & E1 & E2 & E3 & E4)|[E1 _]]; [|congruence]);
    rewrite E1, E2; cbn [rbind]; rewrite E4; cbn [rbind]; rewrite Hf, ?(count_index_ok chunks full tl Hc Ht), <- ?Hp.
  - change (raq_len (mkRaq (A := V) (Some M) [] [])) with 0. cbn [concat] in Hl. rewrite app_nil_r in Hl. cbn [rev app concat]. rewrite app_nil_r.
    change (Z.of_nat 0) with 0%Z. rewrite Z.sub_0_r.
    destruct (Z.of_nat need <=? 0)%Z eqn:E0.
    + eexists _, _. split; [reflexivity|]. cbn. split; [|reflexivity]. destruct d; [reflexivity|cbn in Hl; lia].
    + rewrite Nat2Z.id. destruct (read_exact chunks full tl need Hc Ht) as (dss & g & Er & Ed); [lia|rewrite <- Hp; exact Hl|].
      rewrite Er. cbn [rbind]. rewrite Ed, <- Hp.
      destruct (raq_extend_spec (mkRaq (Some M) [] []) d) as (b2 & Ee & I2 & M2). rewrite Ee. cbn [rbind].
      exists b2, m. split; [reflexivity|]. rewrite I2, M2. cbn [maxlen raq_iter front back rev app trunc].
      split; [|reflexivity]. apply lastn_all. lia.
  - cbn [concat] in Hl. rewrite app_length in Hl.
    assert (Hpre : exists buf1, (if (Z.of_nat (length d) <? Z.of_nat need)%Z
        then ' (b0, _) <- load_ancestor K n dk a (Some (Z.of_nat need - Z.of_nat (length d))%Z) (mkRaq (Some M) [] []);; Ok b0
        else Ok (mkRaq (Some M) [] [])) = Ok buf1 /\ raq_iter buf1 = concat (rev ds) /\ maxlen buf1 = Some M).
    { destruct (Z.of_nat (length d) <? Z.of_nat need)%Z eqn:E.
      - replace (Z.of_nat need - Z.of_nat (length d))%Z with (Z.of_nat (need - length d)) by lia.
        destruct (IH n M (need - length d)) as (b1 & m1 & El & I1 & M1); [cbn in Hfu; lia|lia|lia|].
        rewrite El. cbn [rbind]. eauto.
      - eexists. split; [reflexivity|]. cbn. split; [|reflexivity].
        assert (Hz : length (concat ds) = 0) by lia. symmetry.
        assert (Hr : length (concat (rev ds)) = length (concat ds)).
        { clear. induction ds as [|x t IHt]; [reflexivity|]. cbn [rev concat]. rewrite concat_app, !app_length, IHt. cbn [concat]. rewrite app_nil_r. lia. }
        rewrite Hz in Hr. now apply length_zero_iff_nil. }
    destruct Hpre as (buf1 & -> & I1 & M1). cbn [rbind]. rewrite raq_len_iter, I1.
    assert (Hr : length (concat (rev ds)) = length (concat ds)).
    { clear. induction ds as [|x t IHt]; [reflexivity|]. cbn [rev concat]. rewrite concat_app, !app_length, IHt. cbn [concat]. rewrite app_nil_r. lia. }
    cbn [rev]. rewrite concat_app. cbn [concat]. rewrite app_nil_r.
    destruct (_ <=? 0)%Z eqn:E0.
    + exists buf1, m. split; [reflexivity|]. split; [|exact M1]. rewrite I1. destruct d; [now rewrite app_nil_r|cbn in *; lia].
    + destruct (read_exact chunks full tl (Z.to_nat (Z.of_nat need - Z.of_nat (length (concat (rev ds))))) Hc Ht) as (dss & g & Er & Ed);
        [lia|rewrite <- Hp; lia|].
      rewrite Er. cbn [rbind]. rewrite Ed, <- Hp.
      destruct (raq_extend_spec buf1 d) as (b2 & Ee & I2 & M2). rewrite Ee. cbn [rbind].
      exists b2, m. split; [reflexivity|]. rewrite I2, M2, I1, M1. cbn [trunc]. split; [|reflexivity].
      apply lastn_all. rewrite app_length. lia.
Qed.

Lemma open_ancestor_of_load fuel dk st past M a buf m :
  history K (Some a) st past -> 0 < M ->
  load_ancestor K fuel dk a (Some (Z.of_nat M)) (mkRaq (Some M) [] []) = Ok (buf, m) ->
  exists q tr, pq_open_ancestor K fuel dk st (Some M) a = Ok (q, tr) /\ raq_iter (q_buf q) = lastn M (raq_iter buf ++ past).
Proof.
  intros Hh HM El. unfold pq_open_ancestor. cbn [check_maxlen option_map]. replace (0 <? M) with true by lia. cbn [passert rbind].
  rewrite El. cbn [rbind].
  destruct (load_ancestor_raq _ _ _ _ _ _ _ El) as [Hm Ht]; [cbn; reflexivity|]. cbn [maxlen] in *.
  destruct (open_from_ok (Some a) st past buf (Some M) (history_inv _ _ _ Hh)) as (q & tr & E & I0 & _); [cbn [check_maxlen]; lia|auto|auto|].
  exists q, tr. split; [exact E|exact I0].
Qed.

Theorem ancestor_fits dk p ds st past M fuel :
  chain K dk p ds -> history K (Some p) st past -> 0 < M -> length (concat ds) <= M -> length ds <= fuel ->
  exists q tr, pq_open_ancestor K fuel dk st (Some M) p = Ok (q, tr) /\ raq_iter (q_buf q) = lastn M (concat (rev ds) ++ past).
Proof.
  intros Hch Hh HM Hl Hf. destruct (load_chain_fits dk p ds Hch fuel M M Hf Hl (le_n _)) as (buf & m & El & Ib & _).
  destruct (open_ancestor_of_load fuel dk st past M p buf m Hh HM El) as (q & tr & E & I0).
  exists q, tr. split; [exact E|]. now rewrite I0, Ib.
Qed.

Theorem ancestor_near dk p d ds st past M fuel :
  chain K dk p (d :: ds) -> history K (Some p) st past -> 0 < M -> (ds = [] \/ M <= length d) -> 0 < fuel ->
  exists q tr, pq_open_ancestor K fuel dk st (Some M) p = Ok (q, tr) /\ raq_iter (q_buf q) = lastn M (concat (rev (d :: ds)) ++ past).
Proof.
  intros Hch Hh HM Hor Hf. destruct fuel as [|n]; [lia|].
  assert (Hload : exists buf m, load_ancestor K (S n) dk p (Some (Z.of_nat M)) (mkRaq (Some M) [] []) = Ok (buf, m) /\ raq_iter buf = lastn M d).
  { inversion Hch as [p0 st0 d0 En Hh0 Hn|p0 st0 d0 a ds0 En Hh0 Hn Hch0]; subst.
    - destruct (load_ancestor_one None st0 d n dk p (Z.of_nat M) (mkRaq (Some M) [] []) En (history_inv _ _ _ Hh0) Hn) as (buf & m & E & Hi);
        [lia|exact I|reflexivity|]. exists buf, m. split; [exact E|]. rewrite Nat2Z.id in Hi. apply Hi; [left; reflexivity|cbn; lia].
    - destruct Hor as [->|Hge]; [inversion Hch0|].
      destruct (load_ancestor_one (Some a) st0 d n dk p (Z.of_nat M) (mkRaq (Some M) [] []) En (history_inv _ _ _ Hh0) Hn) as (buf & m & E & Hi);
        [lia|lia|reflexivity|]. exists buf, m. split; [exact E|]. rewrite Nat2Z.id in Hi. apply Hi; [left; reflexivity|cbn; lia]. }
  destruct Hload as (buf & m & El & Ib).
  destruct (open_ancestor_of_load (S n) dk st past M p buf m Hh HM El) as (q & tr & E & I0).
  exists q, tr. split; [exact E|]. rewrite I0, Ib. rewrite lastn_lastn_app. cbn [rev]. rewrite concat_app. cbn [concat]. rewrite app_nil_r.
  destruct Hor as [->|Hge]; [reflexivity|]. rewrite <- app_assoc.
  rewrite (lastn_app M (concat (rev ds))). replace (M - length (d ++ past)) with 0 by (rewrite app_length; lia).
  unfold lastn at 2. rewrite Nat.sub_0_r, skipn_all. reflexivity.
Qed.

Theorem ancestor_unbounded dk p ds st fuel : chain K dk p ds -> 0 < fuel ->
  pq_open_ancestor K fuel dk st None p = Err TypeError.
Proof.
  intros Hch Hf. destruct fuel as [|n]; [lia|]. unfold pq_open_ancestor. cbn [check_maxlen passert rbind option_map load_ancestor].
  assert (H : exists anc st0 d, nth_error dk p = Some st0 /\ history K anc st0 d /\ st_meta st0 <> None).
  { inversion Hch; subst; eauto 6. }
  destruct H as (anc & st0 & d & En & Hh & Hn). rewrite En.
  destruct (history_inv _ _ _ Hh) as ([(b & m & E1 & E2 & _)|[E1 _]] & _); [|congruence]. rewrite E1, E2. reflexivity.
Qed.

(** ** A torn meta file *)
Theorem torn_meta_fails ml e : check_maxlen ml = true -> loads_meta K [] = Err e ->
  exists q tr, pq_open K empty_store ml = Ok (q, tr) /\
    forall ml', check_maxlen ml' = true -> pq_open K (apply_all (firstn 1 tr) empty_store) ml' = Err e.
Proof.
  intros Hml He. unfold pq_open, pq_open_from, load_meta. rewrite Hml. cbn [empty_store st_meta st_dir passert rbind].
  rewrite (new_writer_ok 0). cbn [rbind]. eexists _, _. split; [reflexivity|]. intros ml' Hml'. rewrite Hml'.
  cbn [app firstn apply_all fold_left apply_micro st_meta passert rbind]. rewrite He. reflexivity.
Qed.

Theorem crash_reopens st past ml0 items k q tr q' trs ml :
  history K None st past -> pq_open K st ml0 = Ok (q, tr) -> pq_appends K q items = Ok (q', trs) ->
  (k = 0 \/ st_meta st <> None \/ length (dumps_meta K (mkMeta ml0 1 None)) < k) -> check_maxlen ml = true ->
  exists r, pq_open K (apply_all (firstn k (tr ++ concat trs)) st) ml = Ok r.
Proof.
  intros Hh Eo Ea Hk Hml. pose proof (h_session K None st past ml0 items k q tr q' trs Hh Eo Ea Hk) as Hs.
  destruct (recovery _ _ ml Hs Hml) as (q1 & tr1 & E & _). eauto.
Qed.

End Proof.

Lemma toy_ok c : (0 < c < 2 ^ 64)%Z -> codec_ok (toy c).
Proof.
  assert (Ho : forall o, z_opt (opt_z o) = o).
  { intros [n|]; unfold z_opt, opt_z; [|reflexivity]. replace (Z.of_nat n <? 0)%Z with false by lia. now rewrite Nat2Z.id. }
  intros Hc. constructor.
  - intros v. reflexivity.
  - intros [a b d]. cbn [toy dumps_meta loads_meta m_maxlen m_comm_size m_ancestor]. now rewrite !Ho, Nat2Z.id.
  - intros d. cbn [toy crc32]. apply Z.mod_pos_bound. lia.
  - intros v. cbn. lia.
  - exact Hc.
Qed.

Lemma whole_session_history {V} (K : codec V) (HK : codec_ok K) anc st past ml items r st' :
  history K anc st past -> (forall q tr, r = Ok (q, tr) -> opens K anc st ml q tr) ->
  whole_session K r items st = Ok st' -> history K anc st' (past ++ items).
Proof.
  intros Hh Ho H. unfold whole_session in H. destruct r as [[q tr]|e]; [|discriminate]. cbn [rbind] in H.
  destruct (session_ok K HK anc st past ml q tr items Hh (Ho q tr eq_refl)) as (q' & trs & E & _ & Hn).
  rewrite E in H. cbn [rbind] in H. injection H as <-. exact Hn.
Qed.

Definition exG : store := match whole_session (toy 100) (pq_open (toy 100) empty_store None) [1; 2; 3; 4; 5]%Z empty_store with Ok s => s | _ => empty_store end.
Definition exA : store := match whole_session (toy 100) (pq_open_ancestor (toy 100) 5 [exG] empty_store (Some 9) 0) [6; 7]%Z empty_store with Ok s => s | _ => empty_store end.
Lemma exG_history : history (toy 100) None exG [1; 2; 3; 4; 5]%Z.
Proof.
  apply (whole_session_history (toy 100) (toy_ok 100 ltac:(lia)) None empty_store [] None [1; 2; 3; 4; 5]%Z (pq_open (toy 100) empty_store None)).
  - apply h_new.
  - intros q tr H. exact H.
  - vm_compute. reflexivity.
Qed.
Lemma exA_history : history (toy 100) (Some 0) exA [6; 7]%Z.
Proof.
  apply (whole_session_history (toy 100) (toy_ok 100 ltac:(lia)) (Some 0) empty_store [] (Some 9) [6; 7]%Z (pq_open_ancestor (toy 100) 5 [exG] empty_store (Some 9) 0)).
  - apply h_new.
  - intros q tr H. exists 5, [exG]. exact H.
  - vm_compute. reflexivity.
Qed.
Lemma ex_chain : chain (toy 100) [exG; exA] 1 [[6; 7]; [1; 2; 3; 4; 5]]%Z.
Proof.
  apply (ch_next (toy 100) [exG; exA] 1 exA [6; 7]%Z 0 [[1; 2; 3; 4; 5]]%Z).
  - reflexivity.
  - exact exA_history.
  - vm_compute. discriminate.
  - apply (ch_last (toy 100) [exG; exA] 0 exG); [reflexivity|exact exG_history|vm_compute; discriminate].
Qed.

Theorem ancestor_newest_false :
  ~ (forall V (K : codec V) dk p ds st past M fuel, codec_ok K -> chain K dk p ds -> history K (Some p) st past -> 0 < M ->
       length ds <= fuel ->
       exists q tr, pq_open_ancestor K fuel dk st (Some M) p = Ok (q, tr) /\ raq_iter (q_buf q) = lastn M (concat (rev ds) ++ past)).
Proof.
  intros H. destruct (H Z (toy 100) [exG; exA] 1 [[6; 7]; [1; 2; 3; 4; 5]]%Z empty_store [] 3 2 (toy_ok 100 ltac:(lia)) ex_chain (h_new _ _) ltac:(lia) (le_n _))
    as (q & tr & E & I).
  assert (E' : ('(q, _) <- pq_open_ancestor (toy 100) 2 [exG; exA] empty_store (Some 3) 1 ;; Ok (raq_iter (q_buf q))) = Ok [3; 4; 5]%Z)
    by (vm_compute; reflexivity).
  rewrite E in E'. cbn [rbind] in E'. rewrite I in E'. vm_compute in E'. discriminate.
Qed.
