(** Lemmas for C46, C53, C54, C55. *)
From Verif Require Import Base P_Base M_ReplayBuffer M_Batch P_Batch M_Recurrent S_Recurrent.
From Coq Require Import ZifyBool ZifyNat Permutation.
Close Scope Q_scope.

Lemma all_empty_max {X} (l : list (list (option X))) : all_empty l = true <-> list_max (map (@length _) l) = 0.
Proof.
  unfold all_empty. induction l as [|s l IH]; cbn [forallb map list_max fold_right]; [tauto|].
  change (fold_right Nat.max 0 (map (@length _) l)) with (list_max (map (@length (option X)) l)).
  rewrite andb_true_iff, IH. destruct s; cbn [length]; split; intros; try lia; destruct H; try discriminate; lia.
Qed.
Lemma max_tl {X} (l : list (list X)) : list_max (map (@length _) (map (@tl _) l)) = pred (list_max (map (@length _) l)).
Proof.
  induction l as [|s l IH]; [reflexivity|]. cbn [map list_max fold_right].
  change (fold_right Nat.max 0 ?x) with (list_max x). rewrite IH. destruct s; cbn [tl length]; lia.
Qed.
Lemma nth_tl {X} (s : list X) t d : nth t (tl s) d = nth (S t) s d.
Proof. destruct s; cbn; [now destruct t|reflexivity]. Qed.

Lemma zip_rows {X} fuel : forall (l : list (list (option X))), list_max (map (@length _) l) <= fuel ->
  zip_longest fuel l = map (fun t => map (fun s => nth t s None) l) (seq 0 (list_max (map (@length _) l))).
Proof.
  induction fuel as [|n IH]; intros l Hf; cbn [zip_longest].
  - replace (list_max (map (@length _) l)) with 0 by lia. reflexivity.
  - destruct (all_empty l) eqn:E.
    + apply all_empty_max in E. rewrite E. reflexivity.
    + destruct (list_max (map (@length _) l)) as [|M] eqn:EM; [apply all_empty_max in EM; congruence|].
      rewrite IH; rewrite max_tl, EM; cbn [pred]; [|lia]. cbn [seq map]. f_equal.
      * unfold heads. apply map_ext. now intros [|? ?].
      * rewrite <- seq_shift, map_map. apply map_ext. intros t. rewrite map_map. apply map_ext. intros s. apply nth_tl.
Qed.

Definition opt_list {X} (o : option X) : list X := match o with Some x => [x] | None => [] end.
Definition join {X} (o : option (option X)) : option X := match o with Some x => x | None => None end.
Lemma nth_join {X} (s : list (option X)) t : nth t s None = join (nth_error s t).
Proof. revert t. induction s; intros [|t]; cbn; auto. Qed.
Lemma flat_map_map {X Y Z} (f : Y -> list Z) (g : X -> Y) l : flat_map f (map g l) = flat_map (fun x => f (g x)) l.
Proof. induction l; cbn; congruence. Qed.
Lemma flat_map_ext' {X Y} (f g : X -> list Y) l : (forall x, In x l -> f x = g x) -> flat_map f l = flat_map g l.
Proof. induction l; cbn; intros H; [reflexivity|]. rewrite H by now left. f_equal. apply IHl. intros; apply H; now right. Qed.

Lemma flatten_eq {X} (l : list (list (option X))) :
  flatten_sequences_time_first l =
  flat_map (fun t => flat_map (fun s => opt_list (join (nth_error s t))) l) (seq 0 (list_max (map (@length _) l))).
Proof.
  unfold flatten_sequences_time_first. rewrite zip_rows by reflexivity. rewrite flat_map_map. apply flat_map_ext'. intros t _.
  unfold not_none. rewrite flat_map_map. apply flat_map_ext'. intros s _. now rewrite nth_join.
Qed.

Lemma map_length_map {X Y} (f : X -> Y) (l : list (list X)) : map (@length _) (map (map f) l) = map (@length _) l.
Proof. rewrite map_map. apply map_ext. intros; apply map_length. Qed.

Definition row {X} (l : list (list X)) (t : nat) : list X := flat_map (fun s => opt_list (nth_error s t)) l.
Lemma flatten_some {X} (l : list (list X)) :
  flatten_sequences_time_first (map (map Some) l) = flat_map (row l) (seq 0 (list_max (map (@length _) l))).
Proof.
  rewrite flatten_eq, map_length_map. apply flat_map_ext'. intros t _. unfold row. rewrite flat_map_map. apply flat_map_ext'.
  intros s _. rewrite nth_error_map. now destruct (nth_error s t).
Qed.

(** Everything exactly once. *)
Lemma flat_map_nil {X Y} (l : list X) : flat_map (fun _ => @nil Y) l = [].
Proof. induction l; auto. Qed.
Lemma flat_map_app_perm {X Y} (f g : X -> list Y) l : Permutation (flat_map (fun x => f x ++ g x) l) (flat_map f l ++ flat_map g l).
Proof.
  induction l as [|x l IH]; [reflexivity|]. cbn [flat_map]. rewrite IH, <- !app_assoc. apply Permutation_app_head.
  rewrite !app_assoc. apply Permutation_app_tail. apply Permutation_app_comm.
Qed.
Lemma flat_map_swap {X Y Z} (g : X -> Y -> list Z) l : forall ts,
  Permutation (flat_map (fun t => flat_map (fun s => g s t) l) ts) (flat_map (fun s => flat_map (g s) ts) l).
Proof.
  induction l as [|s l IH]; intros ts; cbn [flat_map]; [rewrite flat_map_nil; reflexivity|].
  rewrite flat_map_app_perm. apply Permutation_app; [reflexivity|apply IH].
Qed.
Lemma opts_join {X} (s : list (option X)) M : length s <= M -> flat_map (fun t => opt_list (join (nth_error s t))) (seq 0 M) = not_none s.
Proof.
  revert M. induction s as [|x s IH]; intros M HM.
  - transitivity (flat_map (fun _ : nat => @nil X) (seq 0 M)); [|apply flat_map_nil]. apply flat_map_ext'. intros t _. now destruct t.
  - destruct M as [|M]; [cbn in HM; lia|]. cbn [seq flat_map]. rewrite <- seq_shift, flat_map_map. cbn [nth_error].
    rewrite IH by (cbn in HM; lia). unfold not_none. cbn [flat_map]. now destruct x.
Qed.
Lemma list_max_in {X} (s : list X) l : In s l -> length s <= list_max (map (@length _) l).
Proof.
  intros H. assert (HF : Forall (fun k => k <= list_max (map (@length _) l)) (map (@length _) l)) by (apply list_max_le; reflexivity).
  rewrite Forall_forall in HF. apply HF. now apply in_map.
Qed.
Lemma flatten_perm {X} (l : list (list (option X))) : Permutation (flatten_sequences_time_first l) (not_none (concat l)).
Proof.
  rewrite flatten_eq, (flat_map_swap (fun s t => opt_list (join (nth_error s t)))).
  rewrite (flat_map_ext' _ (@not_none X)) by (intros s Hs; apply opts_join; apply list_max_in; exact Hs).
  clear. induction l as [|s l IH]; [reflexivity|]. cbn [flat_map concat]. unfold not_none at 3. rewrite flat_map_app.
  now apply Permutation_app_head.
Qed.

Lemma not_none_some {X} (l : list X) : not_none (map Some l) = l.
Proof. induction l as [|a l IH]; [reflexivity|]. unfold not_none in *. cbn. now rewrite IH. Qed.
Lemma flatten_perm_some {X} (l : list (list X)) : Permutation (flatten_sequences_time_first (map (map Some) l)) (concat l).
Proof. rewrite flatten_perm. rewrite <- concat_map, not_none_some. reflexivity. Qed.

(** Places. *)
Lemma nth_flat_map {X Y} (f : X -> list Y) xs : forall i x k y, nth_error xs i = Some x -> nth_error (f x) k = Some y ->
  nth_error (flat_map f xs) (list_sum (map (fun x => length (f x)) (firstn i xs)) + k) = Some y.
Proof.
  induction xs as [|a xs IH]; intros [|i] x k y Hx Hy; cbn in Hx; try discriminate.
  - injection Hx as ->. cbn. rewrite nth_error_app1; [exact Hy|]. apply nth_error_Some. congruence.
  - cbn [firstn map list_sum fold_right flat_map]. change (fold_right Nat.add 0 ?l) with (list_sum l).
    rewrite nth_error_app2 by lia. replace (_ - _) with (list_sum (map (fun x => length (f x)) (firstn i xs)) + k) by lia. eauto.
Qed.
Lemma row_length {X} (l : list (list X)) t : length (row l t) = n_longer l t.
Proof.
  unfold row, n_longer. induction l as [|s l IH]; [reflexivity|]. cbn [flat_map filter]. rewrite app_length, IH.
  destruct (nth_error s t) eqn:E; destruct (t <? length s) eqn:E2; cbn [opt_list length]; try lia.
  - assert (t < length s) by (apply nth_error_Some; congruence). lia.
  - apply nth_error_None in E. lia.
Qed.
Lemma sum_firstn {X} (l : list (list X)) t j :
  list_sum (map (fun s => length (opt_list (nth_error s t))) (firstn j l)) = n_longer (firstn j l) t.
Proof.
  rewrite <- row_length. unfold row. generalize (firstn j l). intros k. induction k as [|s k IH]; [reflexivity|].
  cbn [map list_sum fold_right flat_map]. rewrite app_length. change (fold_right Nat.add 0 ?l) with (list_sum l). lia.
Qed.
Lemma firstn_seq t M : t <= M -> firstn t (seq 0 M) = seq 0 t.
Proof. intros H. replace M with (t + (M - t)) by lia. rewrite seq_app, firstn_app, seq_length, Nat.sub_diag. cbn. rewrite app_nil_r. apply firstn_all2. rewrite seq_length. lia. Qed.

Lemma flatten_place {X} (l : list (list X)) j s t x : nth_error l j = Some s -> nth_error s t = Some x ->
  nth_error (flatten_sequences_time_first (map (map Some) l)) (place l t j) = Some x.
Proof.
  intros Hs Hx. rewrite flatten_some. set (M := list_max (map (@length _) l)).
  assert (HtM : t < M). { unfold M. pose proof (list_max_in s l (nth_error_In _ _ Hs)). assert (t < length s) by (apply nth_error_Some; congruence). lia. }
  unfold place. rewrite <- sum_firstn.
  replace (list_sum (map (n_longer l) (seq 0 t))) with (list_sum (map (fun t => length (row l t)) (firstn t (seq 0 M)))).
  2:{ rewrite firstn_seq by lia. f_equal. apply map_ext. intros. apply row_length. }
  apply (nth_flat_map (row l) (seq 0 M) t t).
  - rewrite nth_error_nth' with (d := 0) by (rewrite seq_length; lia). now rewrite seq_nth by lia.
  - unfold row. rewrite <- (Nat.add_0_r (list_sum _)). apply (nth_flat_map _ _ _ s); [exact Hs|]. now rewrite Hx.
Qed.

Lemma n_longer_app {X} (a b : list (list X)) t : n_longer (a ++ b) t = n_longer a t + n_longer b t.
Proof. unfold n_longer. now rewrite filter_app, app_length. Qed.
Lemma n_longer_firstn {X} (l : list (list X)) j t : n_longer (firstn j l) t <= n_longer l t.
Proof. rewrite <- (firstn_skipn j l) at 2. rewrite n_longer_app. lia. Qed.
Lemma n_longer_firstn_lt {X} (l : list (list X)) j k t s : nth_error l j = Some s -> t < length s -> j < k ->
  n_longer (firstn j l) t < n_longer (firstn k l) t.
Proof.
  revert j k. induction l as [|a l IH]; intros [|j] [|k] Hs Ht Hk; cbn in Hs; try discriminate; try lia.
  - injection Hs as ->. cbn [firstn]. unfold n_longer. cbn [filter]. replace (t <? length s) with true by lia. cbn. lia.
  - cbn [firstn]. specialize (IH j k Hs Ht ltac:(lia)). unfold n_longer in *. cbn [filter]. destruct (t <? length a); cbn [length]; lia.
Qed.
Lemma place_order {X} (l : list (list X)) j s t j' s' t' : nth_error l j = Some s -> t < length s -> nth_error l j' = Some s' -> t' < length s' ->
  (t < t' \/ (t = t' /\ j < j')) -> place l t j < place l t' j'.
Proof.
  intros Hs Ht Hs' Ht' [H|[-> H]].
  - unfold place. replace (seq 0 t') with (seq 0 t ++ t :: seq (S t) (t' - S t)).
    2:{ replace t' with (t + S (t' - S t)) at 2 by lia. rewrite seq_app. reflexivity. }
    rewrite map_app, list_sum_app. cbn [map list_sum fold_right]. change (fold_right Nat.add 0 ?l) with (list_sum l).
    pose proof (n_longer_firstn_lt l j (length l) t s Hs Ht). rewrite firstn_all in H0.
    assert (j < length l) by (apply nth_error_Some; congruence). specialize (H0 ltac:(lia)). lia.
  - unfold place. pose proof (n_longer_firstn_lt l j j' t' s Hs Ht H). lia.
Qed.

(** Sorted: same as torch's packing. *)
Lemma sorted_cons {X} (a : list X) l : sorted_desc (a :: l) = true -> sorted_desc l = true /\ Forall (fun s => length s <= length a) l.
Proof.
  revert a. induction l as [|b l IH]; intros a H; [split; auto|]. cbn [sorted_desc] in H. apply andb_true_iff in H. destruct H as [H1 H2].
  split; [exact H2|]. apply IH in H2. destruct H2 as [_ H2]. constructor; [lia|]. eapply Forall_impl; [|exact H2]. cbn beta. intros; lia.
Qed.
Lemma filter_none {X} (f : X -> bool) l : Forall (fun x => f x = false) l -> filter f l = [].
Proof. induction 1 as [|x l Hx H IH]; [reflexivity|]. cbn. now rewrite Hx. Qed.
Lemma sorted_firstn {X} (l : list (list X)) t : sorted_desc l = true -> firstn (batch_size_at l t) l = filter (fun s => t <? length s) l.
Proof.
  induction l as [|a l IH]; intros H; [reflexivity|]. apply sorted_cons in H. destruct H as [H1 H2]. unfold batch_size_at in *. cbn [filter].
  destruct (t <? length a) eqn:E; cbn [length firstn]; [f_equal; auto|].
  replace (filter (fun s => t <? length s) l) with (@nil (list X)); [reflexivity|]. symmetry. apply filter_none.
  eapply Forall_impl; [|exact H2]. cbn beta. intros; lia.
Qed.
Lemma row_filter {X} (l : list (list X)) t : row (filter (fun s => t <? length s) l) t = row l t.
Proof.
  unfold row. induction l as [|a l IH]; [reflexivity|]. cbn [filter flat_map]. destruct (t <? length a) eqn:E; cbn [flat_map]; rewrite IH; [reflexivity|].
  replace (nth_error a t) with (@None X); [reflexivity|]. symmetry. apply nth_error_None. lia.
Qed.
Lemma sorted_max {X} (a : list X) l : sorted_desc (a :: l) = true -> list_max (map (@length _) (a :: l)) = length a.
Proof.
  intros H. apply sorted_cons in H. destruct H as [_ H]. cbn [map list_max fold_right]. change (fold_right Nat.max 0 ?x) with (list_max x).
  assert (list_max (map (@length _) l) <= length a); [|lia]. apply list_max_le. rewrite Forall_map. exact H.
Qed.
Lemma pack_flatten {X} (l : list (list X)) : l <> [] -> Forall (fun s => s <> []) l -> sorted_desc l = true ->
  exists p, torch_pack l = Ok p /\ p_data p = flatten_sequences_time_first (map (map Some) l) /\ p_sorted p = None /\
    p_sizes p = map (n_longer l) (seq 0 (list_max (map (@length _) l))).
Proof.
  intros Hne HF Hs. destruct l as [|a l]; [congruence|]. unfold torch_pack.
  replace (existsb (fun s => length s =? 0) (a :: l)) with false.
  2:{ symmetry. apply not_true_is_false. intros C. apply existsb_exists in C. destruct C as (s & Hin & E). rewrite Forall_forall in HF.
      specialize (HF s Hin). destruct s; [congruence|discriminate]. }
  rewrite Hs. cbn [negb]. eexists. split; [reflexivity|]. cbn [p_data p_sorted p_sizes].
  rewrite (sorted_max a l Hs). split; [|split; reflexivity].
  rewrite flatten_some, (sorted_max a l Hs). apply flat_map_ext'. intros t _. rewrite sorted_firstn by exact Hs.
  etransitivity; [|apply row_filter]. unfold row. reflexivity.
Qed.
Lemma sorted_n_longer {X} (l : list (list X)) j s t : sorted_desc l = true -> nth_error l j = Some s -> t < length s -> n_longer (firstn j l) t = j.
Proof.
  revert j. induction l as [|a l IH]; intros [|j] H Hn Ht; cbn in Hn; try discriminate; [reflexivity|].
  apply sorted_cons in H. destruct H as [H1 H2]. cbn [firstn]. unfold n_longer in *. cbn [filter].
  rewrite Forall_forall in H2. specialize (H2 s (nth_error_In _ _ Hn)). replace (t <? length a) with true by lia. cbn [length].
  f_equal. auto.
Qed.
Lemma sorted_place {X} (l : list (list X)) j s t : sorted_desc l = true -> nth_error l j = Some s -> t < length s ->
  place l t j = list_sum (map (n_longer l) (seq 0 t)) + j.
Proof. intros. unfold place. now rewrite (sorted_n_longer l j s t). Qed.

(** ** Trees *)
Section TreeInd.
Context {L : Type} (P : tree L -> Prop) (Hl : forall x, P (Leaf x)) (Ht : forall l, Forall P l -> P (Tup l)).
Fixpoint tree_ind' (t : tree L) : P t :=
  match t with
  | Leaf x => Hl x
  | Tup l => Ht l ((fix go l := match l return Forall P l with [] => Forall_nil _ | x :: r => Forall_cons _ (tree_ind' x) (go r) end) l)
  end.
End TreeInd.

Lemma unwrap_wrap {X} sz so (t : tree (list X)) : unwrap (wrap sz so t) = t.
Proof.
  induction t as [x|l IH] using tree_ind'; [reflexivity|]. cbn [wrap unwrap]. f_equal. rewrite map_map. rewrite <- (map_id l) at 2.
  apply map_ext_in. rewrite Forall_forall in IH. exact IH.
Qed.

(** All packed sequences of the tree carry the same sizes. *)
Lemma wrap_unwrap {X} sz so (t : tree (packed X)) : (forall p pk, leaf_at t p = Some pk -> p_sizes pk = sz /\ p_sorted pk = so) ->
  wrap sz so (unwrap t) = t.
Proof.
  induction t as [[d z o]|l IH] using tree_ind'; intros H; cbn [wrap unwrap].
  - destruct (H [] _ eq_refl) as [E1 E2]. cbn in *. congruence.
  - f_equal. rewrite map_map. rewrite <- (map_id l) at 2. apply map_ext_in. intros c Hc. rewrite Forall_forall in IH. apply IH; [exact Hc|].
    intros p pk Hp. destruct (In_nth_error _ _ Hc) as (i & Hi). apply (H (i :: p)). cbn. now rewrite Hi.
Qed.

Lemma packed_info_leaf {X} (t : tree (packed X)) : forall info, packed_info t = Some info -> exists p pk, leaf_at t p = Some pk /\ info = (p_sizes pk, p_sorted pk).
Proof.
  induction t as [pk|l IH] using tree_ind'; intros info E; cbn [packed_info] in E.
  - injection E as <-. exists [], pk. auto.
  - assert (G : exists i c, nth_error l i = Some c /\ packed_info c = Some info).
    { clear IH. induction l as [|c l IHl]; [discriminate|]. destruct (packed_info c) as [x|] eqn:Ec; [injection E as ->; now exists 0, c|]. destruct (IHl E) as (i & c' & N & Ei). now exists (S i), c'. }
    destruct G as (i & c & N & Ei). rewrite Forall_forall in IH. destruct (IH c (nth_error_In _ _ N) info Ei) as (p & pk & Hp & ->). exists (i :: p), pk. cbn. now rewrite N.
Qed.
Lemma rewrap {X} (t : tree (packed X)) info : packed_info t = Some info ->
  (forall p pk q qk, leaf_at t p = Some pk -> leaf_at t q = Some qk -> p_sizes pk = p_sizes qk /\ p_sorted pk = p_sorted qk) -> wrap (fst info) (snd info) (unwrap t) = t.
Proof.
  intros E H. destruct (packed_info_leaf t info E) as (p & pk & Hp & ->). apply wrap_unwrap. intros q qk Hq. exact (H q qk p pk Hq Hp).
Qed.
Lemma packed_info_none {X} (t : tree (packed X)) : packed_info t = None -> forall p, leaf_at t p = None.
Proof.
  induction t as [pk|l IH] using tree_ind'; intros E p; cbn [packed_info] in E; [discriminate|]. destruct p as [|i p]; [reflexivity|]. cbn. destruct (nth_error l i) as [c|] eqn:N; [|reflexivity].
  rewrite Forall_forall in IH. apply IH; [exact (nth_error_In _ _ N)|]. clear - E N. revert i N. induction l as [|c' l IHl]; intros [|i] N; cbn in N; try discriminate.
  - injection N as ->. destruct (packed_info c); [discriminate|reflexivity].
  - destruct (packed_info c'); [discriminate|]. exact (IHl E i N).
Qed.

Lemma skipn_cons_nth {X} (l : list X) : forall i y l', skipn i l = y :: l' -> nth_error l i = Some y /\ skipn (S i) l = l'.
Proof. induction l as [|a l IH]; intros [|i] y l' H; try discriminate; [cbn in *; injection H as -> ->; auto|]. apply IH in H. exact H. Qed.

Lemma pack_rec_ok {X} (f : tree (list X)) : forall seqs, seqs <> [] -> Forall (same_shape f) seqs ->
  (forall p ls, map (fun s => leaf_at s p) seqs = map Some ls -> Forall (fun s => s <> []) ls /\ sorted_desc ls = true) ->
  exists pk, pack_rec f seqs = Ok pk /\ same_shape f pk /\
    forall p ls, map (fun s => leaf_at s p) seqs = map Some ls ->
      leaf_at (unwrap pk) p = Some (flatten_sequences_time_first (map (map Some) ls)).
Proof.
  induction f as [x|fs IH] using tree_ind'; intros seqs Hne Hsh Hl.
  - assert (HE : exists ls, seqs = map (@Leaf _) ls).
    { clear -Hsh. induction seqs as [|s seqs IHs]; [now exists []|]. inversion Hsh; subst. destruct (IHs H2) as (ls & ->).
      inversion H1; subst. now exists (y :: ls). }
    destruct HE as (ls & ->). cbn [pack_rec].
    assert (E : rmapM as_leaf (map (@Leaf _) ls) = Ok ls). { clear. induction ls; cbn; [reflexivity|]. now rewrite IHls. }
    rewrite E. cbn [rbind]. destruct (Hl [] ls) as [Hn Hs]. { rewrite map_map. reflexivity. }
    destruct (pack_flatten ls) as (p & Ep & Ed & _); auto. { intros ->. now apply Hne. }
    rewrite Ep. cbn [rbind]. eexists. split; [reflexivity|]. split; [constructor|]. intros [|i q] ls' Hls'.
    + rewrite map_map in Hls'. assert (ls = ls'). { clear -Hls'. revert ls' Hls'. induction ls as [|a ls IHl]; intros [|b ls'] H; try discriminate; auto. cbn in H. injection H as -> H. f_equal. auto. }
      subst ls'. cbn. now rewrite Ed.
    + destruct ls as [|a ls]; [now exfalso; apply Hne|]. destruct ls'; discriminate.
  - assert (HG : forall fs0 i, Forall (fun f => forall seqs, seqs <> [] -> Forall (same_shape f) seqs ->
        (forall p ls, map (fun s => leaf_at s p) seqs = map Some ls -> Forall (fun s => s <> []) ls /\ sorted_desc ls = true) ->
        exists pk, pack_rec f seqs = Ok pk /\ same_shape f pk /\ forall p ls, map (fun s => leaf_at s p) seqs = map Some ls ->
          leaf_at (unwrap pk) p = Some (flatten_sequences_time_first (map (map Some) ls))) fs0 ->
      Forall (fun s => exists l, s = Tup l /\ Forall2 same_shape fs0 (skipn i l)) seqs ->
      exists ps, (fix go (i : nat) (fs : list (tree (list X))) : result (list (tree (packed X))) :=
               match fs with
               | [] => Ok []
               | f :: t => cs <- rmapM (child i) seqs ;; p <- pack_rec f cs ;; r <- go (S i) t ;; Ok (p :: r)
               end) i fs0 = Ok ps /\ Forall2 same_shape fs0 ps /\
        forall k p ls, k < length fs0 -> map (fun s => leaf_at s (i + k :: p)) seqs = map Some ls ->
          leaf_at (Tup (map unwrap ps)) (k :: p) = Some (flatten_sequences_time_first (map (map Some) ls))).
    { induction fs0 as [|f fs0 IHf]; intros i HF HS.
      - exists []. split; [reflexivity|]. split; [constructor|]. cbn. intros; lia.
      - inversion HF as [|? ? Hf HF']; subst.
        assert (HC : exists cs, rmapM (child i) seqs = Ok cs /\ Forall (same_shape f) cs /\ length cs = length seqs /\
                   forall p, map (fun s => leaf_at s p) cs = map (fun s => leaf_at s (i :: p)) seqs).
        { clear -HS. induction HS as [|s seqs (l & -> & HS1) HS IHs]; [exists []; cbn; auto|].
          remember (skipn i l) as sk eqn:Esk. inversion HS1 as [|? y ? l' Hy Hl' E]; subst sk.
          symmetry in H0. apply skipn_cons_nth in H0. destruct H0 as [En _]. subst.
          destruct IHs as (cs & E' & Hcs & Hlen & Hp). exists (y :: cs). cbn. rewrite En. cbn. rewrite E'. cbn. rewrite Hlen.
          split; [reflexivity|]. split; [now constructor|]. split; [reflexivity|]. intros p. f_equal. apply Hp. }
        destruct HC as (cs & Ec & Hcs & Hlen & Hcp).
        destruct (Hf cs) as (pk & Epk & Hspk & Hpk); auto.
        { destruct seqs; [congruence|]. destruct cs; [discriminate|]. discriminate. }
        { intros p ls Hls. apply (Hl (i :: p)). now rewrite <- Hcp. }
        destruct (IHf (S i) HF') as (ps & Eps & Hsps & Hps).
        { eapply Forall_impl; [|exact HS]. intros s (l & -> & H). exists l. split; auto. remember (skipn i l) as sk eqn:Esk. inversion H as [|? y ? l' Hy Hl' E]; subst sk.
          symmetry in H1. apply skipn_cons_nth in H1. destruct H1 as [_ H1]. now rewrite H1. }
        exists (pk :: ps). rewrite Ec. cbn [rbind]. rewrite Epk. cbn [rbind]. rewrite Eps. cbn [rbind]. split; [reflexivity|].
        split; [now constructor|]. intros [|k] p ls Hk Hls.
        + cbn. apply Hpk. rewrite Hcp. now rewrite Nat.add_0_r in Hls.
        + cbn [map leaf_at nth_error]. specialize (Hps k p ls). cbn [leaf_at] in Hps. apply Hps; [cbn in Hk; lia|].
          rewrite <- Nat.add_succ_comm in Hls. exact Hls. }
    destruct (HG fs 0 IH) as (ps & Eps & Hsps & Hps).
    { eapply Forall_impl; [|exact Hsh]. intros s Hs. inversion Hs; subst. exists l'. split; auto. }
    cbn [pack_rec]. rewrite Eps. cbn [rbind]. eexists. split; [reflexivity|]. split; [now constructor|].
    intros [|k p] ls Hls.
    + destruct seqs as [|s seqs]; [congruence|]. inversion Hsh as [|? ? Hs _]; subst. inversion Hs; subst. destruct ls; discriminate.
    + cbn [unwrap]. apply Hps; [|exact Hls]. destruct seqs as [|s seqs]; [congruence|]. inversion Hsh as [|? ? Hs _]; subst. inversion Hs as [|? l' HF2]; subst.
      destruct ls as [|a ls]; [discriminate|]. cbn [map leaf_at] in Hls. injection Hls as Ha _. destruct (nth_error l' k) eqn:En; [|discriminate].
      assert (k < length l') by (apply nth_error_Some; congruence). now rewrite (Forall2_len _ _ _ HF2).
Qed.

Lemma pack_recursive_ok {X} (f : tree (list X)) rest : same_shape f f -> Forall (same_shape f) rest ->
  (forall p ls, map (fun s => leaf_at s p) (f :: rest) = map Some ls -> Forall (fun s => s <> []) ls /\ sorted_desc ls = true) ->
  exists pk, pack_sequences_recursive (f :: rest) = Ok pk /\ same_shape f pk /\
    forall p ls, map (fun s => leaf_at s p) (f :: rest) = map Some ls ->
      leaf_at (unwrap pk) p = Some (flatten_sequences_time_first (map (map Some) ls)).
Proof. intros H0 H1 H2. apply pack_rec_ok; [discriminate| |exact H2]. now constructor. Qed.
Lemma same_shape_refl {L} (t : tree L) : same_shape t t.
Proof. induction t as [x|l IH] using tree_ind'; constructor. induction IH; constructor; auto. Qed.

(** One-step batches. *)
Fixpoint no_empty {X} (t : tree (list X)) : Prop :=
  match t with Leaf xs => xs <> [] | Tup l => (fix go l := match l with [] => True | x :: r => no_empty x /\ go r end) l end.
Lemma sorted_singletons {X} (xs : list X) : sorted_desc (map (fun x => [x]) xs) = true.
Proof. induction xs as [|x [|y xs] IH]; auto. Qed.
Lemma max_singletons {X} (xs : list X) : xs <> [] -> list_max (map (@length _) (map (fun x => [x]) xs)) = 1.
Proof.
  intros H. destruct xs as [|x xs]; [congruence|]. clear H. rewrite map_map. cbn [map list_max fold_right].
  change (fold_right Nat.max 0 ?l) with (list_max l). assert (list_max (map (fun _ : X => 1) xs) <= 1); [|cbn [length]; lia].
  apply list_max_le. rewrite Forall_map. apply Forall_forall. intros; cbn; lia.
Qed.
Lemma pack_unpack_one_step {X} (t : tree (list X)) : (forall p xs, leaf_at t p = Some xs -> xs <> []) ->
  exists pk, pack_one_step t = Ok pk /\ unwrap pk = t.
Proof.
  induction t as [xs|l IH] using tree_ind'; intros H.
  - specialize (H [] xs eq_refl). destruct xs as [|x xs]; [congruence|]. cbn [pack_one_step].
    destruct (pack_flatten (map (fun x => [x]) (x :: xs))) as (p & Ep & Ed & _).
    + discriminate.
    + rewrite Forall_map. apply Forall_forall. intros; discriminate.
    + apply sorted_singletons.
    + rewrite Ep. cbn [rbind]. eexists. split; [reflexivity|]. cbn [unwrap]. rewrite Ed, flatten_some.
      rewrite max_singletons by discriminate. cbn [seq flat_map]. rewrite app_nil_r. unfold row. rewrite flat_map_map. f_equal.
      clear. induction (x :: xs) as [|a l IH]; [reflexivity|]. cbn. cbn in IH. now rewrite IH.
  - assert (HG : exists ps, (fix go (l : list (tree (list X))) : result (list (tree (packed X))) :=
        match l with [] => Ok [] | x :: r => p <- pack_one_step x ;; q <- go r ;; Ok (p :: q) end) l = Ok ps /\ map unwrap ps = l).
    { revert H. induction IH as [|c l Hc IH IHl]; intros H; [exists []; auto|].
      destruct Hc as (pk & Epk & Eu). { intros p xs Hp. apply (H (0 :: p)). exact Hp. }
      destruct IHl as (ps & Eps & Eus). { intros [|i p] xs Hp; [discriminate|]. apply (H (S i :: p)). exact Hp. }
      exists (pk :: ps). rewrite Epk. cbn [rbind]. rewrite Eps. cbn [rbind]. split; [reflexivity|]. cbn. congruence. }
    destruct HG as (ps & Eps & Eu). cbn [pack_one_step]. rewrite Eps. cbn [rbind]. eexists. split; [reflexivity|]. cbn [unwrap]. now rewrite Eu.
Qed.
