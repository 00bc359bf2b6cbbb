(** Proofs about the categorical projection. *)
From Coq Require Import QArith Qminmax Qround Qabs Qfield Lqa.
From Verif Require Import Base P_Base M_ReplayBuffer M_Batch S_Batch M_ActionValue M_Categorical S_Targets S_Categorical P_Targets.
Open Scope nat_scope.

Lemma Qmax_case x y : ((x <= y)%Q /\ (Qmax x y == y)%Q) \/ ((y <= x)%Q /\ (Qmax x y == x)%Q).
Proof. destruct (Qlt_le_dec x y); [left|right]; split; try lra; [apply Q.max_r|apply Q.max_l]; lra. Qed.
Lemma Qmin_case x y : ((x <= y)%Q /\ (Qmin x y == x)%Q) \/ ((y <= x)%Q /\ (Qmin x y == y)%Q).
Proof. destruct (Qlt_le_dec x y); [left|right]; split; try lra; [apply Q.min_l|apply Q.min_r]; lra. Qed.

Lemma clamp_nearest lo hi x : (lo <= hi)%Q -> nearest_in lo hi x (clamp lo hi x).
Proof.
  intros H. unfold nearest_in, clamp. destruct (Qmax_case x lo) as [[A1 A2]|[A1 A2]], (Qmin_case (Qmax x lo) hi) as [[B1 B2]|[B1 B2]]; rewrite ?B2, ?A2 in *; repeat split; intros; lra.
Qed.
Lemma clamp_id lo hi x : (lo <= x <= hi)%Q -> (clamp lo hi x == x)%Q.
Proof. intros H. apply (clamp_nearest lo hi x); lra. Qed.

(** * Floor and ceiling of a position between 0 and n - 1 *)
Lemma floor_ceil b : let l := Qfloor b in let u := Qceiling b in (inject_Z l <= b < inject_Z l + 1)%Q /\ ((b == inject_Z l)%Q -> u = l) /\ (~ (b == inject_Z l)%Q -> u = (l + 1)%Z).
Proof.
  cbn zeta. pose proof (Qfloor_le b) as F1. pose proof (Qlt_floor b) as F2. pose proof (Qle_ceiling b) as C1. pose proof (Qceiling_lt b) as C2.
  rewrite inject_Z_plus in F2. change (inject_Z 1) with 1%Q in F2. unfold Z.sub in C2. rewrite inject_Z_plus in C2. change (inject_Z (- (1))) with (-1)%Q in C2.
  split; [split; assumption|]. split; intros H.
  - assert (Qceiling b <= Qfloor b)%Z; [|assert (Qfloor b <= Qceiling b)%Z; [|lia]]; rewrite <- ?Zle_Qle.
    + assert (inject_Z (Qceiling b) < inject_Z (Qfloor b) + 1)%Q by lra. change 1%Q with (inject_Z 1) in H0. rewrite <- inject_Z_plus in H0. rewrite <- Zlt_Qlt in H0. lia.
    + rewrite Zle_Qle. lra.
  - assert (inject_Z (Qfloor b) < b)%Q. { destruct (Qlt_le_dec (inject_Z (Qfloor b)) b); [assumption|]. exfalso. apply H. lra. }
    assert (inject_Z (Qfloor b) < inject_Z (Qceiling b))%Q by lra. assert (inject_Z (Qceiling b) < inject_Z (Qfloor b) + 2)%Q by lra.
    change 2%Q with (inject_Z 2) in H2. rewrite <- inject_Z_plus in H2. rewrite <- Zlt_Qlt in H1, H2. lia.
Qed.

Lemma range b n : (0 <= b <= inject_Z (Z.of_nat n - 1))%Q -> (0 <= Qfloor b < Z.of_nat n)%Z /\ (0 <= Qceiling b < Z.of_nat n)%Z.
Proof.
  intros [H1 H2]. assert (A : (0 <= Qfloor b)%Z). { apply (Qfloor_resp_le 0 b) in H1. exact H1. }
  assert (B : (Qceiling b <= Z.of_nat n - 1)%Z). { apply Qceiling_resp_le in H2. rewrite Qceiling_Z in H2. exact H2. }
  destruct (floor_ceil b) as [[F1 F2] [F3 F4]]. destruct (Qeq_dec b (inject_Z (Qfloor b))) as [E|E]; [specialize (F3 E)|specialize (F4 E)]; lia.
Qed.

(** * add_at and scatter_add *)
Lemma add_at_ok m : forall i v, i < length m -> exists m', add_at m i v = Ok m' /\ length m' = length m /\
  forall j, (nth j m' 0 == nth j m 0 + (if i =? j then v else 0))%Q.
Proof.
  induction m as [|x m IH]; intros [|i] v; cbn [length]; intros H; try lia.
  - eexists. split; [reflexivity|]. split; [reflexivity|]. intros [|j]; cbn; ring.
  - destruct (IH i v ltac:(lia)) as (m' & E & L & N). exists (x :: m'). cbn [add_at]. rewrite E. split; [reflexivity|]. split; [cbn; lia|]. intros [|j]; cbn; [ring|apply N].
Qed.
Fixpoint added (ivs : list (Z * Q)) (j : nat) : Q := match ivs with [] => 0%Q | (i, v) :: t => ((if (i =? Z.of_nat j)%Z then v else 0) + added t j)%Q end.
Lemma scatter_ok ivs : forall m, Forall (fun p => (0 <= fst p < Z.of_nat (length m))%Z) ivs -> exists m', scatter_add m ivs = Ok m' /\ length m' = length m /\
  forall j, (nth j m' 0 == nth j m 0 + added ivs j)%Q.
Proof.
  induction ivs as [|[i v] ivs IH]; intros m F; [exists m; repeat split; intros; cbn; ring|]. inversion F as [|? ? H F']; subst. cbn [fst] in H.
  destruct (add_at_ok m (Z.to_nat i) v ltac:(lia)) as (m1 & E & L & N). destruct (IH m1) as (m2 & E2 & L2 & N2); [rewrite L; exact F'|].
  exists m2. cbn [scatter_add]. destruct (Z.ltb_spec i 0); [lia|]. cbn [rbind]. rewrite E. cbn [rbind]. split; [exact E2|]. split; [lia|]. intros j. rewrite N2, N. cbn [added].
  destruct (Nat.eqb_spec (Z.to_nat i) j), (Z.eqb_spec i (Z.of_nat j)); try lia; ring.
Qed.

(** * Sums over indices *)
Lemma total_nth l : (total l == total (map (fun j => nth j l 0) (seq 0 (length l))))%Q.
Proof. induction l as [|x l IH]; [reflexivity|]. cbn [length seq map total nth]. rewrite <- seq_shift, map_map. rewrite IH at 1. reflexivity. Qed.
Lemma mean_nth v_min delta l : forall k, (mean_of l (map (fun i => v_min + delta * inject_Z (Z.of_nat i)) (seq k (length l))) == total (map (fun j => nth j l 0 * (v_min + delta * inject_Z (Z.of_nat (k + j)))) (seq 0 (length l))))%Q.
Proof.
  induction l as [|x l IH]; intros k; [reflexivity|]. cbn [length seq map mean_of total nth]. rewrite IH. rewrite <- seq_shift, map_map. rewrite Nat.add_0_r.
  apply Qplus_comp; [reflexivity|]. generalize (seq 0 (length l)). intros s. induction s as [|j s IHs]; cbn [map total nth]; [reflexivity|]. rewrite IHs. replace (k + S j) with (S k + j) by lia. reflexivity.
Qed.
Lemma total_ext {X} (f g : X -> Q) l : (forall x, In x l -> (f x == g x)%Q) -> (total (map f l) == total (map g l))%Q.
Proof. induction l as [|x l IH]; intros H; [reflexivity|]. cbn [map total]. rewrite (H x (or_introl eq_refl)), IH; [reflexivity|]. intros y Hy. apply H. right. exact Hy. Qed.
Lemma total_plus {X} (f g : X -> Q) l : (total (map (fun x => f x + g x) l) == total (map f l) + total (map g l))%Q.
Proof. induction l as [|x l IH]; cbn [map total]; [ring|]. rewrite IH. ring. Qed.
Lemma total_scale {X} (c : Q) (f : X -> Q) l : (total (map (fun x => c * f x) l) == c * total (map f l))%Q.
Proof. induction l as [|x l IH]; cbn [map total]; [ring|]. rewrite IH. ring. Qed.
Lemma total_zero {X} (l : list X) : (total (map (fun _ => 0) l) == 0)%Q.
Proof. induction l as [|x l IH]; cbn [map total]; [reflexivity|]. rewrite IH. ring. Qed.
(** a single index contributes *)
Lemma total_delta (g : nat -> Q) n : forall k i, (Z.of_nat k <= i < Z.of_nat (k + n))%Z -> (total (map (fun j => (if (i =? Z.of_nat j)%Z then 1 else 0) * g j) (seq k n)) == g (Z.to_nat i))%Q.
Proof.
  induction n as [|n IH]; intros k i H; [lia|]. cbn [seq map total]. destruct (Z.eqb_spec i (Z.of_nat k)) as [E|E].
  - assert (Z0 : (total (map (fun j => (if (i =? Z.of_nat j)%Z then 1 else 0) * g j) (seq (S k) n)) == 0)%Q).
    { rewrite <- (total_zero (seq (S k) n)). apply total_ext. intros j Hj. apply in_seq in Hj. destruct (Z.eqb_spec i (Z.of_nat j)); [lia|ring]. }
    rewrite Z0. replace (Z.to_nat i) with k by lia. ring.
  - rewrite IH by lia. ring.
Qed.
Lemma total_swap {X Y} (f : X -> Y -> Q) xs ys : (total (map (fun x => total (map (fun y => f x y) ys)) xs) == total (map (fun y => total (map (fun x => f x y) xs)) ys))%Q.
Proof.
  induction xs as [|x xs IH]; cbn [map total]; [symmetry; apply total_zero|]. rewrite IH. rewrite <- total_plus. apply total_ext. intros y _. reflexivity.
Qed.

(** * The share given to atom j by a value at position b *)
Definition wt (b : Q) (j : nat) : Q :=
  ((if (Qfloor b =? Z.of_nat j)%Z then 1 else 0) * (1 - (b - inject_Z (Qfloor b))) + (if (Qceiling b =? Z.of_nat j)%Z then 1 else 0) * (b - inject_Z (Qfloor b)))%Q.

Lemma wt_total b n : (0 <= b <= inject_Z (Z.of_nat n - 1))%Q -> (total (map (wt b) (seq 0 n)) == 1)%Q.
Proof.
  intros H. destruct (range b n H) as [R1 R2]. unfold wt. rewrite total_plus.
  rewrite (total_delta (fun _ => 1 - (b - inject_Z (Qfloor b)))%Q n 0 (Qfloor b)) by lia. rewrite (total_delta (fun _ => b - inject_Z (Qfloor b))%Q n 0 (Qceiling b)) by lia. ring.
Qed.
Lemma wt_mean b n v_min delta : (0 <= b <= inject_Z (Z.of_nat n - 1))%Q ->
  (total (map (fun j => wt b j * (v_min + delta * inject_Z (Z.of_nat j))) (seq 0 n)) == v_min + delta * b)%Q.
Proof.
  intros H. destruct (range b n H) as [R1 R2].
  rewrite (total_ext _ (fun j => (if (Qfloor b =? Z.of_nat j)%Z then 1 else 0) * ((1 - (b - inject_Z (Qfloor b))) * (v_min + delta * inject_Z (Z.of_nat j))) +
     (if (Qceiling b =? Z.of_nat j)%Z then 1 else 0) * ((b - inject_Z (Qfloor b)) * (v_min + delta * inject_Z (Z.of_nat j)))))%Q by (intros; unfold wt; ring).
  rewrite total_plus.
  rewrite (total_delta (fun j => (1 - (b - inject_Z (Qfloor b))) * (v_min + delta * inject_Z (Z.of_nat j)))%Q n 0 (Qfloor b)) by lia.
  rewrite (total_delta (fun j => (b - inject_Z (Qfloor b)) * (v_min + delta * inject_Z (Z.of_nat j)))%Q n 0 (Qceiling b)) by lia.
  rewrite !Z2Nat.id by lia. destruct (floor_ceil b) as [[F1 F2] [F3 F4]]. destruct (Qeq_dec b (inject_Z (Qfloor b))) as [E|E].
  - rewrite (F3 E). clear - E. set (F := inject_Z (Qfloor b)) in *. clearbody F. rewrite E. ring.
  - rewrite (F4 E). rewrite inject_Z_plus. change (inject_Z 1) with 1%Q. ring.
Qed.
Lemma wt_nonneg b j : (0 <= wt b j)%Q.
Proof. unfold wt. destruct (floor_ceil b) as [[F1 F2] _]. destruct (_ =? _)%Z, (_ =? _)%Z; nra. Qed.

Lemma Qabs_case x : ((0 <= x)%Q /\ (Qabs x == x)%Q) \/ ((x < 0)%Q /\ (Qabs x == - x)%Q).
Proof. destruct (Qlt_le_dec x 0) as [H|H]; [right|left]; split; try assumption; [apply Qabs_neg; lra|apply Qabs_pos; lra]. Qed.
Lemma wt_share b j v_min delta c : (0 < delta)%Q -> (c == v_min + delta * b)%Q -> (wt b j == share delta (c - (v_min + delta * inject_Z (Z.of_nat j))))%Q.
Proof.
  intros Hd Hc. unfold share. assert (E : (Qabs (c - (v_min + delta * inject_Z (Z.of_nat j))) / delta == Qabs (b - inject_Z (Z.of_nat j)))%Q).
  { setoid_replace (c - (v_min + delta * inject_Z (Z.of_nat j)))%Q with (delta * (b - inject_Z (Z.of_nat j)))%Q by (rewrite Hc; ring). rewrite Qabs_Qmult. rewrite (Qabs_pos delta) by lra. field. lra. }
  rewrite E. clear E Hc. unfold wt. destruct (floor_ceil b) as [[F1 F2] [F3 F4]].
  destruct (Qeq_dec b (inject_Z (Qfloor b))) as [Eb|Eb].
  - rewrite (F3 Eb). destruct (Z.eqb_spec (Qfloor b) (Z.of_nat j)) as [J|J].
    + rewrite <- J. rewrite Eb at 3. setoid_replace (b - inject_Z (Qfloor b))%Q with 0%Q by lra. setoid_replace (inject_Z (Qfloor b) - inject_Z (Qfloor b))%Q with 0%Q by ring. reflexivity.
    + assert (G : (1 <= Qabs (b - inject_Z (Z.of_nat j)))%Q).
      { rewrite Eb at 1. unfold Qminus. rewrite <- inject_Z_opp, <- inject_Z_plus. unfold Qabs, inject_Z, Qle. cbn. lia. }
      destruct (Qmax_case 0 (1 - Qabs (b - inject_Z (Z.of_nat j)))%Q) as [[A1 A2]|[A1 A2]]; rewrite A2; lra.
  - rewrite (F4 Eb). assert (L : (inject_Z (Qfloor b) < b)%Q). { destruct (Qlt_le_dec (inject_Z (Qfloor b)) b); [assumption|]. exfalso. apply Eb. lra. }
    destruct (Z.eqb_spec (Qfloor b) (Z.of_nat j)) as [J|J]; destruct (Z.eqb_spec (Qfloor b + 1) (Z.of_nat j)) as [J'|J']; try lia.
    + rewrite <- J. rewrite Qabs_pos by lra. destruct (Qmax_case 0 (1 - (b - inject_Z (Qfloor b)))%Q) as [[A1 A2]|[A1 A2]]; rewrite A2; lra.
    + rewrite <- J'. rewrite inject_Z_plus. change (inject_Z 1) with 1%Q. rewrite Qabs_neg by lra.
      destruct (Qmax_case 0 (1 - - (b - (inject_Z (Qfloor b) + 1)))%Q) as [[A1 A2]|[A1 A2]]; rewrite A2; lra.
    + assert (G : (1 <= Qabs (b - inject_Z (Z.of_nat j)))%Q).
      { destruct (Z_lt_le_dec (Z.of_nat j) (Qfloor b)) as [K|K].
        - assert (K' : (inject_Z (Z.of_nat j) + 1 <= inject_Z (Qfloor b))%Q) by (change 1%Q with (inject_Z 1); rewrite <- inject_Z_plus, <- Zle_Qle; lia). rewrite Qabs_pos by lra. lra.
        - assert (K' : (inject_Z (Qfloor b) + 2 <= inject_Z (Z.of_nat j))%Q) by (change 2%Q with (inject_Z 2); rewrite <- inject_Z_plus, <- Zle_Qle; lia). rewrite Qabs_neg by lra. lra. }
      destruct (Qmax_case 0 (1 - Qabs (b - inject_Z (Z.of_nat j)))%Q) as [[A1 A2]|[A1 A2]]; rewrite A2; lra.
Qed.

(** * The projection *)
Lemma zip_pairs (y probs : list Q) : length probs = length y -> exists l : list (Q * Q), y = map fst l /\ probs = map snd l.
Proof. revert probs. induction y as [|a y IH]; intros [|p ps]; cbn; intros L; try discriminate; [exists []; auto|]. destruct (IH ps) as (l & -> & ->); [congruence|]. exists ((a, p) :: l). auto. Qed.
Lemma added_map {X} (f : X -> Z) (g : X -> Q) l j : (added (map (fun x => (f x, g x)) l) j == total (map (fun x => (if (f x =? Z.of_nat j)%Z then 1 else 0) * g x) l))%Q.
Proof. induction l as [|x l IH]; cbn [map added total]; [reflexivity|]. rewrite IH. destruct (_ =? _)%Z; ring. Qed.
Lemma nth_atoms v_min delta n j d : j < n -> nth j (atoms v_min delta n) d = (v_min + delta * inject_Z (Z.of_nat j))%Q.
Proof. intros H. unfold atoms. rewrite (nth_indep _ d (v_min + delta * inject_Z (Z.of_nat 0))%Q) by (rewrite map_length, seq_length; exact H). rewrite (map_nth (fun i => v_min + delta * inject_Z (Z.of_nat i))%Q). rewrite seq_nth by lia. reflexivity. Qed.
Lemma nth_repeat0 n j : nth j (repeat 0%Q n) 0%Q = 0%Q.
Proof. revert j. induction n; intros [|j]; cbn; auto. Qed.

Section Projection.
  Variables (v_min delta : Q) (n : nat) (y probs : list Q).
  Hypotheses (Hn : 2 <= n) (Hd : (0 < delta)%Q) (Ly : length y = n) (Lp : length probs = n).
  Let v_max : Q := (v_min + delta * inject_Z (Z.of_nat (n - 1)))%Q.
  Let z := atoms v_min delta n.

  Lemma v_range : (v_min <= v_max)%Q.
  Proof. unfold v_max. assert (0 <= inject_Z (Z.of_nat (n - 1)))%Q by (change 0%Q with (inject_Z 0); rewrite <- Zle_Qle; lia). nra. Qed.

  Lemma project_ok : exists p, apply_categorical_projection y probs z = Ok p /\ length p = n /\
    exists bs, Forall2 (fun b yp => (0 <= b <= inject_Z (Z.of_nat n - 1))%Q /\ nearest_in v_min v_max (fst yp) (v_min + delta * b)) bs (combine y probs) /\
    forall j, j < n -> (nth j p 0 == total (map (fun bp => snd (snd bp) * wt (fst bp) j) (combine bs (combine y probs))))%Q.
  Proof.
    destruct (zip_pairs y probs) as (l & Ey & Ep); [congruence|]. unfold apply_categorical_projection. rewrite Ly.
    assert (Lz : length z = n) by (unfold z, atoms; now rewrite map_length, seq_length).
    rewrite Lz, Lp, Nat.eqb_refl. cbn [passert rbind].
    assert (G : forall k, k < n -> py_get z (Z.of_nat k) = Ok (v_min + delta * inject_Z (Z.of_nat k))%Q).
    { intros k Hk. unfold py_get. destruct (Z.ltb_spec (Z.of_nat k) 0); [lia|]. destruct (Z.ltb_spec (Z.of_nat k) 0); [lia|]. rewrite Nat2Z.id. rewrite (nth_error_nth' z 0%Q) by lia. unfold z. rewrite nth_atoms by exact Hk. reflexivity. }
    pose proof (G 1 ltac:(lia)) as G1. pose proof (G 0 ltac:(lia)) as G0. change (Z.of_nat 1) with 1%Z in G1. change (Z.of_nat 0) with 0%Z in G0. rewrite G1, G0. cbn [rbind].
    assert (GL : py_get z (-1) = Ok v_max).
    { unfold py_get. change (-1 <? 0)%Z with true. cbn iota. rewrite Lz. destruct (Z.ltb_spec (-1 + Z.of_nat n) 0); [lia|]. rewrite (nth_error_nth' z 0%Q) by lia. unfold z. rewrite nth_atoms by lia. unfold v_max. replace (Z.to_nat (-1 + Z.of_nat n)) with (n - 1) by lia. reflexivity. }
    rewrite GL. cbn [rbind]. set (vm := (v_min + delta * inject_Z 0)%Q). assert (Evm : (vm == v_min)%Q) by (unfold vm; change (inject_Z 0) with 0%Q; ring).
    set (dz := (v_min + delta * inject_Z 1 - vm)%Q). assert (Edz : (dz == delta)%Q) by (unfold dz; rewrite Evm; change (inject_Z 1) with 1%Q; ring).
    assert (El : combine y probs = l). { rewrite Ey, Ep. clear. induction l as [|[a b] l IH]; cbn; congruence. }
    rewrite El. rewrite Ey, Ep.
    set (B := fun x : Q => clamp 0 (inject_Z (Z.of_nat n - 1)) ((clamp vm v_max x - vm) / dz)%Q).
    assert (EM : map (clamp 0 (inject_Z (Z.of_nat n - 1))) (map (fun y0 : Q => ((y0 - vm) / dz)%Q) (map (clamp vm v_max) (map fst l))) = map (fun x : Q * Q => B (fst x)) l) by (rewrite !map_map; reflexivity).
    rewrite EM. clear EM.
    (* positions *)
    assert (HB : forall x, (0 <= B x <= inject_Z (Z.of_nat n - 1))%Q /\ nearest_in v_min v_max x (v_min + delta * B x)).
    { intros x. pose proof v_range as VR. assert (VR' : (vm <= v_max)%Q) by lra. pose proof (clamp_nearest vm v_max x VR') as C0. unfold B. set (c := clamp vm v_max x) in *. clearbody c.
      assert (C : nearest_in v_min v_max x c). { destruct C0 as ([C1 C1'] & C2 & C3 & C4). split; [lra|]. split; [intros; apply C2; lra|]. split; [intros; assert (c == vm)%Q by (apply C3; lra); lra|intros; apply C4; lra]. }
      assert (N1 : (0 <= inject_Z (Z.of_nat n - 1))%Q) by (change 0%Q with (inject_Z 0); rewrite <- Zle_Qle; lia).
      assert (P : (v_min + delta * ((c - vm) / dz) == c)%Q) by (rewrite Edz, Evm; field; lra).
      assert (R : (0 <= (c - vm) / dz <= inject_Z (Z.of_nat n - 1))%Q).
      { set (q := ((c - vm) / dz)%Q) in *. clearbody q. destruct C as ([C1 C1'] & _). unfold v_max in C1'. replace (Z.of_nat (n - 1)) with (Z.of_nat n - 1)%Z in C1' by lia. split; nra. }
      pose proof (clamp_id _ _ _ R) as EB. split; [rewrite EB; exact R|].
      assert (PB : (v_min + delta * clamp 0 (inject_Z (Z.of_nat n - 1)) ((c - vm) / dz) == c)%Q) by (rewrite EB; exact P).
      set (q := (v_min + delta * _)%Q) in *. clearbody q. destruct C as ([C1 C1'] & C2 & C3 & C4). split; [lra|]. split; [intros; rewrite PB; apply C2; lra|]. split; [intros; rewrite PB; apply C3; lra|intros; rewrite PB; apply C4; lra]. }
    clearbody B. clear Evm Edz vm dz GL G0 G1 G.
    rewrite !map_map, !combine_map, !map_map.
    destruct (scatter_ok (map (fun x : Q * Q => (Qfloor (B (fst x)), (snd x * (1 - (B (fst x) - inject_Z (Qfloor (B (fst x))))))%Q)) l) (repeat 0%Q n)) as (m1 & E1 & L1 & N1).
    { rewrite repeat_length. apply Forall_forall. intros p Hp. apply in_map_iff in Hp. destruct Hp as (x & <- & _). cbn [fst]. apply (range _ n). apply HB. }
    rewrite combine_map. rewrite E1. cbn [rbind]. rewrite repeat_length in L1.
    destruct (scatter_ok (map (fun x : Q * Q => (Qceiling (B (fst x)), (snd x * (B (fst x) - inject_Z (Qfloor (B (fst x)))))%Q)) l) m1) as (m2 & E2 & L2 & N2).
    { rewrite L1. apply Forall_forall. intros p Hp. apply in_map_iff in Hp. destruct Hp as (x & <- & _). cbn [fst]. apply (range _ n). apply HB. }
    rewrite combine_map. rewrite E2. exists m2. split; [reflexivity|]. split; [lia|]. exists (map (fun x => B (fst x)) l). 
    split.
    - clear - HB. induction l as [|x l IH]; cbn [map]; constructor; [apply HB|exact IH].
    - intros j Hj. rewrite N2, N1, nth_repeat0. rewrite !added_map, Qplus_0_l. rewrite <- total_plus.
      clear - l. induction l as [|x l IH]; cbn [map combine total fst snd]; [reflexivity|]. rewrite IH. unfold wt. destruct (_ =? _)%Z, (_ =? _)%Z; ring.
  Qed.

  (** [c] are the values moved into the range of the atoms *)
  Lemma project_spec : exists p c, apply_categorical_projection y probs z = Ok p /\ length p = n /\ Forall2 (nearest_in v_min v_max) y c /\
    (forall j, j < n -> (nth j p 0 == mean_of probs (map (fun c => share delta (c - nth j z 0)) c))%Q) /\
    (total p == total probs)%Q /\ (mean_of p z == mean_of probs c)%Q /\ (Forall (fun q => (0 <= q)%Q) probs -> Forall (fun q => (0 <= q)%Q) p).
  Proof.
    destruct project_ok as (p & E & L & bs & F & N). exists p, (map (fun b => v_min + delta * b)%Q bs). split; [exact E|]. split; [exact L|].
    destruct (zip_pairs y probs) as (l & Ey & Ep); [congruence|]. assert (El : combine y probs = l). { rewrite Ey, Ep. clear. induction l as [|[a b] l IH]; cbn; congruence. }
    rewrite El in F, N. assert (W : forall (w : Q -> Q), (total (map (fun bp => snd (snd bp) * w (fst bp)) (combine bs l)) == mean_of probs (map w bs))%Q).
    { intros w. rewrite Ep. clear - F. induction F as [|b x bs l H F IH]; cbn [combine map total mean_of fst snd]; [reflexivity|]. rewrite IH. reflexivity. }
    split; [|split; [|split; [|split]]].
    - rewrite Ey. clear - F. induction F as [|b x bs l H F IH]; cbn [map]; constructor; [apply H|exact IH].
    - intros j Hj. rewrite (N j Hj). rewrite (W (fun b => wt b j)). unfold z. rewrite nth_atoms by exact Hj. rewrite map_map. clear - Hd. revert probs. induction bs as [|b bs IH]; intros [|q ps]; cbn [map mean_of]; try reflexivity. rewrite IH. rewrite (wt_share b j v_min delta (v_min + delta * b)%Q Hd) by reflexivity. reflexivity.
    - rewrite total_nth, L. rewrite (total_ext _ (fun j => total (map (fun bp => snd (snd bp) * wt (fst bp) j) (combine bs l)))%Q) by (intros j Hj; apply in_seq in Hj; apply N; lia).
      rewrite (total_swap (fun j bp => snd (snd bp) * wt (fst bp) j)%Q (seq 0 n) (combine bs l)). rewrite Ep. clear - F. induction F as [|b x bs l H F IH]; cbn [combine map total fst snd]; [reflexivity|].
      rewrite IH. rewrite (total_scale (snd x) (wt b)). rewrite (wt_total b n) by apply H. ring.
    - unfold z, atoms. rewrite <- L at 1. rewrite (mean_nth v_min delta p 0). rewrite L. cbn [Nat.add].
      rewrite (total_ext _ (fun j => total (map (fun bp => snd (snd bp) * (wt (fst bp) j * (v_min + delta * inject_Z (Z.of_nat j)))) (combine bs l)))%Q).
      2:{ intros j Hj. apply in_seq in Hj. rewrite N by lia. rewrite Qmult_comm, <- total_scale. apply total_ext. intros; ring. }
      rewrite (total_swap (fun j bp => snd (snd bp) * (wt (fst bp) j * (v_min + delta * inject_Z (Z.of_nat j))))%Q (seq 0 n) (combine bs l)). rewrite Ep. clear - F. induction F as [|b x bs l H F IH]; cbn [combine map total mean_of fst snd]; [reflexivity|].
      rewrite IH. rewrite (total_scale (snd x) (fun j => wt b j * (v_min + delta * inject_Z (Z.of_nat j)))%Q). rewrite (wt_mean b n) by apply H. reflexivity.
    - intros HP. apply Forall_forall. intros q Hq. apply (In_nth p q 0%Q) in Hq. destruct Hq as (j & Hj & <-). rewrite L in Hj. rewrite (N j Hj). rewrite Ep in HP. clear - F HP.
      induction F as [|b x bs l H F IH]; cbn [combine map total fst snd]; [lra|]. cbn [map] in HP. inversion HP; subst. specialize (IH H3). pose proof (wt_nonneg b j). nra.
  Qed.
End Projection.

(** * Targets *)
Lemma nearest_in_eq lo hi x x' c : (x == x')%Q -> nearest_in lo hi x c -> nearest_in lo hi x' c.
Proof. intros E ([C1 C1'] & C2 & C3 & C4). split; [lra|]. split; [intros; rewrite <- E; apply C2; lra|]. split; intros; [apply C3|apply C4]; lra. Qed.
Lemma mean_dot p z : mean_of p z = dot p z.
Proof. revert z. induction p as [|a p IH]; intros [|b z]; cbn; congruence. Qed.

Section CTargets.
  Context {S A : Type}.
  Variables (gamma v_min delta : Q) (n : nat) (exps : list (list (trans (exper S A)))).
  Hypotheses (Hne : Forall (fun w => w <> []) exps) (Hn : 2 <= n) (Hd : (0 < delta)%Q).
  Let z := atoms v_min delta n.

  Lemma row_target (w : list (trans (exper S A))) s a r ns tm dc dist : entry_ok gamma w s a r ns tm dc -> length dist = n ->
    exists t, apply_categorical_projection (shifted_atoms r dc tm z) dist z = Ok t /\ is_target gamma w v_min delta n dist t /\ (Forall (fun q => (0 <= q)%Q) dist -> Forall (fun q => (0 <= q)%Q) t).
  Proof.
    intros He L. destruct (project_spec v_min delta n (shifted_atoms r dc tm z) dist Hn Hd) as (t & c & E & Lt & F & K & T & M & P); [unfold shifted_atoms, z, atoms; now rewrite !map_length, seq_length|exact L|].
    exists t. split; [exact E|]. split; [|exact P]. exists c. split; [|auto]. unfold shifted_atoms in F. fold z. clear - F He. clearbody z. revert c F. induction z as [|x l IH]; intros c F; inversion F as [|? y ? c' H F']; subst; constructor; [|apply IH; exact F'].
    eapply nearest_in_eq; [|exact H]. destruct (entry_target gamma w s a r ns tm dc x He) as [<- _]. ring.
  Qed.

  Lemma project_rows_ok (b : batch S A) rows (P : row S A -> list Q -> Prop) dists :
    b_reward b = map r_r rows -> b_discount b = map r_dc rows -> b_terminal b = map r_tm rows ->
    Forall2 (fun w x => entry_ok gamma w (r_s x) (r_a x) (r_r x) (r_ns x) (r_tm x) (r_dc x)) exps rows -> Forall2 P rows dists -> Forall (fun d => length d = n) dists ->
    exists ts, project_rows b dists z = Ok ts /\
      Forall2 (fun w t => exists x dist, from_to w (r_s x) (r_a x) (r_ns x) /\ P x dist /\ is_target gamma w v_min delta n dist t /\ (Forall (fun q => (0 <= q)%Q) dist -> Forall (fun q => (0 <= q)%Q) t)) exps ts.
  Proof.
    intros E3 E6 E5 F. unfold project_rows. rewrite E3, E5, E6. clear E3 E5 E6 Hne. revert dists. induction F as [|w x exps' rows' He F IH]; intros dists FP FL; inversion FP as [|? d ? ds HP FP']; subst.
    - exists []. split; constructor.
    - apply Forall_cons_iff in FL. destruct FL as [Ld FL']. destruct (IH ds FP' FL') as (ts & E & FT). destruct (row_target _ _ _ _ _ _ _ d He Ld) as (t & Et & HT & HP').
      exists (t :: ts). cbn [map combine rmapM]. fold z. rewrite Et. cbn [rbind]. fold z in E. rewrite E. split; [reflexivity|]. constructor; [|exact FT]. exists x, d.
      split; [apply (entry_target gamma w _ _ _ _ _ _ 0%Q He)|]. auto.
  Qed.
End CTargets.
