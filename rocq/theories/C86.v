(** C86: dueling networks combine state value and advantages identifiably. *)
From Coq Require Import QArith Lqa Qfield.
From Verif Require Import Base Vec M_Dueling.
Open Scope Q_scope.

Lemma qnat_pos n : (0 < n)%nat -> 0 < qnat n.
Proof. intros H. unfold qnat. change 0 with (inject_Z 0). rewrite <- Zlt_Qlt. lia. Qed.
Lemma qnat_S n : qnat (S n) == qnat n + 1.
Proof. unfold qnat. rewrite Nat2Z.inj_succ, <- Z.add_1_r, inject_Z_plus. reflexivity. Qed.
Lemma qtotal_shift c l : qtotal (map (fun a => a + c) l) == qtotal l + qnat (length l) * c.
Proof. induction l as [|x l IH]; [unfold qnat; cbn; ring|]. cbn [map qtotal length]. rewrite IH, qnat_S. ring. Qed.
Lemma qtotal_sub c l : qtotal (map (fun a => a - c) l) == qtotal l - qnat (length l) * c.
Proof. induction l as [|x l IH]; [unfold qnat; cbn; ring|]. cbn [map qtotal length]. rewrite IH, qnat_S. ring. Qed.

(** For every number of actions and all outputs of the two streams: the average of the action values is the
    state value; differences of action values are differences of advantages, so that the two rank the actions
    alike; and the action values do not change when the same number is added to all advantages. *)
Theorem C86_dueling : forall n ya ys, (0 < n)%nat -> length ya = n ->
  let q := dueling n ya ys in
  length q = n
  /\ qtotal q / qnat n == ys
  /\ (forall a b, (a < n)%nat -> (b < n)%nat ->
        nth a q 0 - nth b q 0 == nth a ya 0 - nth b ya 0
        /\ (nth a q 0 <= nth b q 0 <-> nth a ya 0 <= nth b ya 0))
  /\ (forall c, veq (dueling n (map (fun x => x + c) ya) ys) q).
Proof.
  intros n ya ys Hn L. pose proof (qnat_pos n Hn) as Hq. unfold dueling. cbn zeta.
  set (m := qtotal ya / qnat n).
  assert (Hnth : forall a, (a < n)%nat -> nth a (map (fun x => x + ys) (map (fun x => x - m) ya)) 0 == nth a ya 0 - m + ys).
  { intros a Ha. rewrite map_map. rewrite (nth_indep _ 0 (0 - m + ys)) by (rewrite map_length; lia).
    rewrite (map_nth (fun x => x - m + ys)). reflexivity. }
  split; [rewrite !map_length; exact L|]. split; [|split].
  - rewrite qtotal_shift, qtotal_sub, map_length, L. unfold m. field. lra.
  - intros a b Ha Hb. rewrite (Hnth a Ha), (Hnth b Hb). split; [ring|]. split; intros H; lra.
  - intros c. assert (E : qtotal (map (fun x => x + c) ya) / qnat n == m + c) by (rewrite qtotal_shift, L; unfold m; field; lra).
    set (m' := qtotal (map (fun x => x + c) ya) / qnat n) in *. clearbody m m'. rewrite !map_map. clear Hnth L.
    induction ya as [|x l IH]; cbn [map]; constructor; [rewrite E; ring|exact IH].
Qed.

Lemma qtotal_pos l : l <> [] -> Forall (fun x => 0 < x) l -> 0 < qtotal l.
Proof.
  intros N F. destruct l as [|x l]; [congruence|]. clear N. revert x F. induction l as [|y l IH]; intros x F; inversion F as [|? ? P Q]; subst.
  - cbn. lra.
  - cbn [qtotal]. assert (0 < qtotal (y :: l)) by (apply IH; exact Q). cbn [qtotal] in *. lra.
Qed.

Lemma softmax_spec ex l : (forall x, 0 < ex x) -> l <> [] ->
  length (softmax ex l) = length l /\ Forall (fun p => 0 < p) (softmax ex l) /\ qtotal (softmax ex l) == 1.
Proof.
  intros He N. assert (Hp : 0 < qtotal (map ex l)).
  { apply qtotal_pos; [destruct l; cbn; congruence|]. apply Forall_map. apply Forall_forall. intros x _. apply He. }
  unfold softmax. split; [apply map_length|]. split.
  - apply Forall_map, Forall_forall. intros x _. apply Qlt_shift_div_l; [exact Hp|]. specialize (He x). lra.
  - set (s := qtotal (map ex l)) in *. assert (E : forall k, qtotal (map (fun x => ex x / s) k) == qtotal (map ex k) / s).
    { induction k as [|x k IH]; cbn [map qtotal]; [field; lra|]. rewrite IH. field. lra. }
    rewrite E. fold s. field. lra.
Qed.

Lemma mean_within p z lo hi : length p = length z -> Forall (fun x => 0 < x) p -> qtotal p == 1 ->
  Forall (fun x => lo <= x <= hi) z -> lo <= vdot p z <= hi.
Proof.
  intros L P S B. assert (G : lo * qtotal p <= vdot p z <= hi * qtotal p).
  { clear S. revert z L B. induction p as [|x p IH]; intros [|y z] L B; cbn [length] in L; try discriminate; [cbn; lra|].
    inversion P; subst. inversion B; subst. cbn [vdot qtotal]. destruct (IH H2 z ltac:(congruence) H4) as [I1 I2]. nra. }
  rewrite S in G. lra.
Qed.

Lemma linspace_within lo hi n : lo < hi -> (2 <= n)%nat -> length (linspace lo hi n) = n /\ Forall (fun x => lo <= x <= hi) (linspace lo hi n).
Proof.
  intros L N. unfold linspace. split; [now rewrite map_length, seq_length|]. apply Forall_map, Forall_forall. intros i Hi. apply in_seq in Hi.
  assert (P : 0 < qnat (n - 1)) by (apply qnat_pos; lia).
  assert (I0 : 0 <= qnat i) by (unfold qnat; change 0 with (inject_Z 0); rewrite <- Zle_Qle; lia).
  assert (I1 : qnat i <= qnat (n - 1)) by (unfold qnat; rewrite <- Zle_Qle; lia).
  assert (E : qnat i * ((hi - lo) / qnat (n - 1)) == (qnat i / qnat (n - 1)) * (hi - lo)) by (field; lra).
  assert (R : 0 <= qnat i / qnat (n - 1) <= 1).
  { split; [apply Qle_shift_div_l; lra|apply Qle_shift_div_r; lra]. }
  rewrite E. nra.
Qed.

Lemma sum_rows_len k ya : Forall (fun r => length r = k) ya -> length (sum_rows k ya) = k.
Proof. induction 1; cbn [sum_rows]; [apply vzero_len|]. apply vadd_len; assumption. Qed.

(** The distributional variant: for all outputs of the streams every action gets a probability distribution over
    the atoms, all atoms have positive probability, and the action's value lies between v_min and v_max. *)
Theorem C86_distributional : forall ex n k v_min v_max ya ys, (forall x, 0 < ex x) -> (2 <= k)%nat -> v_min < v_max ->
  length ya = n -> Forall (fun r => length r = k) ya -> length ys = k ->
  let d := dueling_dist ex n k ya ys in
  length d = n
  /\ forall p, In p d -> length p = k /\ Forall (fun x => 0 < x) p /\ qtotal p == 1
       /\ v_min <= dist_value (linspace v_min v_max k) p <= v_max.
Proof.
  intros ex n k v_min v_max ya ys He Hk Hv L F Ly. cbn zeta. unfold dueling_dist.
  split; [now rewrite !map_length|]. intros p Hp. rewrite map_map in Hp. apply in_map_iff in Hp. destruct Hp as (r & <- & Hr).
  rewrite Forall_forall in F. assert (F' := F). specialize (F r Hr).
  assert (Lm : length (vscale (/ qnat n) (sum_rows k ya)) = k) by (apply vscale_len, sum_rows_len, Forall_forall, F').
  assert (Lr : length (vadd (vsub r (vscale (/ qnat n) (sum_rows k ya))) ys) = k) by (apply vadd_len; [apply vsub_len; assumption|exact Ly]).
  set (row := vadd _ _) in *. assert (N : row <> []) by (intros E; rewrite E in Lr; cbn in Lr; lia).
  destruct (softmax_spec ex row He N) as (S1 & S2 & S3). destruct (linspace_within v_min v_max k Hv Hk) as (Z1 & Z2).
  split; [congruence|]. split; [exact S2|]. split; [exact S3|]. unfold dist_value. apply mean_within; auto. congruence.
Qed.

Lemma vsub_common r r' m y : veq r r' -> veq (vadd (vsub r m) y) (vadd (vsub r' m) y).
Proof. intros H. rewrite H. reflexivity. Qed.

(** Adding the same numbers to the advantages of all actions (atom by atom) changes nothing. *)
Theorem C86_distributional_shift : forall ex n k ya ys c, (forall x y, x == y -> ex x == ex y) -> (0 < n)%nat ->
  length ya = n -> Forall (fun r => length r = k) ya -> length ys = k -> length c = k ->
  Forall2 veq (dueling_dist ex n k (map (fun r => vadd r c) ya) ys) (dueling_dist ex n k ya ys).
Proof.
  intros ex n k ya ys c Hex Hn L F Ly Lc. unfold dueling_dist. rewrite !map_map.
  pose proof (qnat_pos n Hn) as Hq.
  assert (Hs : forall l, Forall (fun r => length r = k) l -> veq (sum_rows k (map (fun r => vadd r c) l)) (vadd (sum_rows k l) (vscale (qnat (length l)) c))).
  { intros l Fl. induction Fl as [|r l Hr Fl IH]; cbn [map sum_rows length].
    - clear - Lc. subst k. induction c as [|x c IH]; cbn; constructor; [unfold qnat; cbn; ring|exact IH].
    - rewrite IH. assert (Ls := sum_rows_len k l Fl). revert Hr Ls Lc. generalize (sum_rows k l). generalize (length l). clear.
      intros m s Lr Ls Lc. revert s c k Lr Ls Lc. induction r as [|x r IH]; intros [|y s] [|z c] k Lr Ls Lc; cbn [length] in *; subst k; try discriminate; cbn; constructor.
      + rewrite qnat_S. ring.
      + apply (IH s c (length r)); congruence. }
  specialize (Hs ya F). rewrite L in Hs.
  set (m' := vscale (/ qnat n) (sum_rows k (map (fun r => vadd r c) ya))). set (m := vscale (/ qnat n) (sum_rows k ya)).
  assert (Lm : length m = k) by (apply vscale_len, sum_rows_len, F).
  assert (Hm : veq m' (vadd m c)).
  { unfold m', m. rewrite Hs. assert (Ls := sum_rows_len k ya F). revert Ls Lc. generalize (sum_rows k ya). clear - Hq. intros s Ls Lc. revert s k Ls Lc. induction c as [|z c IH]; intros [|y s] k Ls Lc; cbn [length] in *; subst k; try discriminate; cbn; constructor.
    - field. lra.
    - apply (IH s (length s)); congruence. }
  assert (Hsm : forall a b, veq a b -> veq (softmax ex a) (softmax ex b)).
  { intros a b H. unfold softmax. assert (E : qtotal (map ex a) == qtotal (map ex b)).
    { induction H; cbn [map qtotal]; [reflexivity|]. rewrite IHForall2, (Hex _ _ H). reflexivity. }
    revert E. generalize (qtotal (map ex a)) (qtotal (map ex b)). intros s t E. induction H; cbn [map]; constructor; [rewrite (Hex _ _ H), E; reflexivity|assumption]. }
  clear L Hs. clearbody m m'. induction F as [|r l Hr F IH]; cbn [map]; constructor; [|exact IH].
  apply Hsm. rewrite Hm. assert (E : veq (vsub (vadd r c) (vadd m c)) (vsub r m)); [|now rewrite E].
  clear - Hr Lc Lm. revert c m k Hr Lc Lm. induction r as [|x r IH]; intros [|y c] [|z m] k Hr Lc Lm; cbn [length] in *; subst k; try discriminate; cbn; constructor.
  - ring.
  - apply (IH c m (length r)); congruence.
Qed.

(** Non-trivial instances. *)
Example C86_example : map Qred (dueling 3 [1; 2; 6] 10) = [8; 9; 13].
Proof. vm_compute. reflexivity. Qed.
Example C86_dist_example : map (map Qred) (dueling_dist (fun x => 1 + x * x) 2 2 [[1; 2]; [3; 4]] [1; 1]) = [[1 # 2; 1 # 2]; [1 # 2; 1 # 2]]
  /\ map (map Qred) (dueling_dist (fun x => 1 + x * x) 2 2 [[1; 2]; [3; 6]] [1; 1]) = [[1 # 3; 2 # 3]; [1 # 3; 2 # 3]].
Proof. vm_compute. split; reflexivity. Qed.

Print Assumptions C86_dueling.
Print Assumptions C86_distributional.
Print Assumptions C86_distributional_shift.
