(** C107: the statistics of an evaluation, and scores.txt as a table. *)
From Coq Require Import String QArith Reals Qreals Permutation Sorted Lra.
From Verif Require Import Base M_Scores.
Close Scope Q_scope. Open Scope nat_scope.


(** ** Specification *)
Definition sum_of (l : list Q) : Q := fold_right Qplus 0%Q l.
(** The middle of the numbers in order: the middle one, or half way between the two in the middle. *)
Definition in_the_middle (l : list Q) (m : Q) : Prop :=
  exists d, Permutation d l /\ StronglySorted Qle d /\ exists lo hi, length lo = length hi /\ ((exists x, d = lo ++ [x] ++ hi /\ m = x) \/ exists x y, d = lo ++ [x; y] ++ hi /\ (m * 2 == x + y)%Q).
Definition largest (l : list Q) (m : Q) : Prop := In m l /\ forall x, In x l -> (x <= m)%Q.
Definition smallest (l : list Q) (m : Q) : Prop := In m l /\ forall x, In x l -> (m <= x)%Q.
Definition average (l : list Q) (m : Q) : Prop := (m * inject_Z (Z.of_nat (length l)) == sum_of l)%Q.
(** The sample standard deviation; of a single number, 0. *)
Definition deviation (l : list Q) (m : Q) (s : R) : Prop :=
  (0 <= s)%R /\ (2 <= length l -> (s * s * INR (length l - 1) = Q2R (sum_of (map (fun x => (x - m) * (x - m))%Q l)))%R) /\ (length l = 1 -> s = 0%R).
(** Reading a text: the pieces between separators. *)
Fixpoint split_on (c : nat) (l : text) : list text :=
  match l with
  | [] => [[]]
  | x :: t => if x =? c then [] :: split_on c t else match split_on c t with [] => [[x]] | p :: ps => (x :: p) :: ps end
  end.
(** The table in a text that ends with a newline: lines of cells. *)
Definition table (l : text) : list (list text) := map (split_on tab) (removelast (split_on newline l)).
Definition clean (c : text) : Prop := ~ In tab c /\ ~ In newline c.

(** ** Numbers *)
Lemma total_sum l : (total l == sum_of l)%Q.
Proof.
  unfold total. assert (G : forall a, (fold_left Qplus l a == a + sum_of l)%Q). { induction l as [|x l IH]; intros a; [change (a == a + 0)%Q; ring|]. change (fold_left Qplus l (a + x) == a + (x + sum_of l))%Q. rewrite IH. ring. } rewrite G. ring.
Qed.
Lemma count_pos (l : list Q) : l <> [] -> (0 < inject_Z (Z.of_nat (length l)))%Q.
Proof. intros H. destruct l; [contradiction|]. cbn [length]. change 0%Q with (inject_Z 0). rewrite <- Zlt_Qlt. lia. Qed.
Lemma mean_ok l m : mean l = Ok m -> average l m.
Proof.
  unfold mean, average. destruct l as [|x l]; [discriminate|]. intros E. injection E as <-. unfold count. pose proof (count_pos (x :: l) ltac:(discriminate)) as P. set (n := inject_Z _) in *. clearbody n. rewrite <- total_sum. field. intros Z. rewrite Z in P. discriminate.
Qed.
Lemma insert_perm x l : Permutation (insert x l) (x :: l).
Proof. induction l as [|y l IH]; cbn; [reflexivity|]. destruct (Qle_bool x y); [reflexivity|]. rewrite IH. constructor. Qed.
Lemma sorted_perm l : Permutation (sorted l) l.
Proof. unfold sorted. induction l as [|x l IH]; cbn; [reflexivity|]. rewrite insert_perm. now constructor. Qed.
Lemma insert_sorted x l : StronglySorted Qle l -> StronglySorted Qle (insert x l).
Proof.
  induction 1 as [|y l S IH F]; cbn; [repeat constructor|]. destruct (Qle_bool x y) eqn:E.
  - apply Qle_bool_iff in E. constructor; [now constructor|]. constructor; [exact E|]. eapply Forall_impl; [|exact F]. intros z H. now apply Qle_trans with y.
  - constructor; [exact IH|]. assert (L : (y <= x)%Q). { apply Qlt_le_weak, Qnot_le_lt. intros H. apply Qle_bool_iff in H. congruence. }
    rewrite Forall_forall in *. intros z I. apply (Permutation_in _ (insert_perm x l)) in I. destruct I as [<- | I]; auto.
Qed.
Lemma sorted_sorted l : StronglySorted Qle (sorted l).
Proof. unfold sorted. induction l as [|x l IH]; cbn; [constructor|]. now apply insert_sorted. Qed.
Lemma cut {X} (d : list X) n x0 : n < length d -> d = firstn n d ++ [nth n d x0] ++ skipn (n + 1) d.
Proof.
  revert n. induction d as [|y d IH]; intros n H; cbn in H; [lia|]. destruct n; [reflexivity|]. cbn. f_equal. apply IH. lia.
Qed.
Lemma median_ok l m : median l = Ok m -> in_the_middle l m.
Proof.
  unfold median. set (d := sorted l). intros E. destruct (length d) as [|k] eqn:L; [discriminate|]. set (n := S k) in *. exists d. split; [apply sorted_perm|]. split; [apply sorted_sorted|].
  destruct (n mod 2 =? 1) eqn:O.
  - injection E as <-. apply Nat.eqb_eq in O. pose proof (Nat.div_mod n 2 ltac:(lia)) as D. assert (B : n / 2 < length d) by lia. exists (firstn (n / 2) d), (skipn (n / 2 + 1) d). split; [rewrite firstn_length, skipn_length; lia|].
    left. eexists. split; [apply (cut d (n / 2) 0%Q B)|reflexivity].
  - injection E as <-. apply Nat.eqb_neq in O. pose proof (Nat.div_mod n 2 ltac:(lia)) as D. pose proof (Nat.mod_upper_bound n 2 ltac:(lia)) as M.
    exists (firstn (n / 2 - 1) d), (skipn (n / 2 + 1) d). split; [rewrite firstn_length, skipn_length; lia|]. right. exists (nth (n / 2 - 1) d 0%Q), (nth (n / 2) d 0%Q). split; [|set (x1 := nth _ _ _); set (x2 := nth _ _ _); clearbody x1 x2; field].
    rewrite (cut d (n / 2 - 1) 0%Q) at 1 by lia. f_equal. cbn [app]. f_equal. replace (n / 2 - 1 + 1) with (n / 2) by lia.
    assert (B : n / 2 < length d) by lia. clear - B. rewrite (cut d (n / 2) 0%Q B) at 1. rewrite skipn_app, firstn_length, skipn_all2 by (rewrite firstn_length; lia).
    replace (n / 2 - min (n / 2) (length d)) with 0 by lia. reflexivity.
Qed.
Lemma max_ok l m : np_max l = Ok m -> largest l m.
Proof.
  unfold np_max. destruct l as [|x l]; [discriminate|]. intros E. injection E as <-.
  assert (G : forall l a, (fold_left (fun a b => if Qle_bool a b then b else a) l a = a \/ In (fold_left (fun a b => if Qle_bool a b then b else a) l a) l) /\ (a <= fold_left (fun a b => if Qle_bool a b then b else a) l a)%Q /\ forall y, In y l -> (y <= fold_left (fun a b => if Qle_bool a b then b else a) l a)%Q).
  { clear. induction l as [|y l IH]; intros a; cbn [fold_left]; [split; [now left|]; split; [apply Qle_refl|intros ? []]|].
    destruct (Qle_bool a y) eqn:E.
    - apply Qle_bool_iff in E. destruct (IH y) as (I1 & I2 & I3). split; [right; destruct I1 as [-> | I1]; [now left|now right]|]. split; [now apply Qle_trans with y|]. intros z [<- | Z]; auto.
    - destruct (IH a) as (I1 & I2 & I3). split; [destruct I1 as [-> | I1]; [now left|right; now right]|]. split; [exact I2|]. intros z [<- | Z]; auto. apply Qle_trans with a; [|exact I2]. apply Qlt_le_weak, Qnot_le_lt. intros H. apply Qle_bool_iff in H. congruence. }
  destruct (G l x) as (I1 & I2 & I3). split; [destruct I1 as [-> | I1]; [now left|now right]|]. intros z [<- | Z]; auto.
Qed.
Lemma min_ok l m : np_min l = Ok m -> smallest l m.
Proof.
  unfold np_min. destruct l as [|x l]; [discriminate|]. intros E. injection E as <-. set (f := fun a b => if Qle_bool a b then a else b).
  assert (G : forall l a, (fold_left f l a = a \/ In (fold_left f l a) l) /\ (fold_left f l a <= a)%Q /\ forall y, In y l -> (fold_left f l a <= y)%Q).
  { clear. induction l as [|y l IH]; intros a; cbn [fold_left]; [split; [now left|]; split; [apply Qle_refl|intros ? []]|].
    destruct (Qle_bool a y) eqn:E; [assert (F : f a y = a) by (unfold f; now rewrite E)|assert (F : f a y = y) by (unfold f; now rewrite E)]; rewrite F; clear F.
    - apply Qle_bool_iff in E. destruct (IH a) as (I1 & I2 & I3). split; [destruct I1 as [-> | I1]; [now left|right; now right]|]. split; [exact I2|]. intros z [<- | Z]; auto. now apply Qle_trans with a.
    - destruct (IH y) as (I1 & I2 & I3). split; [right; destruct I1 as [-> | I1]; [now left|now right]|]. split; [|intros z [<- | Z]; auto]. apply Qle_trans with y; [exact I2|]. apply Qlt_le_weak, Qnot_le_lt. intros H. apply Qle_bool_iff in H. congruence. }
  destruct (G l x) as (I1 & I2 & I3). split; [destruct I1 as [-> | I1]; [now left|now right]|]. intros z [<- | Z]; auto.
Qed.
Lemma squares_pos (m : Q) l : (0 <= sum_of (map (fun x => (x - m) * (x - m)) l))%Q.
Proof. induction l as [|x l IH]; cbn; [apply Qle_refl|]. assert (H : (0 <= (x - m) * (x - m))%Q). { set (y := (x - m)%Q). clearbody y. unfold Qle. cbn. rewrite Z.mul_1_r. apply Z.square_nonneg. } apply Qle_trans with (0 + 0)%Q; [apply Qle_refl|]. now apply Qplus_le_compat. Qed.
Lemma stdev_ok l m s : mean l = Ok m -> stdev_or_zero l = Ok s -> deviation l m s.
Proof.
  unfold stdev_or_zero, deviation. intros M. destruct (2 <=? length l) eqn:E.
  - apply Nat.leb_le in E. rewrite M. cbn. intros H. injection H as <-. split; [apply sqrt_pos|]. split; [intros _|lia].
    assert (P : (0 < inject_Z (Z.of_nat (length l - 1)))%Q) by (change 0%Q with (inject_Z 0); rewrite <- Zlt_Qlt; lia).
    set (n := inject_Z (Z.of_nat (length l - 1))) in *. assert (N : Q2R n = INR (length l - 1)). { unfold n, Q2R, inject_Z. cbn. rewrite Rinv_1, Rmult_1_r. symmetry. apply INR_IZR_INZ. }
    assert (NZ : ~ (n == 0)%Q) by (intros Z; rewrite Z in P; discriminate).
    rewrite <- N, sqrt_sqrt.
    + rewrite Q2R_div by exact NZ. unfold squares. rewrite (Qeq_eqR _ _ (total_sum _)). field. intros Z. apply NZ, eqR_Qeq. rewrite Z. symmetry. apply RMicromega.Q2R_0.
    + rewrite <- RMicromega.Q2R_0. apply Qle_Rle. unfold squares. rewrite total_sum. apply Qle_shift_div_l; [exact P|]. rewrite Qmult_0_l. apply squares_pos.
  - apply Nat.leb_gt in E. intros H. injection H as <-. split; [apply Rle_refl|]. split; [lia|reflexivity].
Qed.

(** The statistics are what their names say, of the returns and of the lengths; there are none only if there was no episode or if not exactly one of n_steps and n_episodes is given. *)
Theorem C107_statistics n_steps n_episodes scores lengths s : eval_performance n_steps n_episodes scores lengths = Ok s ->
  let ls := map (fun n => inject_Z (Z.of_nat n)) lengths in
  st_episodes s = length scores /\ average scores (st_mean s) /\ in_the_middle scores (st_median s) /\ deviation scores (st_mean s) (st_stdev s) /\ largest scores (st_max s) /\ smallest scores (st_min s) /\
  average ls (st_length_mean s) /\ in_the_middle ls (st_length_median s) /\ deviation ls (st_length_mean s) (st_length_stdev s) /\ largest ls (st_length_max s) /\ smallest ls (st_length_min s).
Proof.
  unfold eval_performance, rbind. set (ls := map _ lengths). destruct (passert _); [|discriminate].
  destruct (mean scores) eqn:E1; [|discriminate]. destruct (median scores) eqn:E2; [|discriminate]. destruct (stdev_or_zero scores) eqn:E3; [|discriminate]. destruct (np_max scores) eqn:E4; [|discriminate]. destruct (np_min scores) eqn:E5; [|discriminate].
  destruct (mean ls) eqn:E6; [|discriminate]. destruct (median ls) eqn:E7; [|discriminate]. destruct (stdev_or_zero ls) eqn:E8; [|discriminate]. destruct (np_max ls) eqn:E9; [|discriminate]. destruct (np_min ls) eqn:E10; [|discriminate].
  intros H. injection H as <-. cbn [st_episodes st_mean st_median st_stdev st_max st_min st_length_mean st_length_median st_length_stdev st_length_max st_length_min].
  exact (conj eq_refl (conj (mean_ok _ _ E1) (conj (median_ok _ _ E2) (conj (stdev_ok _ _ _ E1 E3) (conj (max_ok _ _ E4) (conj (min_ok _ _ E5)
    (conj (mean_ok _ _ E6) (conj (median_ok _ _ E7) (conj (stdev_ok _ _ _ E6 E8) (conj (max_ok _ _ E9) (min_ok _ _ E10))))))))))).
Qed.
Theorem C107_statistics_exist n_steps n_episodes scores lengths : length scores = length lengths -> scores <> [] -> (n_steps = None <-> n_episodes <> None) ->
  exists s, eval_performance n_steps n_episodes scores lengths = Ok s.
Proof.
  intros L NE B. unfold eval_performance. set (ls := map _ lengths). assert (NL : ls <> []) by (destruct lengths; [destruct scores; [contradiction|discriminate]|discriminate]).
  assert (A : passert (xorb (match n_steps with None => true | _ => false end) (match n_episodes with None => true | _ => false end)) = Ok tt).
  { destruct n_steps, n_episodes; try reflexivity; exfalso; intuition congruence. }
  assert (G : forall l, l <> [] -> (exists x, mean l = Ok x) /\ (exists x, median l = Ok x) /\ (exists x, stdev_or_zero l = Ok x) /\ (exists x, np_max l = Ok x) /\ (exists x, np_min l = Ok x)).
  { intros [|x l] N; [contradiction|]. assert (M : exists y, mean (x :: l) = Ok y) by (eexists; reflexivity). split; [exact M|]. split; [|split; [|split; eexists; reflexivity]].
    - unfold median. pose proof (Permutation_length (sorted_perm (x :: l))) as P. cbn [length] in P. rewrite P. destruct (S (length l) mod 2 =? 1); eexists; reflexivity.
    - unfold stdev_or_zero. destruct (2 <=? _); [|eexists; reflexivity]. destruct M as [y ->]. cbn. eexists. reflexivity. }
  rewrite A. cbn [rbind]. destruct (G scores NE) as ((? & ->) & (? & ->) & (? & ->) & (? & ->) & (? & ->)). destruct (G ls NL) as ((? & ->) & (? & ->) & (? & ->) & (? & ->) & (? & ->)). cbn. eexists. reflexivity.
Qed.

(** ** The table *)
Lemma split_plain c l : ~ In c l -> split_on c l = [l].
Proof. induction l as [|x l IH]; intros H; cbn; [reflexivity|]. destruct (Nat.eqb_spec x c) as [-> | _]; [exfalso; apply H; now left|]. rewrite IH; [reflexivity|]. intros I. apply H. now right. Qed.
Lemma split_app c l l' : ~ In c l -> split_on c (l ++ c :: l') = l :: split_on c l'.
Proof.
  induction l as [|x l IH]; intros H; cbn [app split_on]; [now rewrite Nat.eqb_refl|]. destruct (Nat.eqb_spec x c) as [-> | _]; [exfalso; apply H; now left|]. rewrite IH; [reflexivity|]. intros I. apply H. now right.
Qed.
Lemma split_joined cells : cells <> [] -> Forall clean cells -> split_on tab (joined cells) = cells.
Proof.
  induction cells as [|c t IH]; intros N F; [contradiction|]. apply Forall_cons_iff in F. destruct F as [[C _] F]. destruct t as [|c' t]; [cbn; now apply split_plain|].
  change (joined (c :: c' :: t)) with (c ++ tab :: joined (c' :: t)). rewrite split_app by exact C. f_equal. apply IH; [discriminate|exact F].
Qed.
Lemma joined_clean cells : Forall clean cells -> ~ In newline (joined cells).
Proof.
  induction cells as [|c t IH]; intros F; [intros []|]. apply Forall_cons_iff in F. destruct F as [[_ C] F]. destruct t as [|c' t]; [exact C|].
  change (joined (c :: c' :: t)) with (c ++ tab :: joined (c' :: t)). rewrite in_app_iff. intros [I | [I | I]]; [now apply C|discriminate|now apply IH].
Qed.
Lemma table_lines rows : Forall (fun r => r <> [] /\ Forall clean r) rows -> table (concat (map line rows)) = rows.
Proof.
  unfold table. intros F. assert (S : split_on newline (concat (map line rows)) = map joined rows ++ [[]]).
  { induction F as [|r rows [N C] F IH]; [reflexivity|]. cbn [map concat app]. unfold line at 1. rewrite <- app_assoc. cbn [app]. rewrite split_app by now apply joined_clean. now rewrite IH. }
  rewrite S, removelast_last, map_map. clear S. induction F as [|r rows [N C] F IH]; [reflexivity|]. cbn [map]. rewrite IH, split_joined by assumption. reflexivity.
Qed.
Lemma rows_file (p : printing) vs f : fold_left (fun f v => record_stats (row p v) f) vs f = f ++ concat (map (fun v => line (row p v)) vs).
Proof. revert f. induction vs as [|v vs IH]; intros f; cbn; [now rewrite app_nil_r|]. rewrite IH. unfold record_stats. now rewrite <- app_assoc. Qed.

(** As long as agent and environment keep the names of their statistics and no cell contains a tab or a newline, scores.txt is a table: the header, then one row for every evaluation, in
    order, with one cell under each name. *)
Definition consistent (agent env : named) (v : evaluation) : Prop := map fst (v_agent v) = map fst agent /\ map fst (v_env v) = map fst env.
Definition cells (p : printing) (v : evaluation) : list (text * text) :=
  [(text_of "steps", pr_nat p (v_t v)); (text_of "episodes", pr_nat p (v_episodes v)); (text_of "elapsed", pr_time p (v_elapsed v)); (text_of "mean", pr_q p (st_mean (v_stats v)));
   (text_of "median", pr_q p (st_median (v_stats v))); (text_of "stdev", pr_r p (st_stdev (v_stats v))); (text_of "max", pr_q p (st_max (v_stats v))); (text_of "min", pr_q p (st_min (v_stats v)))] ++ v_agent v ++ v_env v.
Theorem C107_table p agent env before vs : Forall (consistent agent env) vs ->
  Forall clean (map fst agent ++ map fst env) -> Forall (fun v => Forall (fun c => clean (snd c)) (cells p v)) vs ->
  exists header rows, length header = 8 + length agent + length env /\ Forall (fun r => length r = length header) rows /\ Forall2 (fun v r => combine header r = cells p v) vs rows /\
    table (evaluator_file p agent env before vs) = header :: rows /\ (vs <> [] -> table (async_evaluator_file p agent env before vs) = header :: rows).
Proof.
  intros K C V. exists (columns agent env), (map (row p) vs).
  assert (V' : Forall (fun v => Forall clean (row p v)) vs).
  { eapply Forall_impl; [|exact V]. intros v F. cbn beta in F. apply Forall_map in F. revert F. unfold cells. rewrite !map_app. exact (fun F => F). }
  assert (C' : Forall clean (columns agent env)).
  { unfold columns. apply Forall_app. split; [|exact C]. apply Forall_forall. intros c I. unfold clean. vm_compute in I. repeat destruct I as [<- | I]; try contradiction; split; vm_compute; intuition discriminate. }
  assert (T : table (evaluator_file p agent env before vs) = columns agent env :: map (row p) vs).
  { unfold evaluator_file. rewrite rows_file. unfold write_header. rewrite <- (table_lines (columns agent env :: map (row p) vs)); [cbn [map concat]; now rewrite map_map|].
    constructor; [split; [discriminate|exact C']|]. apply Forall_forall. intros r I. apply in_map_iff in I. destruct I as (v & <- & I). rewrite Forall_forall in V'. split; [discriminate|auto]. }
  split; [unfold columns; rewrite !app_length, !map_length; reflexivity|]. split; [|split; [|split; [exact T|intros N; unfold async_evaluator_file; destruct vs; [contradiction|exact T]]]].
  - apply Forall_map. eapply Forall_impl; [|exact K]. intros v [K1 K2]. unfold row, values, columns. rewrite !app_length, !map_length, <- (map_length fst (v_agent v)), K1, <- (map_length fst (v_env v)), K2, !map_length. reflexivity.
  - clear - K. induction K as [|v vs [K1 K2] K IH]; cbn [map]; constructor; [|exact IH]. unfold row, values, columns, cells. rewrite <- K1, <- K2, <- !map_app. cbn [app combine basic map]. repeat f_equal. induction (v_agent v ++ v_env v) as [|[a b] l H]; cbn; congruence.
Qed.

(** What earlier runs wrote into the same directory is lost: the header is written over it. *)
Theorem C107_earlier_scores_refuted : ~ (forall p agent env before vs, Forall (consistent agent env) vs -> exists l, evaluator_file p agent env before vs = before ++ l).
Proof.
  intros H. destruct (H (mkPrinting (fun _ => []) (fun _ => []) (fun _ => []) (fun _ => [])) [] [] [116; 10] [] (Forall_nil _)) as [l E]. vm_compute in E. discriminate.
Qed.
Theorem C107_earlier_scores_partial p agent env before : async_evaluator_file p agent env before [] = before /\
  forall vs, evaluator_file p agent env before vs = evaluator_file p agent env [] vs.
Proof. split; reflexivity. Qed.

(** Four episodes with returns 3, 0, 2, 5: mean and median 5/2, extremes 5 and 0; a single episode has deviation 0. *)
Example C107_ex_statistics : exists s, eval_performance None (Some 4) [3; 0; 2; 5]%Q [7; 1; 4; 2] = Ok s /\ (st_mean s == 5 # 2)%Q /\ (st_median s == 5 # 2)%Q /\ st_max s = 5%Q /\ st_min s = 0%Q /\ (st_length_median s == 3)%Q /\ st_stdev s = sqrt (Q2R (squares (10 # 4) [3; 0; 2; 5]%Q / 3)).
Proof. eexists. split; [reflexivity|]. repeat split. Qed.
Example C107_ex_one : exists s, eval_performance (Some 9) None [1 # 2]%Q [9] = Ok s /\ st_stdev s = 0%R /\ st_median s = (1 # 2)%Q.
Proof. eexists. split; [reflexivity|]. split; reflexivity. Qed.
Example C107_ex_errors : eval_performance None None [1%Q] [1] = Err AssertionError /\ eval_performance (Some 3) None [] [] = Err ValueError.
Proof. split; reflexivity. Qed.
(** Two evaluations of an agent with one statistic: a table of three lines of nine cells. *)
Definition ex_print : printing := mkPrinting (fun n => [48 + n]) (fun q => [48 + Z.to_nat (Qnum q)]) (fun _ => [63]) (fun _ => [33]).
Definition ex_evaluation (n : nat) : evaluation := mkEvaluation n 1 0%R (mkStats 1 2%Q 2%Q 0%R 2%Q 2%Q 2%Q 2%Q 0%R 2%Q 2%Q) [(text_of "average_q", [49 + n])] [].
Example C107_ex_table : table (evaluator_file ex_print [(text_of "average_q", [48])] [] (text_of "old") [ex_evaluation 3; ex_evaluation 6]) =
  [map text_of ["steps"; "episodes"; "elapsed"; "mean"; "median"; "stdev"; "max"; "min"; "average_q"]; map text_of ["3"; "1"; "!"; "2"; "2"; "?"; "2"; "2"; "4"]; map text_of ["6"; "1"; "!"; "2"; "2"; "?"; "2"; "2"; "7"]]%string.
Proof. vm_compute. reflexivity. Qed.
Example C107_ex_hypotheses : Forall (consistent [(text_of "average_q", [48])] []) [ex_evaluation 3; ex_evaluation 6].
Proof. repeat constructor. Qed.
(** A statistic that appears later, or a name with a tab, breaks the table. *)
Example C107_ex_not_consistent : exists v1 v2, map (@length text) (table (evaluator_file ex_print [] [] [] [v1; v2])) = [8; 8; 9].
Proof. exists (mkEvaluation 3 1 0%R (v_stats (ex_evaluation 3)) [] []), (ex_evaluation 6). vm_compute. reflexivity. Qed.

Print Assumptions C107_statistics.
Print Assumptions C107_statistics_exist.
Print Assumptions C107_table.
Print Assumptions C107_earlier_scores_refuted.
Print Assumptions C107_earlier_scores_partial.
