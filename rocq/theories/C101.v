(** C101: the provided networks can be built with any sizes and evaluate every row on its own. *)
From Coq Require Import QArith.
From Verif Require Import Base M_Batch P_Batch M_Nets.
Open Scope nat_scope.

(** ** Specification *)
(** [y] is the affine function number [i] of [x]: m outputs of n inputs. *)
Fixpoint total (l : list Q) : Q := match l with [] => 0%Q | x :: t => (x + total t)%Q end.
Definition affine (p : inits) (i n m : nat) (x y : list Q) : Prop :=
  length x = n /\ length y = m /\ forall j, j < m -> (nth j y 0 == total (map (fun k => nth k x 0 * fst (p i) j k) (seq 0 n)) + snd (p i) j)%Q.
(** A multi-layer perceptron: hidden layers number i, i+1, ... with [f] applied to each of their outputs, then the output layer, number 0. *)
Inductive perceptron (p : inits) (f : Q -> Q) : nat -> nat -> list nat -> nat -> list Q -> list Q -> Prop :=
| perceptron_out i n m x y : affine p 0 n m x y -> perceptron p f i n [] m x y
| perceptron_hidden i n h hs m x z y : affine p i n h x z -> perceptron p f (i + 1) h hs m (map f z) y -> perceptron p f i n (h :: hs) m x y.
(** A batch: rows of n numbers. *)
Definition rows (n : nat) (x : tensor) : Prop := Forall (fun row => length row = n) x.
(** A callable that applies [f] to every number and is not an nn.Module. *)
Definition plain (c : callable) (f : Q -> Q) : Prop := c_module c = false /\ forall x, c_fun c x = map (map f) x.
(** Every row of the result is that of its own inputs alone. *)
Definition row_by_row (F : tensor -> tensor -> result tensor) (s a : tensor) : Prop :=
  exists y, F s a = Ok y /\ length y = length s /\
    forall i si ai, nth_error s i = Some si -> nth_error a i = Some ai -> exists q, nth_error y i = Some [q] /\ F [si] [ai] = Ok [[q]].

(** ** Lemmas *)
Lemma seq_map_shift {X} (f : nat -> X) i n : map f (seq (S i) n) = map (fun k => f (S k)) (seq i n).
Proof. rewrite <- seq_shift, map_map. reflexivity. Qed.
Lemma dot_total w : forall x i, (dot_from w i x == total (map (fun k => nth k x 0 * w (i + k)%nat) (seq 0 (length x))))%Q.
Proof.
  induction x as [|a x IH]; intros i; cbn [dot_from length seq map total]; [reflexivity|]. rewrite seq_map_shift. cbn [nth]. rewrite Nat.add_0_r. rewrite (IH (i + 1)).
  rewrite (map_ext (fun k => (nth k x 0 * w (i + 1 + k)%nat)%Q) (fun k => (nth k x 0 * w (i + S k)%nat)%Q)); [reflexivity|]. intros k. now replace (i + 1 + k) with (i + S k) by lia.
Qed.
Lemma nth_map_seq {X} (f : nat -> X) d : forall m i j, j < m -> nth j (map f (seq i m)) d = f (i + j).
Proof. induction m as [|m IH]; intros i j L; [lia|]. destruct j; cbn; [now rewrite Nat.add_0_r|]. rewrite IH by lia. f_equal. lia. Qed.
Lemma linear_row_affine p i n m x : length x = n -> affine p i n m x (linear_row (new_linear p i n m) x).
Proof.
  intros L. split; [exact L|]. split; [unfold linear_row; now rewrite map_length, seq_length|]. intros j J. unfold linear_row. cbn [l_out new_linear l_w l_b]. rewrite nth_map_seq by exact J. cbn [Nat.add]. rewrite (dot_total _ x 0). rewrite L. cbn [Nat.add]. reflexivity.
Qed.
Lemma linear_rows (l : linear) x : rows (l_in l) x -> linear_forward l x = Ok (map (linear_row l) x).
Proof. intros R. unfold linear_forward. apply rmapM_ok. intros row I. unfold rows in R. rewrite Forall_forall in R. now rewrite (R row I), Nat.eqb_refl. Qed.
Lemma rows_map n (f : list Q -> list Q) x : (forall row, length (f row) = n) -> rows n (map f x).
Proof. intros H. unfold rows. rewrite Forall_map. apply Forall_forall. intros. apply H. Qed.
Lemma linear_row_len l row : length (linear_row l row) = l_out l.
Proof. unfold linear_row. now rewrite map_length, seq_length. Qed.

(** The hidden layers that [mlp_init] makes, one by one. *)
Fixpoint stack (p : inits) (i n : nat) (hs : list nat) : list linear := match hs with [] => [] | h :: t => new_linear p i n h :: stack p (i + 1) h t end.
Lemma layers_stack p : forall hs h0 i, map (fun ih => new_linear p (2 + fst ih) (fst (snd ih)) (snd (snd ih))) (combine (seq i (S (length hs))) (combine (h0 :: hs) hs)) = stack p (2 + i) h0 hs.
Proof.
  induction hs as [|h hs IH]; intros h0 i; [reflexivity|]. cbn [length seq combine map stack]. f_equal. specialize (IH h (S i)). cbn [length seq combine] in IH.
  replace (2 + i + 1) with (2 + S i) by lia. exact IH.
Qed.
Lemma mlp_init_ok p n m hs c f : plain c f -> mlp_init p n m hs c = Ok (mkMLP hs (stack p 1 n hs) (new_linear p 0 (last (n :: hs) 0) m) c).
Proof.
  intros (C & _). unfold mlp_init, assign_before_init. rewrite C. cbn [rbind]. destruct hs as [|h hs]; [reflexivity|]. f_equal. f_equal. cbn [stack]. f_equal. apply (layers_stack p hs h 0).
Qed.
(** One row through the stack. *)
Fixpoint row_through (f : Q -> Q) (ls : list linear) (x : list Q) : list Q := match ls with [] => x | l :: t => row_through f t (map f (linear_row l x)) end.
Lemma through_rows p f c : plain c f -> forall hs i n x, rows n x -> through (c_fun c) (stack p i n hs) x = Ok (map (row_through f (stack p i n hs)) x) /\ rows (last (n :: hs) 0) (map (row_through f (stack p i n hs)) x).
Proof.
  intros (_ & CF). induction hs as [|h hs IH]; intros i n x R; cbn [stack through row_through]; [rewrite map_id; auto|].
  rewrite (linear_rows (new_linear p i n h) x R). cbn [rbind]. rewrite CF, map_map.
  assert (R' : rows h (map (fun row => map f (linear_row (new_linear p i n h) row)) x)) by (apply rows_map; intros; rewrite map_length; apply linear_row_len).
  destruct (IH (i + 1) h _ R') as [E RR]. rewrite E. rewrite map_map. split; [reflexivity|]. rewrite map_map in RR. exact RR.
Qed.
Definition mlp_row (p : inits) (f : Q -> Q) (n m : nat) (hs : list nat) (x : list Q) : list Q := linear_row (new_linear p 0 (last (n :: hs) 0) m) (row_through f (stack p 1 n hs) x).
Lemma mlp_rows p n m hs c f x net : plain c f -> mlp_init p n m hs c = Ok net -> rows n x -> mlp_forward net x = Ok (map (mlp_row p f n m hs) x).
Proof.
  intros C E R. rewrite (mlp_init_ok p n m hs c f C) in E. injection E as <-. unfold mlp_forward. cbn [m_hidden_sizes m_hidden m_output m_nonlinearity].
  assert (G : match hs with [] => Ok x | _ => through (c_fun c) (stack p 1 n hs) x end = Ok (map (row_through f (stack p 1 n hs)) x)) by (destruct hs; [cbn; now rewrite map_id|apply (through_rows p f c C _ 1 n x R)]).
  rewrite G. cbn [rbind]. rewrite linear_rows by (apply (through_rows p f c C hs 1 n x R)). rewrite map_map. reflexivity.
Qed.
Lemma perceptron_row p f m : forall hs i n x, length x = n -> perceptron p f i n hs m x (linear_row (new_linear p 0 (last (n :: hs) 0) m) (row_through f (stack p i n hs) x)).
Proof.
  induction hs as [|h hs IH]; intros i n x L; [constructor; now apply linear_row_affine|].
  apply perceptron_hidden with (z := linear_row (new_linear p i n h) x); [now apply linear_row_affine|]. cbn [stack row_through]. change (last (n :: h :: hs) 0) with (last (h :: hs) 0). apply IH. rewrite map_length. apply linear_row_len.
Qed.
Lemma mlp_row_len p f n m hs x : length (mlp_row p f n m hs x) = m.
Proof. apply linear_row_len. Qed.

(** ** Theorems *)
(** Multi-layer perceptrons (and FCStateQFunctionWithDiscreteAction): built for all sizes, with the shapes and values expected. *)
Theorem C101_mlp p in_size out_size hidden_sizes c f x : plain c f -> rows in_size x ->
  exists net y, mlp_init p in_size out_size hidden_sizes c = Ok net /\ mlp_forward net x = Ok y /\ Forall2 (perceptron p f 1 in_size hidden_sizes out_size) x y.
Proof.
  intros C R. eexists. exists (map (mlp_row p f in_size out_size hidden_sizes) x). split; [apply (mlp_init_ok _ _ _ _ _ f C)|]. split; [apply (mlp_rows p in_size out_size hidden_sizes c f); auto; apply (mlp_init_ok _ _ _ _ _ f C)|].
  induction R as [|row x L R IH]; constructor; [|exact IH]. now apply perceptron_row.
Qed.

Lemma cat_rows n n' : forall s a, rows n s -> rows n' a -> length a = length s -> cat s a = Ok (map (fun sa => fst sa ++ snd sa) (combine s a)) /\ rows (n + n') (map (fun sa => fst sa ++ snd sa) (combine s a)).
Proof.
  intros s a RS. revert a. induction RS as [|row s L RS IH]; intros a RA E; destruct a as [|b a]; try discriminate; [split; [reflexivity|constructor]|].
  inversion RA as [|? ? LB RA']; subst. destruct (IH a RA') as [E1 R1]; [now injection E|]. cbn. rewrite E1. split; [reflexivity|]. constructor; [cbn; rewrite app_length; congruence|exact R1].
Qed.
Lemma Forall2_combine_map {X Y Z} (R : X * Y -> Z -> Prop) (g : X * Y -> Z) l : (forall xy, In xy l -> R xy (g xy)) -> Forall2 R l (map g l).
Proof. induction l; intros H; constructor; [apply H; now left|]. apply IHl. intros. apply H. now right. Qed.
Lemma combine_rows n n' s a : rows n s -> rows n' a -> forall xy, In xy (combine s a) -> length (fst xy) = n /\ length (snd xy) = n'.
Proof. intros RS RA [x y] I. unfold rows in *. rewrite Forall_forall in RS, RA. split; [apply RS; eapply in_combine_l, I|apply RA; eapply in_combine_r, I]. Qed.
(** Q-functions of states and actions: FCSAQFunction takes both at the input; FCLateActionSAQFunction adds the actions after the first hidden layer, unchanged. *)
Theorem C101_state_action p p' n_obs n_action width depth c f s a : plain c f -> rows n_obs s -> rows n_action a -> length a = length s ->
  (exists net y, fcsa_init p n_obs n_action width depth c = Ok net /\ fcsa_forward net s a = Ok y /\
     Forall2 (fun sa q => perceptron p f 1 (n_obs + n_action) (repeat width depth) 1 (fst sa ++ snd sa) q) (combine s a) y) /\
  (1 <= depth -> exists net y, fclate_init p p' n_obs n_action width depth c = Ok net /\ fclate_forward net s a = Ok y /\
     Forall2 (fun sa q => exists z, affine p 0 n_obs width (fst sa) z /\ perceptron p' f 1 (width + n_action) (repeat width (depth - 1)) 1 (map f z ++ snd sa) q) (combine s a) y).
Proof.
  intros C RS RA E. destruct (cat_rows n_obs n_action s a RS RA E) as [CE CR]. split.
  - eexists. exists (map (fun sa => mlp_row p f (n_obs + n_action) 1 (repeat width depth) (fst sa ++ snd sa)) (combine s a)). unfold fcsa_init, assign_before_init. rewrite (proj1 C). cbn [rbind].
    split; [apply (mlp_init_ok _ _ _ _ _ f C)|]. split.
    + unfold fcsa_forward. rewrite CE. cbn [rbind]. rewrite (mlp_rows p (n_obs + n_action) 1 (repeat width depth) c f _ _ C (mlp_init_ok _ _ _ _ _ f C) CR), map_map. reflexivity.
    + apply Forall2_combine_map. intros xy I. destruct (combine_rows _ _ _ _ RS RA xy I). apply perceptron_row. rewrite app_length. lia.
  - intros D. eexists. set (g := fun row : list Q => map f (mlp_row p (fun x => if Qle_bool x 0 then 0%Q else x) n_obs width [] row)).
    exists (map (fun sa => mlp_row p' f (width + n_action) 1 (repeat width (depth - 1)) (g (fst sa) ++ snd sa)) (combine s a)).
    assert (RL : plain relu (fun x => if Qle_bool x 0 then 0%Q else x)) by (split; reflexivity).
    split; [|split].
    + unfold fclate_init, assign_before_init. rewrite (proj2 (Nat.leb_le 1 depth) D), (proj1 C). cbn [rbind passert]. rewrite (mlp_init_ok p n_obs width [] relu _ RL). cbn [rbind]. rewrite (mlp_init_ok _ _ _ _ _ f C). reflexivity.
    + unfold fclate_forward. cbn [la_obs la_mlp la_nl]. rewrite (mlp_rows p n_obs width [] relu _ s _ RL (mlp_init_ok _ _ _ _ _ _ RL) RS). cbn [rbind]. rewrite (proj2 C), map_map. fold g.
      assert (RG : rows width (map g s)) by (apply rows_map; intros; unfold g; rewrite map_length; apply mlp_row_len).
      destruct (cat_rows width n_action (map g s) a RG RA) as [CE2 CR2]; [now rewrite map_length|]. rewrite CE2. cbn [rbind].
      rewrite (mlp_rows p' (width + n_action) 1 (repeat width (depth - 1)) c f _ _ C (mlp_init_ok _ _ _ _ _ f C) CR2), map_map. f_equal.
      clear. revert a. induction s as [|x s IH]; intros [|y a]; try reflexivity. cbn [map combine fst snd]. f_equal. apply IH.
    + apply Forall2_combine_map. intros xy I. destruct (combine_rows _ _ _ _ RS RA xy I) as [L1 L2]. exists (mlp_row p (fun x => if Qle_bool x 0 then 0%Q else x) n_obs width [] (fst xy)). split; [now apply linear_row_affine|].
      apply perceptron_row. unfold g. rewrite app_length, map_length, mlp_row_len. lia.
Qed.

(** With one hidden layer a late-action Q-function is affine in the action with coefficients that do not depend on the state: advantages of actions over each other are the same in all states. *)
Theorem C101_one_hidden_layer_is_separable p p' n_obs n_action width c f net s1 s2 a1 a2 : plain c f -> length s1 = n_obs -> length s2 = n_obs -> length a1 = n_action -> length a2 = n_action ->
  fclate_init p p' n_obs n_action width 1 c = Ok net ->
  exists q11 q12 q21 q22, fclate_forward net [s1] [a1] = Ok [[q11]] /\ fclate_forward net [s1] [a2] = Ok [[q12]] /\ fclate_forward net [s2] [a1] = Ok [[q21]] /\ fclate_forward net [s2] [a2] = Ok [[q22]] /\
    (q11 - q12 == q21 - q22)%Q.
Proof.
  intros C L1 L2 M1 M2 E. unfold fclate_init, assign_before_init in E. rewrite (proj1 C) in E. cbn [rbind passert Nat.leb Nat.sub repeat] in E.
  assert (RL : plain relu (fun x => if Qle_bool x 0 then 0%Q else x)) by (split; reflexivity). rewrite (mlp_init_ok p n_obs width [] relu _ RL) in E. cbn [rbind] in E. rewrite (mlp_init_ok _ _ _ _ _ f C) in E. cbn [rbind] in E. injection E as <-.
  set (g := fun row : list Q => map f (mlp_row p (fun x => if Qle_bool x 0 then 0%Q else x) n_obs width [] row)).
  set (o := fun s a => (dot_from (fst (p' 0%nat) 0%nat) 0%nat (g s ++ a) + snd (p' 0%nat) 0%nat)%Q).
  assert (F : forall s a, length s = n_obs -> length a = n_action -> fclate_forward (mkLate (mkMLP [] (stack p 1 n_obs []) (new_linear p 0 (last [n_obs] 0) width) relu) (mkMLP [] (stack p' 1 (width + n_action) []) (new_linear p' 0 (last [width + n_action] 0) 1) c) c) [s] [a] = Ok [[o s a]]).
  { intros s a LS LA. unfold fclate_forward. cbn [la_obs la_mlp la_nl]. rewrite (mlp_rows p n_obs width [] relu _ [s] _ RL (mlp_init_ok _ _ _ _ _ _ RL) ltac:(constructor; auto)). cbn [rbind map]. rewrite (proj2 C). cbn [map cat rbind]. fold (g s).
    assert (RG : rows (width + n_action) [g s ++ a]) by (constructor; [unfold g; rewrite app_length, map_length, mlp_row_len; lia|constructor]).
    rewrite (mlp_rows p' (width + n_action) 1 [] c f _ _ C (mlp_init_ok _ _ _ _ _ f C) RG). reflexivity. }
  assert (DA : forall w x y i, (dot_from w i (x ++ y) == dot_from w i x + dot_from w (i + length x) y)%Q).
  { clear. induction x as [|b x IH]; intros y i; cbn [app dot_from length]; [rewrite Nat.add_0_r; ring|]. rewrite IH. replace (i + 1 + length x) with (i + S (length x)) by lia. ring. }
  exists (o s1 a1), (o s1 a2), (o s2 a1), (o s2 a2). rewrite !F by assumption. repeat split. unfold o. rewrite !DA. assert (LG : forall s, length (g s) = width) by (intros; unfold g; rewrite map_length; apply mlp_row_len). rewrite !LG. ring.
Qed.

(** Batch normalisation.  In evaluation mode every row is evaluated on its own; in training mode a single row is refused. *)
Lemma bn_eval b x : rows (b_size b) x -> bn_forward false b x = Ok (map (affine_from (b_scale b) (b_shift b) 0) x).
Proof. intros R. unfold bn_forward. assert (G : forallb (fun row => length row =? b_size b) x = true) by (apply forallb_forall; intros r I; apply Nat.eqb_eq; unfold rows in R; rewrite Forall_forall in R; auto). now rewrite G. Qed.
Lemma affine_len s t : forall x i, length (affine_from s t i x) = length x.
Proof. induction x; intros i; cbn; auto. Qed.
Fixpoint stack_bn (p : inits) (q : norms) (i n : nat) (hs : list nat) : list (linear * bnorm) := match hs with [] => [] | h :: t => new_linearbn p q i n h :: stack_bn p q (i + 1) h t end.
Lemma layers_stack_bn p q : forall hs h0 i, map (fun ih => new_linearbn p q (2 + fst ih) (fst (snd ih)) (snd (snd ih))) (combine (seq i (S (length hs))) (combine (h0 :: hs) hs)) = stack_bn p q (2 + i) h0 hs.
Proof.
  induction hs as [|h hs IH]; intros h0 i; [reflexivity|]. cbn [length seq combine map stack_bn]. f_equal. specialize (IH h (S i)). cbn [length seq combine] in IH.
  replace (2 + i + 1) with (2 + S i) by lia. exact IH.
Qed.
Lemma mlpbn_init_ok p q n m hs ni no c : c_module c = false ->
  mlpbn_init p q n m hs ni no c = Ok (mkMLPBN hs (if ni then Some (new_bn q 0 n) else None) (stack_bn p q 1 n hs) (new_linear p 0 (last (n :: hs) 0) m) (if no then Some (new_bn q 1 m) else None) c).
Proof.
  intros C. unfold mlpbn_init, assign_before_init. rewrite C. cbn [rbind]. destruct hs as [|h hs]; [reflexivity|]. f_equal. f_equal. cbn [stack_bn]. f_equal. apply (layers_stack_bn p q hs h 0).
Qed.
Definition bn_row (b : bnorm) (x : list Q) : list Q := affine_from (b_scale b) (b_shift b) 0 x.
Fixpoint row_through_bn (f : Q -> Q) (ls : list (linear * bnorm)) (x : list Q) : list Q := match ls with [] => x | (l, b) :: t => row_through_bn f t (map f (bn_row b (linear_row l x))) end.
Lemma through_bn_rows p q f c : plain c f -> forall hs i n x, rows n x -> through_bn false (c_fun c) (stack_bn p q i n hs) x = Ok (map (row_through_bn f (stack_bn p q i n hs)) x) /\ rows (last (n :: hs) 0) (map (row_through_bn f (stack_bn p q i n hs)) x).
Proof.
  intros (_ & CF). induction hs as [|h hs IH]; intros i n x R; cbn [stack_bn through_bn row_through_bn]; [rewrite map_id; auto|]. unfold new_linearbn.
  rewrite (linear_rows (new_linear p i n h) x R). cbn [rbind]. rewrite bn_eval by (apply rows_map; intros; apply linear_row_len). cbn [rbind]. rewrite CF, !map_map.
  assert (R' : rows h (map (fun row => map f (bn_row (new_bn q i h) (linear_row (new_linear p i n h) row))) x)) by (apply rows_map; intros; unfold bn_row; rewrite map_length, affine_len; apply linear_row_len).
  destruct (IH (i + 1) h _ R') as [E RR]. unfold bn_row in E at 1. rewrite E. rewrite map_map. split; [reflexivity|]. rewrite map_map in RR. exact RR.
Qed.
Definition opt_row (b : option bnorm) (x : list Q) : list Q := match b with None => x | Some b => bn_row b x end.
Definition mlpbn_row (p : inits) (q : norms) (f : Q -> Q) (n m : nat) (hs : list nat) (ni no : bool) (x : list Q) : list Q :=
  opt_row (if no then Some (new_bn q 1 m) else None) (linear_row (new_linear p 0 (last (n :: hs) 0) m) (row_through_bn f (stack_bn p q 1 n hs) (opt_row (if ni then Some (new_bn q 0 n) else None) x))).
Lemma opt_eval (ni : bool) b n x : b_size b = n -> rows n x -> opt_bn false (if ni then Some b else None) x = Ok (map (opt_row (if ni then Some b else None)) x) /\ rows n (map (opt_row (if ni then Some b else None)) x).
Proof.
  intros E R. destruct ni; cbn [opt_bn opt_row]; [|rewrite map_id; auto]. rewrite bn_eval by (now rewrite E). split; [reflexivity|].
  unfold rows in *. rewrite Forall_map. eapply Forall_impl; [|exact R]. intros r L. cbn. unfold bn_row. now rewrite affine_len.
Qed.
Lemma mlpbn_rows p q n m hs ni no c f x net : plain c f -> mlpbn_init p q n m hs ni no c = Ok net -> rows n x -> mlpbn_forward false net x = Ok (map (mlpbn_row p q f n m hs ni no) x).
Proof.
  intros C E R. rewrite (mlpbn_init_ok p q n m hs ni no c (proj1 C)) in E. injection E as <-. unfold mlpbn_forward. cbn [n_hidden_sizes n_input n_hidden n_output n_outbn n_nonlinearity].
  destruct (opt_eval ni (new_bn q 0 n) n x eq_refl R) as [E1 R1]. rewrite E1. cbn [rbind]. set (x1 := map (opt_row (if ni then Some (new_bn q 0 n) else None)) x) in *.
  assert (G : match hs with [] => @Ok tensor x1 | _ => through_bn false (c_fun c) (stack_bn p q 1 n hs) x1 end = Ok (map (row_through_bn f (stack_bn p q 1 n hs)) x1)) by (destruct hs; [cbn; now rewrite map_id|apply (through_bn_rows p q f c C _ 1 n x1 R1)]).
  rewrite G. cbn [rbind]. rewrite linear_rows by (apply (through_bn_rows p q f c C hs 1 n x1 R1)). cbn [rbind].
  destruct (opt_eval no (new_bn q 1 m) m (map (linear_row (new_linear p 0 (last (n :: hs) 0) m)) (map (row_through_bn f (stack_bn p q 1 n hs)) x1)) eq_refl) as [E2 R2]; [apply rows_map; intros; apply linear_row_len|].
  etransitivity; [exact E2|]. unfold x1, mlpbn_row. now rewrite !map_map.
Qed.
Lemma mlpbn_row_len p q f n m hs ni no x : length (mlpbn_row p q f n m hs ni no x) = m.
Proof. unfold mlpbn_row, opt_row, bn_row. destruct no; rewrite ?affine_len; apply linear_row_len. Qed.

Lemma singleton_row {F : tensor -> tensor -> result tensor} {n n'} (G : list Q -> list Q -> list Q) : (forall x y, length (G x y) = 1) ->
  (forall s a, rows n s -> rows n' a -> length a = length s -> F s a = Ok (map (fun sa => G (fst sa) (snd sa)) (combine s a))) ->
  forall s a, rows n s -> rows n' a -> length a = length s -> row_by_row F s a.
Proof.
  intros LG HF s a RS RA E. exists (map (fun sa => G (fst sa) (snd sa)) (combine s a)). split; [now apply HF|]. split; [rewrite map_length, combine_length; lia|].
  intros i si ai HS HA. assert (NC : nth_error (combine s a) i = Some (si, ai)).
  { clear -HS HA. revert a i HS HA. induction s as [|x s IH]; intros a i HS HA; [destruct i; discriminate|]. destruct a as [|y a]; [destruct i; discriminate|]. destruct i; cbn in *; [congruence|]. now apply IH. }
  specialize (LG si ai). destruct (G si ai) as [|q [|]] eqn:GQ; try discriminate LG. exists q. split; [rewrite nth_error_map, NC; cbn; now rewrite GQ|].
  assert (L1 : length si = n) by (unfold rows in RS; rewrite Forall_forall in RS; apply RS; eapply nth_error_In; eassumption). assert (L2 : length ai = n') by (unfold rows in RA; rewrite Forall_forall in RA; apply RA; eapply nth_error_In; eassumption).
  rewrite HF by (try reflexivity; constructor; auto). cbn. now rewrite GQ.
Qed.
Theorem C101_batchnorm p p' q n_obs n_action width depth normalize_input c f s a : plain c f -> rows n_obs s -> rows n_action a -> length a = length s ->
  (exists net, fcbnsa_init p q n_obs n_action width depth normalize_input c = Ok net /\ row_by_row (fcbnsa_forward false net) s a /\
     (length s = 1 -> normalize_input = true \/ 0 < depth -> fcbnsa_forward true net s a = Err ValueError)) /\
  (1 <= depth -> exists net, fcbnlate_init p p' q n_obs n_action width depth normalize_input c = Ok net /\ row_by_row (fcbnlate_forward false net) s a /\
     (length s = 1 -> fcbnlate_forward true net s a = Err ValueError)).
Proof.
  intros C RS RA E. split.
  - eexists. unfold fcbnsa_init, assign_before_init. rewrite (proj1 C). cbn [rbind]. split; [apply (mlpbn_init_ok _ _ _ _ _ _ _ _ (proj1 C))|]. split.
    + apply (singleton_row (n := n_obs) (n' := n_action) (fun x y => mlpbn_row p q f (n_obs + n_action) 1 (repeat width depth) normalize_input false (x ++ y))); auto.
      clear -C. intros s a RS RA E. destruct (cat_rows n_obs n_action s a RS RA E) as [CE CR]. unfold fcbnsa_forward. rewrite CE. cbn [rbind].
      rewrite (mlpbn_rows p q (n_obs + n_action) 1 (repeat width depth) normalize_input false c f _ _ C (mlpbn_init_ok _ _ _ _ _ _ _ _ (proj1 C)) CR), map_map. reflexivity.
    + intros L1 W. destruct (cat_rows n_obs n_action s a RS RA E) as [CE CR]. unfold fcbnsa_forward. rewrite CE. cbn [rbind]. set (x := map _ (combine s a)) in *.
      assert (LX : length x = 1) by (unfold x; rewrite map_length, combine_length; lia). unfold mlpbn_forward. cbn [n_hidden_sizes n_input n_hidden n_output n_outbn n_nonlinearity].
      assert (BN : forall b y, rows (b_size b) y -> length y = 1 -> bn_forward true b y = Err ValueError).
      { clear. intros b y R L. unfold bn_forward. assert (G : forallb (fun row => length row =? b_size b) y = true) by (apply forallb_forall; intros r I; apply Nat.eqb_eq; unfold rows in R; rewrite Forall_forall in R; auto). rewrite G, L. reflexivity. }
      destruct normalize_input; [cbn [opt_bn]; now rewrite BN|]. destruct W as [W|W]; [discriminate|]. cbn [opt_bn rbind]. destruct depth as [|depth]; [lia|]. cbn [repeat stack_bn through_bn].
      unfold new_linearbn at 1. rewrite linear_rows by exact CR. cbn [rbind]. rewrite BN; [reflexivity|apply rows_map; intros; apply linear_row_len|now rewrite map_length].
  - intros D. eexists. assert (RL : plain relu (fun x => if Qle_bool x 0 then 0%Q else x)) by (split; reflexivity). split; [|split].
    + unfold fcbnlate_init, assign_before_init. rewrite (proj2 (Nat.leb_le 1 depth) D), (proj1 C). cbn [rbind passert]. rewrite (mlpbn_init_ok p q n_obs width [] normalize_input true relu eq_refl). cbn [rbind]. rewrite (mlp_init_ok _ _ _ _ _ f C). reflexivity.
    + set (g := fun row : list Q => map f (mlpbn_row p q (fun x => if Qle_bool x 0 then 0%Q else x) n_obs width [] normalize_input true row)).
      apply (singleton_row (n := n_obs) (n' := n_action) (fun x y => mlp_row p' f (width + n_action) 1 (repeat width (depth - 1)) (g x ++ y))); auto.
      clear -C RL g. intros s a RS RA E. unfold fcbnlate_forward. cbn [lb_obs lb_mlp lb_nl].
      rewrite (mlpbn_rows p q n_obs width [] normalize_input true relu _ s _ RL (mlpbn_init_ok _ _ _ _ _ _ _ relu eq_refl) RS). cbn [rbind]. rewrite (proj2 C), map_map. fold g.
      assert (RG : rows width (map g s)) by (apply rows_map; intros; unfold g; rewrite map_length; apply mlpbn_row_len).
      destruct (cat_rows width n_action (map g s) a RG RA) as [CE2 CR2]; [now rewrite map_length|]. rewrite CE2. cbn [rbind].
      rewrite (mlp_rows p' (width + n_action) 1 (repeat width (depth - 1)) c f _ _ C (mlp_init_ok _ _ _ _ _ f C) CR2), map_map. f_equal.
      clear. revert a. induction s as [|x s IH]; intros [|y a]; try reflexivity. cbn [map combine fst snd]. f_equal. apply IH.
    + intros L1. unfold fcbnlate_forward, mlpbn_forward. cbn [lb_obs n_hidden_sizes n_input n_hidden n_output n_outbn n_nonlinearity].
      assert (BN : forall b y, rows (b_size b) y -> length y = 1 -> bn_forward true b y = Err ValueError).
      { clear. intros b y R L. unfold bn_forward. assert (G : forallb (fun row => length row =? b_size b) y = true) by (apply forallb_forall; intros r I; apply Nat.eqb_eq; unfold rows in R; rewrite Forall_forall in R; auto). rewrite G, L. reflexivity. }
      destruct normalize_input; cbn [opt_bn]; [now rewrite BN|]. cbn [rbind]. rewrite linear_rows by exact RS. cbn [rbind]. rewrite BN; [reflexivity|apply rows_map; intros; apply linear_row_len|now rewrite map_length].
Qed.

(** Distributional values: row a of the atoms of an observation consists of the outputs a * n_atoms, ..., a * n_atoms + n_atoms - 1. *)
Theorem C101_atoms p ndim_obs n_actions n_atoms v_min v_max width depth c f x : plain c f -> rows ndim_obs x -> 2 <= n_atoms -> (v_min < v_max)%Q ->
  exists net z, distfc_init p ndim_obs n_actions n_atoms v_min v_max width depth c = Ok net /\ distfc_logits net n_actions n_atoms x = Ok z /\
    Forall2 (fun row za => length za = n_actions /\ exists y, perceptron p f 1 ndim_obs (repeat width depth) (n_actions * n_atoms) row y /\
      forall k, k < n_actions -> length (nth k za []) = n_atoms /\ forall j, j < n_atoms -> nth j (nth k za []) 0%Q = nth (k * n_atoms + j) y 0%Q) x z.
Proof.
  intros C R A V. eexists. exists (map (fun row => chunks n_atoms n_actions (mlp_row p f ndim_obs (n_actions * n_atoms) (repeat width depth) row)) x). split; [|split].
  - unfold distfc_init. rewrite (proj2 (Nat.leb_le 2 n_atoms) A). cbn [passert rbind]. assert (V' : Qle_bool v_max v_min = false). { destruct (Qle_bool v_max v_min) eqn:Q; [|reflexivity]. apply Qle_bool_iff in Q. exfalso. exact (Qlt_not_le _ _ V Q). }
    rewrite V'. cbn [negb passert rbind]. apply (mlp_init_ok _ _ _ _ _ f C).
  - unfold distfc_logits. rewrite (mlp_rows p ndim_obs _ _ c f _ _ C (mlp_init_ok _ _ _ _ _ f C) R). cbn [rbind]. now rewrite map_map.
  - assert (CH : forall m n (y : list Q), length y = m * n -> length (chunks n m y) = m /\ forall k, k < m -> length (nth k (chunks n m y) []) = n /\ forall j, j < n -> nth j (nth k (chunks n m y) []) 0%Q = nth (k * n + j) y 0%Q).
    { clear. induction m as [|m IH]; intros n y L; cbn [chunks length]; [split; [reflexivity|lia]|]. destruct (IH n (skipn n y)) as [L2 H]; [rewrite skipn_length; lia|]. split; [lia|].
      intros k K. destruct k as [|k]; cbn [nth].
      - split; [rewrite firstn_length; lia|]. intros j J. cbn [Nat.mul Nat.add]. rewrite <- (firstn_skipn n y) at 2. rewrite app_nth1 by (rewrite firstn_length; lia). reflexivity.
      - destruct (H k ltac:(lia)) as [HL HJ]. split; [exact HL|]. intros j J. rewrite HJ by exact J. rewrite <- (firstn_skipn n y) at 2. rewrite app_nth2 by (rewrite firstn_length; nia). f_equal. rewrite firstn_length. nia. }
    induction R as [|row x L R IH]; constructor; [|exact IH]. set (y := mlp_row _ _ _ _ _ row). destruct (CH n_actions n_atoms y (mlp_row_len _ _ _ _ _ _)) as [L1 H]. split; [exact L1|]. exists y. split; [now apply perceptron_row|exact H].
Qed.

(** The convolutional networks take 84 by 84 frames (up to 91 by 91), and no other square ones. *)
Theorem C101_atari n_in n_out c h w : 
  (large_cnn n_in n_out (c, h, w) = Ok n_out <-> c = n_in /\ 36 <= h /\ 36 <= w /\ (((h - 8) / 4 + 1 - 4) / 2 - 1) * (((w - 8) / 4 + 1 - 4) / 2 - 1) = 49) /\
  (large_cnn n_in n_out (n_in, h, h) = Ok n_out <-> 84 <= h <= 91) /\ (small_cnn n_in n_out (n_in, h, h) = Ok n_out <-> 84 <= h <= 91).
Proof.
  assert (MONO : forall h, 8 <= h -> 4 <= (h - 8) / 4 + 1 -> 20 <= h) by (intros x H; destruct (Nat.le_gt_cases 20 x); auto; intros K; pose proof (Nat.div_lt_upper_bound (x - 8) 4 3 ltac:(lia) ltac:(lia)); lia).
  assert (LB : forall x n k, n <> 0 -> n * k <= x -> k <= x / n) by (intros; now apply Nat.div_le_lower_bound).
  assert (UB : forall x n k, n <> 0 -> x < n * k -> x / n < k) by (intros; now apply Nat.div_lt_upper_bound).
  assert (L1 : large_cnn n_in n_out (c, h, w) = Ok n_out <-> c = n_in /\ 36 <= h /\ 36 <= w /\ (((h - 8) / 4 + 1 - 4) / 2 - 1) * (((w - 8) / 4 + 1 - 4) / 2 - 1) = 49).
  { unfold large_cnn. cbn [conv]. split.
    - intros H. destruct (Nat.eqb_spec c n_in) as [->|]; [|discriminate]. destruct (Nat.leb_spec 8 h) as [H1|]; [|discriminate]. destruct (Nat.leb_spec 8 w) as [W1|]; [|discriminate]. cbn [andb rbind conv Nat.eqb] in H.
      set (h1 := (h - 8) / 4 + 1) in *. set (w1 := (w - 8) / 4 + 1) in *. destruct (Nat.leb_spec 4 h1) as [H2|]; [|discriminate]. destruct (Nat.leb_spec 4 w1) as [W2|]; [|discriminate]. cbn [andb rbind conv Nat.eqb] in H.
      set (h2 := (h1 - 4) / 2 + 1) in *. set (w2 := (w1 - 4) / 2 + 1) in *. destruct (Nat.leb_spec 3 h2) as [H3|]; [|discriminate]. destruct (Nat.leb_spec 3 w2) as [W3|]; [|discriminate]. cbn [andb rbind fits] in H.
      rewrite !Nat.div_1_r in H. destruct (Nat.eqb_spec (64 * (h2 - 3 + 1) * (w2 - 3 + 1)) (64 * 49)) as [F|]; [|discriminate].
      split; [reflexivity|]. split; [|split].
      + destruct (Nat.le_gt_cases 36 h) as [|G]; [assumption|]. exfalso. assert (h1 < 8) by (unfold h1; assert ((h - 8) / 4 < 7) by (apply UB; lia); lia). assert ((h1 - 4) / 2 < 2) by (apply UB; lia). lia.
      + destruct (Nat.le_gt_cases 36 w) as [|G]; [assumption|]. exfalso. assert (w1 < 8) by (unfold w1; assert ((w - 8) / 4 < 7) by (apply UB; lia); lia). assert ((w1 - 4) / 2 < 2) by (apply UB; lia). lia.
      + replace ((h1 - 4) / 2 - 1) with (h2 - 3 + 1) by lia. replace ((w1 - 4) / 2 - 1) with (w2 - 3 + 1) by lia. nia.
    - intros (-> & H & W & F). rewrite Nat.eqb_refl. rewrite (proj2 (Nat.leb_le 8 h)), (proj2 (Nat.leb_le 8 w)) by lia. cbn [andb rbind conv Nat.eqb].
      assert (H1 : 7 <= (h - 8) / 4) by (apply LB; lia). assert (W1 : 7 <= (w - 8) / 4) by (apply LB; lia). set (h1 := (h - 8) / 4 + 1) in *. set (w1 := (w - 8) / 4 + 1) in *.
      rewrite (proj2 (Nat.leb_le 4 h1)), (proj2 (Nat.leb_le 4 w1)) by lia. cbn [andb rbind conv Nat.eqb]. assert (H2 : 2 <= (h1 - 4) / 2) by (apply LB; lia). assert (W2 : 2 <= (w1 - 4) / 2) by (apply LB; lia).
      rewrite (proj2 (Nat.leb_le 3 ((h1 - 4) / 2 + 1))), (proj2 (Nat.leb_le 3 ((w1 - 4) / 2 + 1))) by lia. cbn [andb rbind fits]. rewrite !Nat.div_1_r.
      assert (F' : 64 * ((h1 - 4) / 2 + 1 - 3 + 1) * ((w1 - 4) / 2 + 1 - 3 + 1) = 64 * 49) by (replace ((h1 - 4) / 2 + 1 - 3 + 1) with ((h1 - 4) / 2 - 1) by lia; replace ((w1 - 4) / 2 + 1 - 3 + 1) with ((w1 - 4) / 2 - 1) by lia; nia).
      now rewrite F', Nat.eqb_refl. }
  split; [exact L1|]. clear L1 MONO.
  assert (R1 : forall x, 84 <= x <= 91 -> ((x - 8) / 4 + 1 - 4) / 2 = 8).
  { intros x X. assert (19 <= (x - 8) / 4) by (apply LB; lia). assert ((x - 8) / 4 < 21) by (apply UB; lia). assert (8 <= ((x - 8) / 4 + 1 - 4) / 2) by (apply LB; lia). assert (((x - 8) / 4 + 1 - 4) / 2 < 9) by (apply UB; lia). lia. }
  assert (R2 : forall x, 8 <= x -> ((x - 8) / 4 + 1 - 4) / 2 = 8 -> 84 <= x <= 91).
  { intros x X D. split.
    - destruct (Nat.le_gt_cases 84 x) as [|G]; [assumption|]. exfalso. assert ((x - 8) / 4 < 19) by (apply UB; lia). assert (((x - 8) / 4 + 1 - 4) / 2 < 8) by (apply UB; lia). lia.
    - destruct (Nat.le_gt_cases x 91) as [|G]; [assumption|]. exfalso. assert (21 <= (x - 8) / 4) by (apply LB; lia). assert (9 <= ((x - 8) / 4 + 1 - 4) / 2) by (apply LB; lia). lia. }
  split.
  - unfold large_cnn. cbn [conv]. rewrite Nat.eqb_refl. split.
    + intros H. destruct (Nat.leb_spec 8 h) as [H1|]; [|discriminate]. cbn [andb rbind conv Nat.eqb] in H. destruct (Nat.leb_spec 4 ((h - 8) / 4 + 1)) as [H2|]; [|discriminate]. cbn [andb rbind conv Nat.eqb] in H.
      destruct (Nat.leb_spec 3 (((h - 8) / 4 + 1 - 4) / 2 + 1)) as [H3|]; [|discriminate]. cbn [andb rbind fits] in H. rewrite !Nat.div_1_r in H. set (h2 := ((h - 8) / 4 + 1 - 4) / 2) in *.
      destruct (Nat.eqb_spec (64 * (h2 + 1 - 3 + 1) * (h2 + 1 - 3 + 1)) (64 * 49)) as [F|]; [|discriminate]. apply R2; [exact H1|]. fold h2. nia.
    + intros X. rewrite (proj2 (Nat.leb_le 8 h)) by lia. cbn [andb rbind conv Nat.eqb]. assert (19 <= (h - 8) / 4) by (apply LB; lia). rewrite (proj2 (Nat.leb_le 4 _)) by lia. cbn [andb rbind conv Nat.eqb]. rewrite (R1 h X). reflexivity.
  - unfold small_cnn. cbn [conv]. rewrite Nat.eqb_refl. split.
    + intros H. destruct (Nat.leb_spec 8 h) as [H1|]; [|discriminate]. cbn [andb rbind conv Nat.eqb] in H. destruct (Nat.leb_spec 4 ((h - 8) / 4 + 1)) as [H2|]; [|discriminate]. cbn [andb rbind fits] in H. set (h2 := ((h - 8) / 4 + 1 - 4) / 2) in *.
      destruct (Nat.eqb_spec (32 * (h2 + 1) * (h2 + 1)) (32 * 81)) as [F|]; [|discriminate]. apply R2; [exact H1|]. fold h2. nia.
    + intros X. rewrite (proj2 (Nat.leb_le 8 h)) by lia. cbn [andb rbind conv Nat.eqb]. assert (19 <= (h - 8) / 4) by (apply LB; lia). rewrite (proj2 (Nat.leb_le 4 _)) by lia. cbn [andb rbind fits]. rewrite (R1 h X). reflexivity.
Qed.

(** False of the claim that all classes can be built, with any callable as nonlinearity: FCLSTMSAQFunction and SingleModelStateActionQFunction never can,
    and an nn.Module (such as nn.ReLU()) as nonlinearity is refused by all of them. *)
Theorem C101_all_constructible_refuted :
  (forall n_obs n_action width depth c r, fclstm_init n_obs n_action width depth c <> Ok r) /\ (forall model r, single_sa_init model <> Ok r) /\
  (forall p p' q n m width depth ni c, c_module c = true -> 1 <= depth -> mlp_init p n m (repeat width depth) c = Err AttributeError /\ fcsa_init p n m width depth c = Err AttributeError /\
     fcbnsa_init p q n m width depth ni c = Err AttributeError /\ fclate_init p p' n m width depth c = Err AttributeError /\ fcbnlate_init p p' q n m width depth ni c = Err AttributeError).
Proof.
  split; [intros; discriminate|]. split; [intros; discriminate|]. intros p p' q n m width depth ni c C D. unfold fcsa_init, fcbnsa_init, fclate_init, fcbnlate_init, mlp_init, assign_before_init. rewrite C, (proj2 (Nat.leb_le 1 depth) D). repeat split.
Qed.

(** Two observations of two numbers, one-dimensional actions, three hidden units, weights 1 and biases 0. *)
Definition ones : inits := fun _ => (fun _ _ => 1%Q, fun _ => 0%Q).
Example C101_ex : match fclate_init ones ones 2 1 3 2 relu with
  | Ok net => rmap (map (map Qred)) (fclate_forward net [[1; 2]; [0; -(1)]]%Q [[5]; [4]]%Q) = Ok [[42]; [12]]%Q
  | Err _ => False end /\ plain relu (fun x => if Qle_bool x 0 then 0%Q else x) /\ large_cnn 4 512 (4, 84, 84) = Ok 512.
Proof. split; [reflexivity|]. split; [split; reflexivity|reflexivity]. Qed.
Print Assumptions C101_mlp.
Print Assumptions C101_state_action.
Print Assumptions C101_one_hidden_layer_is_separable.
Print Assumptions C101_batchnorm.
Print Assumptions C101_atoms.
Print Assumptions C101_atari.
Print Assumptions C101_all_constructible_refuted.
