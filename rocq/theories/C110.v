(** C110: batching observations. *)
From Coq Require Import QArith.
From Verif Require Import Base M_Batch M_BatchStates P_RecurrentState.
Close Scope Q_scope. Open Scope nat_scope.

(** ** Specification *)
(** The arrays an observation consists of: itself, or the elements of a tuple or list. *)
Definition parts (o : observation) (l : list array) : Prop := o = Arr (hd (mkArray [] []) l) /\ length l = 1 \/ exists t, o = Seq t (map Arr l).
(** The tensors a batch consists of, as rows. *)
Definition tensors (b : batched) (cols : list (list array)) : Prop := b = Tensor (hd [] cols) /\ length cols = 1 \/ exists t, b = Bseq t (map Tensor cols).
(** Observations that can be batched: arrays of one shape, or tuples or lists of as many arrays, the same shapes in the same places. *)
Definition uniform (fs : list observation) : Prop :=
  (exists sh, Forall (fun o => exists a, o = Arr a /\ shape a = sh) fs) \/ (exists shs, Forall (fun o => exists t l, o = Seq t (map Arr l) /\ map shape l = shs) fs).

(** ** Proofs *)
Fixpoint go (comps : list observation) (ls : list (list observation)) : result (list batched) :=
  match comps with
  | [] => Ok []
  | c :: comps => heads <- rmapM (fun l => py_get l 0) ls ;; x <- collate c heads ;; xs <- go comps (map (@tl observation) ls) ;; Ok (x :: xs)
  end.
Lemma collate_seq t comps batch : collate (Seq t comps) batch =
  (ls <- rmapM as_seq batch ;; _ <- (if forallb (fun l => length l =? length comps) ls then Ok tt else Err RuntimeError) ;; cs <- go comps ls ;; Ok (Bseq false cs)).
Proof. reflexivity. Qed.
Lemma as_arrays fs l : rmapM as_array fs = Ok l -> fs = map Arr l.
Proof.
  intros H. apply rmapM_Forall2 in H. induction H as [|o a fs l E H IH]; [reflexivity|]. cbn. rewrite <- IH. f_equal. destruct o; try discriminate. now injection E as ->.
Qed.
Lemma stack_ok l b : stack l = Ok b -> b = Tensor l /\ l <> [] /\ exists sh, Forall (fun a => shape a = sh) l.
Proof.
  unfold stack. destruct l as [|a l]; [discriminate|]. destruct (forallb _ _) eqn:E; [|discriminate]. intros H. injection H as <-. split; [reflexivity|]. split; [discriminate|]. exists (shape a). constructor; [reflexivity|]. rewrite forallb_forall in E. apply Forall_forall. intros x I. apply E in I. unfold same_shape in I. now destruct (list_eq_dec _ _ _) in I.
Qed.
Lemma collate_tensor c heads rows : collate c heads = Ok (Tensor rows) -> heads = map Arr rows /\ exists sh, Forall (fun a => shape a = sh) rows.
Proof.
  destruct c as [a|t comps|comps|].
  - cbn [collate]. destruct (rmapM as_array heads) as [l|] eqn:E; [|discriminate]. cbn [rbind]. intros H. apply stack_ok in H. destruct H as (H & _ & S). injection H as ->. split; [now apply as_arrays|exact S].
  - rewrite collate_seq. destruct (rmapM as_seq heads); [|discriminate]. cbn [rbind]. destruct (forallb _ _); [|discriminate]. cbn [rbind]. destruct (go _ _); discriminate.
  - cbn [collate]. match goal with |- rbind ?x _ = _ -> _ => destruct x end; discriminate.
  - discriminate.
Qed.
(** The columns of a batch of sequences. *)
Lemma go_rows comps : forall ls cols, Forall (fun l => length l = length comps) ls -> go comps ls = Ok (map Tensor cols) ->
  Forall (fun c => length c = length ls) cols /\ (exists shs, Forall (fun l => exists r, l = map Arr r /\ map shape r = shs) ls) /\ (forall i l, nth_error ls i = Some l -> exists r, l = map Arr r /\ Forall2 (fun c x => nth_error c i = Some x) cols r).
Proof.
  induction comps as [|c comps IH]; intros ls cols L E; cbn [go] in E.
  - injection E as E. symmetry in E. apply map_eq_nil in E. subst cols. split; [constructor|]. split; [exists []; apply Forall_forall|intros i l N; exists []; split; [|constructor]]; [|].
    + intros l I. rewrite Forall_forall in L. apply L in I. exists []. destruct l; [now split|discriminate].
    + apply nth_error_In in N. rewrite Forall_forall in L. apply L in N. now destruct l.
  - destruct (rmapM (fun l => py_get l 0) ls) as [heads|] eqn:H; [|discriminate]. cbn [rbind] in E. destruct (collate c heads) as [x|] eqn:C; [|discriminate]. cbn [rbind] in E. destruct (go comps (map (@tl _) ls)) as [xs|] eqn:G; [|discriminate]. cbn [rbind] in E.
    destruct cols as [|col cols]; [discriminate|]. cbn [map] in E. assert (X : x = Tensor col /\ xs = map Tensor cols) by (split; congruence). destruct X as [-> ->]. clear E. apply collate_tensor in C. destruct C as [-> [sh SH]].
    assert (L' : Forall (fun l => length l = length comps) (map (@tl _) ls)). { apply Forall_map. eapply Forall_impl; [|exact L]. intros [|y l]; cbn; lia. }
    destruct (IH _ _ L' G) as (I1 & (shs & I2) & I3). rewrite map_length in I1. apply rmapM_Forall2 in H.
    assert (HL : ls = map (fun p => fst p :: snd p) (combine (map Arr col) (map (@tl _) ls)) /\ length col = length ls).
    { clear - H L. remember (map Arr col) as hs eqn:E. revert col E. induction H as [|l h ls hs P H IH]; intros col E; [destruct col; [split; reflexivity|discriminate]|]. destruct col as [|a col]; [discriminate|]. cbn in E. injection E as -> ->. apply Forall_cons_iff in L. destruct L as [L1 L]. destruct (IH L col eq_refl) as [IH1 IH2].
      split; [|cbn; congruence]. cbn [map combine fst snd]. rewrite <- IH1. f_equal. destruct l as [|y l]; [discriminate|]. cbn in P. injection P as ->. reflexivity. }
    destruct HL as [HL LC]. split; [now constructor|]. split.
    + exists (sh :: shs). rewrite HL. apply Forall_map, Forall_forall. intros [h t] I. cbn [fst snd]. pose proof (in_combine_l _ _ _ _ I) as I4. pose proof (in_combine_r _ _ _ _ I) as I5. rewrite Forall_forall in I2, SH. apply in_map_iff in I4. destruct I4 as (a & <- & I4). destruct (I2 _ I5) as (r & -> & R). exists (a :: r). cbn. split; [reflexivity|]. f_equal; auto.
    + intros i l N. rewrite HL in N. rewrite nth_error_map in N. destruct (nth_error (combine _ _) i) as [[h t]|] eqn:NC; [|discriminate]. cbn in N. injection N as <-.
      assert (N2 : nth_error (map Arr col) i = Some h /\ nth_error (map (@tl observation) ls) i = Some t).
      { clear - NC. revert i NC. generalize (map (@tl observation) ls) as b. generalize (map Arr col) as a. induction a as [|x a IH]; intros [|y b] [|i] H; try discriminate; cbn in *; [injection H as <- <-; auto|auto]. }
      destruct N2 as [N1 N2]. apply I3 in N2. destruct N2 as (r & -> & F). rewrite nth_error_map in N1. destruct (nth_error col i) as [a|] eqn:NA; [|discriminate]. cbn in N1. injection N1 as <-. exists (a :: r). split; [reflexivity|now constructor].
Qed.
Lemma all_tensors cs cs' : rmapM to_tensor cs = Ok cs' -> exists cols, cs = map Tensor cols /\ cs' = map Tensor cols.
Proof. intros H. apply rmapM_Forall2 in H. induction H as [|b b' cs cs' E H (cols & -> & ->)]; [now exists []|]. destruct b; try discriminate. injection E as <-. now exists (rows :: cols). Qed.
Lemma as_seqs fs ls : rmapM as_seq fs = Ok ls -> Forall2 (fun o l => exists t, o = Seq t l) fs ls.
Proof. intros H. apply rmapM_Forall2 in H. induction H as [|o l fs ls E H IH]; constructor; [|exact IH]. destruct o; try discriminate. injection E as ->. eauto. Qed.
Lemma Forall2_nth {A B} (P : A -> B -> Prop) a b i x : Forall2 P a b -> nth_error a i = Some x -> exists y, nth_error b i = Some y /\ P x y.
Proof. intros H. revert i. induction H as [|x' y a b E H IH]; intros [|i] N; try discriminate; [injection N as ->; now exists y|now apply IH]. Qed.
Lemma Forall2_len {A B} (P : A -> B -> Prop) a b : Forall2 P a b -> length a = length b.
Proof. induction 1; cbn; congruence. Qed.

(** Row i of every tensor of the batch is the part in the same place of what phi makes of observation i; a batch of tuples is a tuple. *)
Theorem C110_rows {S} (states : list S) phi b : batch_states states phi = Ok b ->
  exists cols, tensors b cols /\ Forall (fun c => length c = length states) cols /\
    (forall i s, nth_error states i = Some s -> exists row, parts (phi s) row /\ Forall2 (fun c x => nth_error c i = Some x) cols row) /\
    (forall s0, hd_error states = Some s0 -> match phi s0 with Arr _ => exists c, b = Tensor c | Seq t _ => exists l, b = Bseq t l | _ => False end).
Proof.
  unfold batch_states. destruct states as [|s0 states]; [discriminate|]. cbn [map]. destruct (collate _ _) as [c|] eqn:C; [|discriminate]. cbn [rbind]. set (ss := s0 :: states) in *. change (phi s0 :: map phi states) with (map phi ss) in C. intros T. destruct (phi s0) as [a|t comps|comps|] eqn:P0.
  - cbn [collate] in C. destruct (rmapM as_array _) as [l|] eqn:E; [|discriminate]. apply stack_ok in C. destruct C as (-> & _ & _). cbn in T. injection T as <-. apply as_arrays in E. exists [l]. split; [left; auto|]. split; [constructor; [rewrite <- (map_length Arr l), <- E; apply map_length|constructor]|]. split; [|cbn; intros s H; injection H as <-; rewrite P0; eauto].
    intros i s N. assert (N' : nth_error (map phi ss) i = Some (phi s)) by now rewrite nth_error_map, N. rewrite E, nth_error_map in N'. destruct (nth_error l i) as [x|] eqn:NL; [|discriminate]. cbn in N'. injection N' as N'. exists [x]. split; [left; cbn; auto|]. constructor; [exact NL|constructor].
  - rewrite collate_seq in C. destruct (rmapM as_seq _) as [ls|] eqn:E; [|discriminate]. cbn [rbind] in C. destruct (forallb _ _) eqn:F; [|discriminate]. cbn [rbind] in C. destruct (go comps ls) as [cs|] eqn:G; [|discriminate]. cbn [rbind] in C. injection C as <-.
    assert (T' : exists cols, cs = map Tensor cols /\ b = Bseq t (map Tensor cols)). { destruct t; cbn [to_recursive] in T; (destruct (rmapM to_tensor cs) as [cs'|] eqn:R; [|discriminate]); cbn [rbind] in T; injection T as <-; apply all_tensors in R; destruct R as (cols & -> & ->); eauto. }
    destruct T' as (cols & -> & ->). assert (L : Forall (fun l => length l = length comps) ls). { rewrite forallb_forall in F. apply Forall_forall. intros l I. now apply Nat.eqb_eq, F. }
    destruct (go_rows comps ls cols L G) as (G1 & _ & G3). apply as_seqs in E. exists cols. split; [right; eauto|]. split; [rewrite <- (map_length phi), (Forall2_len _ _ _ E); exact G1|]. split; [|cbn; intros s H; injection H as <-; rewrite P0; eauto].
    intros i s N. assert (N' : nth_error (map phi ss) i = Some (phi s)) by now rewrite nth_error_map, N. destruct (Forall2_nth _ _ _ _ _ E N') as (l & NL & (t' & Q)). destruct (G3 i l NL) as (r & -> & R). exists r. split; [right; eauto|exact R].
  - cbn [collate] in C. match goal with C : rbind ?x _ = _ |- _ => destruct x; [|discriminate] end. cbn [rbind] in C. injection C as <-. discriminate.
  - discriminate.
Qed.

Lemma uniform_go : forall (l0 : list array) ls, ls <> [] -> Forall (fun l => map shape l = map shape l0) ls -> exists cols, go (map Arr l0) (map (map Arr) ls) = Ok (map Tensor cols).
Proof.
  induction l0 as [|a l0 IH]; intros ls NE F; [now exists []|]. cbn [map go].
  assert (H : rmapM (fun l => py_get l 0) (map (map Arr) ls) = Ok (map Arr (map (hd a) ls)) /\ map (@tl observation) (map (map Arr) ls) = map (map Arr) (map (@tl array) ls) /\ Forall (fun x => shape x = shape a) (map (hd a) ls) /\ Forall (fun l => map shape l = map shape l0) (map (@tl array) ls)).
  { clear - F. induction ls as [|l ls IH]; [repeat split; constructor|]. apply Forall_cons_iff in F. destruct F as [F1 F]. destruct (IH F) as (I1 & I2 & I3 & I4). destruct l as [|x l]; [discriminate|]. cbn [map] in F1. injection F1 as S1 S2. cbn [map rmapM py_get hd tl]. rewrite I1, I2. split; [reflexivity|]. split; [reflexivity|]. split; now constructor. }
  destruct H as (-> & -> & H3 & H4). cbn [rbind]. assert (C : collate (Arr a) (map Arr (map (hd a) ls)) = Ok (Tensor (map (hd a) ls))).
  { cbn [collate]. assert (E : forall l, rmapM as_array (map Arr l) = Ok l) by (induction l as [|x l E]; [reflexivity|]; cbn; now rewrite E). rewrite E. cbn [rbind]. unfold stack. destruct ls as [|l ls]; [contradiction|]. cbn [map] in *. apply Forall_cons_iff in H3. destruct H3 as [H3 H3'].
    replace (forallb _ _) with true; [reflexivity|]. symmetry. apply forallb_forall. intros x I. rewrite Forall_forall in H3'. apply H3' in I. unfold same_shape. destruct (list_eq_dec _ _ _); [reflexivity|]. congruence. }
  rewrite C. cbn [rbind]. destruct (IH (map (@tl array) ls)) as [cols ->]; [now destruct ls|exact H4|]. now exists (map (hd a) ls :: cols).
Qed.
(** Exactly the uniform batches are accepted; any other raises an exception. *)
Theorem C110_accepted {S} (states : list S) phi : (exists b, batch_states states phi = Ok b) <-> states <> [] /\ uniform (map phi states).
Proof.
  split.
  - intros [b B]. split; [intros ->; discriminate|]. unfold batch_states in B. destruct states as [|s0 states]; [discriminate|]. cbn [map] in B. destruct (collate _ _) as [c|] eqn:C; [|discriminate]. cbn [rbind] in B. set (ss := s0 :: states) in *. change (phi s0 :: map phi states) with (map phi ss) in C. destruct (phi s0) as [a|t comps|comps|] eqn:P0.
    + cbn [collate] in C. destruct (rmapM as_array _) as [l|] eqn:E; [|discriminate]. apply stack_ok in C. destruct C as (_ & _ & sh & SH). left. exists sh. apply as_arrays in E. rewrite E. apply Forall_map. eapply Forall_impl; [|exact SH]. intros x X. eauto.
    + rewrite collate_seq in C. destruct (rmapM as_seq _) as [ls|] eqn:E; [|discriminate]. cbn [rbind] in C. destruct (forallb _ _) eqn:F; [|discriminate]. cbn [rbind] in C. destruct (go comps ls) as [cs|] eqn:G; [|discriminate]. cbn [rbind] in C. injection C as <-.
      assert (T' : exists cols, cs = map Tensor cols). { destruct t; cbn [to_recursive] in B; (destruct (rmapM to_tensor cs) as [cs'|] eqn:R; [|discriminate]); apply all_tensors in R; destruct R as (cols & -> & ->); eauto. }
      destruct T' as (cols & ->). assert (L : Forall (fun l => length l = length comps) ls). { rewrite forallb_forall in F. apply Forall_forall. intros l I. now apply Nat.eqb_eq, F. }
      destruct (go_rows comps ls cols L G) as (_ & (shs & G2) & _). right. exists shs. apply as_seqs in E. clear - E G2. induction E as [|o l fs ls (t & ->) E IH]; [constructor|]. apply Forall_cons_iff in G2. destruct G2 as [(r & -> & R) G2]. constructor; [eauto|now apply IH].
    + cbn [collate] in C. match goal with C : rbind ?x _ = _ |- _ => destruct x; [|discriminate] end. cbn [rbind] in C. injection C as <-. discriminate.
    + discriminate.
  - intros [NE U]. unfold batch_states. destruct states as [|s0 states]; [contradiction|]. cbn [map]. set (fs := phi s0 :: map phi states). change (map phi (s0 :: states)) with fs in U. destruct U as [(sh & U) | (shs & U)].
    + assert (A : exists l, fs = map Arr l /\ Forall (fun a => shape a = sh) l). { clear - U. induction U as [|o fs (a & -> & A) U (l & -> & L)]; [exists []; auto|]. exists (a :: l). split; [reflexivity|now constructor]. }
      destruct A as (l & E & L). destruct l as [|a l]; [discriminate|]. unfold fs in E. cbn [map] in E. injection E as E0 E1. rewrite E0. unfold fs. rewrite E0, E1. cbn [collate]. assert (R : rmapM as_array (Arr a :: map Arr l) = Ok (a :: l)) by (change (Arr a :: map Arr l) with (map Arr (a :: l)); clear; induction (a :: l) as [|x l' R]; [reflexivity|]; cbn; now rewrite R).
      rewrite R. cbn [rbind stack]. apply Forall_cons_iff in L. destruct L as [L0 L]. replace (forallb _ _) with true; [cbn; eauto|]. symmetry. apply forallb_forall. intros x I. rewrite Forall_forall in L. apply L in I. unfold same_shape. destruct (list_eq_dec _ _ _); [reflexivity|congruence].
    + assert (A : exists ls, Forall2 (fun o l => exists t, o = Seq t (map Arr l)) fs ls /\ Forall (fun l => map shape l = shs) ls). { clear - U. induction U as [|o fs (t & l & -> & A) U (ls & E & L)]; [exists []; split; constructor|]. exists (l :: ls). split; constructor; eauto. }
      destruct A as (ls & E & L). assert (R : rmapM as_seq fs = Ok (map (map Arr) ls)). { clear - E. induction E as [|o l fs ls (t & ->) E IH]; [reflexivity|]. cbn. now rewrite IH. }
      destruct ls as [|l0 ls]; [inversion E|]. assert (P : exists t, phi s0 = Seq t (map Arr l0)) by (inversion E; assumption). destruct P as [t P]. rewrite P, collate_seq, R. cbn [rbind]. apply Forall_cons_iff in L. destruct L as [L0 L].
      replace (forallb _ _) with true. 2:{ symmetry. apply forallb_forall. intros x I. apply in_map_iff in I. destruct I as (l & <- & I). rewrite !map_length. apply Nat.eqb_eq. rewrite <- (map_length shape l), <- (map_length shape l0), L0. f_equal. destruct I as [<- | I]; [exact L0|]. rewrite Forall_forall in L. auto. }
      cbn [rbind]. destruct (uniform_go l0 (l0 :: ls)) as [cols ->]; [discriminate|constructor; [reflexivity|]; eapply Forall_impl; [|exact L]; intros l Q; cbn beta in Q; congruence|]. cbn [rbind].
      assert (TT : rmapM to_tensor (map Tensor cols) = Ok (map Tensor cols)) by (clear; induction cols as [|c cols IH]; [reflexivity|]; cbn; now rewrite IH). destruct t; cbn [to_recursive]; rewrite TT; cbn; eauto.
Qed.

(** Two observations of an image and a vector. *)
Definition img (x : Q) : observation := Arr (mkArray [1; 2] [x; x]).
Definition vec (x : Q) : observation := Arr (mkArray [1] [x]).
Example C110_ex : batch_states [1%Q; 2%Q] (fun x => Seq true [img x; vec (x + x)]) =
  Ok (Bseq true [Tensor [mkArray [1; 2] [1; 1]%Q; mkArray [1; 2] [2; 2]%Q]; Tensor [mkArray [1] [1 + 1]%Q; mkArray [1] [2 + 2]%Q]]).
Proof. reflexivity. Qed.
Example C110_ex_uniform : uniform (map (fun x : Q => Seq true [img x; vec (x + x)]) [1%Q; 2%Q]).
Proof. right. exists [[1; 2]; [1]]. repeat constructor; eexists true, [_; _]; split; reflexivity. Qed.
(** Nested tuples, dictionaries, different shapes and an empty batch are refused. *)
Example C110_ex_refused : batch_states [1%Q] (fun x => Seq true [Seq true [img x]]) = Err AttributeError /\ batch_states [1%Q] (fun x => Map [(0, img x)]) = Err TypeError /\
  batch_states [0; 1] (fun n => if n =? 0 then img 0 else vec 0) = Err RuntimeError /\ batch_states ([] : list Q) img = Err IndexError.
Proof. repeat split; reflexivity. Qed.

Print Assumptions C110_rows.
Print Assumptions C110_accepted.
