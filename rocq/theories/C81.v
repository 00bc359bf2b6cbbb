(** C81: the explained variance reported by PPO and TRPO. *)
From Coq Require Import Reals Lra Lia Psatz.
From Verif Require Import Base M_PPOLoss S_PPOLoss P_PPOLoss C80.
Open Scope R_scope.

Lemma map2_ne {A B C} (f : A -> B -> C) a b : a <> [] -> length a = length b -> map2 f a b <> [].
Proof. destruct a, b; cbn; congruence. Qed.
Lemma map2_In {A B C} (f : A -> B -> C) a b c : In c (map2 f a b) -> exists x y, In (x, y) (combine a b) /\ c = f x y.
Proof. revert b. induction a as [|x a IH]; intros [|y b]; cbn; try tauto. intros [<-|H]; [eauto|]. destruct (IH b H) as (u & v & H1 & ->). eauto. Qed.
Lemma In_map2 {A B C} (f : A -> B -> C) a b x y : In (x, y) (combine a b) -> In (f x y) (map2 f a b).
Proof. revert b. induction a as [|u a IH]; intros [|v b]; cbn; try tauto. intros [[= -> ->]|H]; auto. Qed.

(** [ts] are the returns (value targets), [ys] the predictions. *)
Theorem C81_explained_variance (ts ys : list R) : ts <> [] -> length ys = length ts ->
  (explained_variance ts ys = None <-> all_equal ts) /\
  (forall v, explained_variance ts ys = Some v ->
     v <= 1 /\
     (v = 1 <-> forall t y t' y', In (t, y) (combine ts ys) -> In (t', y') (combine ts ys) -> t - y = t' - y') /\
     (all_equal ys -> v = 0)).
Proof.
  intros Hne HL. unfold explained_variance. pose proof (rvar_all_equal ts Hne) as Z. pose proof (rvar_nonneg ts) as NN. destruct (Req_EM_T (rvar ts) 0) as [E|E].
  - split; [split; [intros _; apply Z, E|reflexivity]|]. discriminate.
  - split; [split; [discriminate|intros H; apply Z in H; contradiction]|]. intros v [= <-].
    assert (Hne2 : map2 Rminus ts ys <> []) by (apply map2_ne; [exact Hne|congruence]). pose proof (rvar_nonneg (map2 Rminus ts ys)) as NN2. assert (P : 0 < / rvar ts) by (apply Rinv_0_lt_compat; lra).
    split; [|split].
    + unfold Rdiv. nra.
    + split.
      * intros H t y t' y' H1 H2. assert (V0 : rvar (map2 Rminus ts ys) = 0) by (unfold Rdiv in H; nra). apply (rvar_all_equal _ Hne2) in V0.
        apply V0; apply In_map2; assumption.
      * intros H. assert (V0 : rvar (map2 Rminus ts ys) = 0).
        { apply (rvar_all_equal _ Hne2). intros a b Ha Hb. destruct (map2_In _ _ _ _ Ha) as (t & y & H1 & ->). destruct (map2_In _ _ _ _ Hb) as (t' & y' & H2 & ->). apply H; assumption. }
        rewrite V0. unfold Rdiv. ring.
    + intros H.
      assert (EQ : exists k, map2 Rminus ts ys = map (fun x => x + k) ts).
      { destruct ys as [|y0 ys0] eqn:Ey; [destruct ts; [congruence|discriminate]|]. exists (- y0). rewrite <- Ey in *.
        assert (G : forall y, In y ys -> y = y0). { intros y Hy. apply H; [exact Hy|]. rewrite Ey. left. reflexivity. }
        clear - G HL. revert ys HL G. induction ts as [|t l IH]; intros [|y ys] HL G; cbn in *; try discriminate; [reflexivity|]. rewrite (G y) by auto. f_equal. apply IH; [congruence|auto]. }
      destruct EQ as (k & ->).
      assert (EV : rvar (map (fun x => x + k) ts) = rvar ts).
      { pose proof (len_pos ts Hne). assert (EM : rmean (map (fun x => x + k) ts) = rmean ts + k).
        { rewrite rmean_average. unfold average. rewrite total_add, total_const. unfold rmean. rewrite rsum_total. field. lra. }
        unfold rvar. rewrite map_map, EM, !rmean_average. apply average_ext. intros x _. ring. }
      rewrite EV. field. exact E.
Qed.

(** A case: predictions off by a constant explain everything, constant predictions nothing. *)
Example C81_case : explained_variance [1; 3] [0; 2] = Some 1 /\ explained_variance [1; 3] [5; 5] = Some 0 /\ explained_variance [1; 3] [3; 1] = Some (-3) /\ explained_variance [2; 2] [0; 1] = None.
Proof.
  assert (V : rvar [1; 3] = 1) by (unfold rvar, rmean; cbn; field). assert (W : rvar [2; 2] = 0) by (unfold rvar, rmean; cbn; field).
  unfold explained_variance. rewrite V, W. destruct (Req_EM_T 1 0); [lra|]. destruct (Req_EM_T 0 0); [|lra].
  repeat split; try reflexivity; f_equal; unfold rvar, rmean; cbn; field.
Qed.
Print Assumptions C81_explained_variance.
