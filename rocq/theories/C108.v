(** C108: what tensorboard shows of the evaluations, in asynchronous training too. *)
From Coq Require Import String QArith Reals Qreals.
From Verif Require Import Base M_Scores M_TB.
Close Scope Q_scope. Open Scope nat_scope.

(** ** Specification *)
(** The items that process w put, in order, in an execution. *)
Definition puts (w : nat) (l : list action) : list item := flat_map (fun a => match a with Put w' i => if w' =? w then [i] else [] | _ => [] end) l.
Definition from (w : nat) (l : list (nat * item)) : list item := map snd (filter (fun wi => fst wi =? w) l).
Definition text_dec : forall a b : text, {a = b} + {a <> b} := list_eq_dec Nat.eq_dec.
(** The curve under a tag: the steps and values recorded for it, in order. *)
Definition curve (tag : text) (l : list scalar) : list (nat * R) := flat_map (fun s => let '(n, v, t) := s in if text_dec n tag then [(t, v)] else []) l.
Definition value_of (name : text) (t : nat) (l : list (text * R)) : list (nat * R) := flat_map (fun nv => if text_dec (fst nv) name then [(t, snd nv)] else []) l.

(** ** Tags *)
Lemma curve_app tag a b : curve tag (a ++ b) = curve tag a ++ curve tag b.
Proof. apply flat_map_app. Qed.
Lemma curve_concat {X} tag (f : X -> list scalar) l : curve tag (concat (map f l)) = concat (map (fun x => curve tag (f x)) l).
Proof. induction l as [|x l IH]; [reflexivity|]. cbn [map concat]. now rewrite curve_app, IH. Qed.
Lemma curve_tagged p name t l : curve (p ++ name) (map (fun nv : text * R => (p ++ fst nv, snd nv, t)) l) = value_of name t l.
Proof.
  induction l as [|[n v] l IH]; [reflexivity|]. cbn [map curve value_of flat_map fst snd]. fold (curve (p ++ name)). unfold curve in IH. rewrite IH. f_equal.
  destruct (text_dec (p ++ n) (p ++ name)) as [E | E], (text_dec n name) as [E' | E']; try reflexivity; [apply app_inv_head in E; contradiction|subst; contradiction].
Qed.
Lemma curve_other p tag t l : (forall n, p ++ n <> tag) -> curve tag (map (fun nv : text * R => (p ++ fst nv, snd nv, t)) l) = [].
Proof. intros H. induction l as [|[n v] l IH]; [reflexivity|]. cbn [map curve flat_map fst snd]. unfold curve in IH. rewrite IH. destruct (text_dec (p ++ n) tag) as [E | _]; [now apply H in E|reflexivity]. Qed.

(** Of evaluations recorded in order, each statistic of the agent and of the environment, each of the five statistics of the returns and the two margins has a curve of its own with one point
    per evaluation that has it; there is no other curve.  *)
Theorem C108_curves (vs : list item) : let shown tag := curve tag (concat (map record_tb_stats vs)) in
  (forall name, shown (text_of "agent/" ++ name) = concat (map (fun i => value_of name (i_t i) (i_agent i)) vs)) /\
  (forall name, shown (text_of "env/" ++ name) = concat (map (fun i => value_of name (i_t i) (i_env i)) vs)) /\
  shown (text_of "eval/mean") = map (fun i => (i_t i, Q2R (st_mean (i_eval i)))) vs /\
  shown (text_of "eval/median") = map (fun i => (i_t i, Q2R (st_median (i_eval i)))) vs /\
  shown (text_of "eval/max") = map (fun i => (i_t i, Q2R (st_max (i_eval i)))) vs /\
  shown (text_of "eval/min") = map (fun i => (i_t i, Q2R (st_min (i_eval i)))) vs /\
  shown (text_of "eval/stdev") = map (fun i => (i_t i, st_stdev (i_eval i))) vs /\
  shown (text_of "extras/meanplusstdev") = map (fun i => (i_t i, Q2R (st_mean (i_eval i)) + st_stdev (i_eval i))%R) vs /\
  shown (text_of "extras/meanminusstdev") = map (fun i => (i_t i, Q2R (st_mean (i_eval i)) - st_stdev (i_eval i))%R) vs /\
  (forall tag, shown tag <> [] -> (exists name, tag = text_of "agent/" ++ name) \/ (exists name, tag = text_of "env/" ++ name) \/
     In tag (map text_of ["eval/mean"; "eval/median"; "eval/max"; "eval/min"; "eval/stdev"; "extras/meanplusstdev"; "extras/meanminusstdev"]%string)).
Proof.
  intros shown. unfold shown.
  assert (C1 : forall (f : item -> nat * R) tag, (forall i, curve tag (record_tb_stats i) = [f i]) -> curve tag (concat (map record_tb_stats vs)) = map f vs).
  { intros f tag H. rewrite curve_concat. induction vs as [|i l IH]; [reflexivity|]. cbn [map concat]. rewrite H, IH. reflexivity. }
  split; [|split; [|split; [|split; [|split; [|split; [|split; [|split; [|split]]]]]]]].
  - intros name. rewrite curve_concat. f_equal. apply map_ext. intros i. unfold record_tb_stats. rewrite !curve_app, curve_tagged, !curve_other by (intros; discriminate). cbn. now rewrite app_nil_r.
  - intros name. rewrite curve_concat. f_equal. apply map_ext. intros i. unfold record_tb_stats. rewrite !curve_app, (curve_other (text_of "agent/")), curve_tagged by (intros; discriminate). cbn. now rewrite app_nil_r.
  - apply C1. intros i. unfold record_tb_stats. rewrite !curve_app, !(curve_other (text_of "agent/")), !(curve_other (text_of "env/")) by (intros; discriminate). reflexivity.
  - apply C1. intros i. unfold record_tb_stats. rewrite !curve_app, !(curve_other (text_of "agent/")), !(curve_other (text_of "env/")) by (intros; discriminate). reflexivity.
  - apply C1. intros i. unfold record_tb_stats. rewrite !curve_app, !(curve_other (text_of "agent/")), !(curve_other (text_of "env/")) by (intros; discriminate). reflexivity.
  - apply C1. intros i. unfold record_tb_stats. rewrite !curve_app, !(curve_other (text_of "agent/")), !(curve_other (text_of "env/")) by (intros; discriminate). reflexivity.
  - apply C1. intros i. unfold record_tb_stats. rewrite !curve_app, !(curve_other (text_of "agent/")), !(curve_other (text_of "env/")) by (intros; discriminate). reflexivity.
  - apply C1. intros i. unfold record_tb_stats. rewrite !curve_app, !(curve_other (text_of "agent/")), !(curve_other (text_of "env/")) by (intros; discriminate). reflexivity.
  - apply C1. intros i. unfold record_tb_stats. rewrite !curve_app, !(curve_other (text_of "agent/")), !(curve_other (text_of "env/")) by (intros; discriminate). reflexivity.
  - intros tag H. assert (I : exists s, In s (concat (map record_tb_stats vs)) /\ fst (fst s) = tag).
    { destruct (curve tag _) as [|c r] eqn:E; [contradiction|]. assert (I : In c (curve tag (concat (map record_tb_stats vs)))) by (rewrite E; now left). unfold curve in I. apply in_flat_map in I. destruct I as ([[n v] t] & I & J). destruct (text_dec n tag) as [<- | _]; [|destruct J]. now exists (n, v, t). }
    destruct I as (s & I & <-). apply in_concat in I. destruct I as (l & L & I). apply in_map_iff in L. destruct L as (i & <- & _). unfold record_tb_stats in I. rewrite !in_app_iff in I.
    destruct I as [I | [I | I]]; [left|right; left|right; right]; [apply in_map_iff in I; destruct I as ([n v] & <- & _); now exists n|apply in_map_iff in I; destruct I as ([n v] & <- & _); now exists n|].
    cbn [map In app fst snd] in I. repeat destruct I as [I | I]; try contradiction; subst s; cbn; tauto.
Qed.

(** ** The writer thread *)
Lemma update_same {X} (l : list X) n x : n < length l -> nth_error (update l n x) n = Some x.
Proof. revert n. induction l as [|y l IH]; intros [|n] H; cbn in *; try lia; [reflexivity|]. apply IH. lia. Qed.
Lemma update_other {X} (l : list X) n m x : n <> m -> nth_error (update l n x) m = nth_error l m.
Proof. revert n m. induction l as [|y l IH]; intros [|n] [|m] H; cbn; try reflexivity; [contradiction|]. apply IH. lia. Qed.
Definition buffer (s : state) (w : nat) : list item := match nth_error (workers s) w with Some (b, _) => b | None => [] end.
Definition done (s : state) : Prop := forall w b e, nth_error (workers s) w = Some (b, e) -> b = [] /\ e = true.
(** Nothing is lost or duplicated on the way; an ended process has an empty buffer; the thread ends, and the main process waits for it, only when all processes have ended. *)
Definition inv (l : list action) (s : state) : Prop :=
  (forall w, from w (written s) ++ from w (pipe s) ++ buffer s w = puts w l) /\
  (forall w b, nth_error (workers s) w = Some (b, true) -> b = []) /\ (thread s = AtGet -> pipe s <> []) /\
  (stop s = true -> done s) /\ (main s <> Waiting -> stop s = true) /\ (thread s = AtEmpty -> stop s = true) /\ (thread s = Ended -> pipe s = [] /\ stop s = true) /\ (main s = Returned -> thread s = Ended).
Definition only_main (l : list action) : Prop := ~ In SetStop l.
Lemma from_app w a b : from w (a ++ b) = from w a ++ from w b.
Proof. unfold from. now rewrite filter_app, map_app. Qed.
Lemma puts_app w a b : puts w (a ++ b) = puts w a ++ puts w b.
Proof. apply flat_map_app. Qed.
Lemma run_app s l l' : run s (l ++ l') = match run s l with Some s' => run s' l' | None => None end.
Proof. revert s. induction l as [|a l IH]; intros s; cbn; [reflexivity|]. destruct (step s a); [apply IH|reflexivity]. Qed.
Lemma done_none s w b : done s -> nth_error (workers s) w = Some (b, false) -> False.
Proof. intros D E. apply D in E. destruct E as [_ E]. discriminate. Qed.
Lemma inv_step l s a s' : a <> SetStop -> inv l s -> step s a = Some s' -> inv (l ++ [a]) s'.
Proof.
  intros NS (I1 & I2 & I3 & I4 & I5 & I6 & I7 & I8) E. destruct a as [w i | w | w | | |]; cbn [step] in E.
  - destruct (nth_error (workers s) w) as [[b [|]]|] eqn:W; try discriminate. injection E as <-. assert (NT : stop s = false). { destruct (stop s) eqn:T; [|reflexivity]. exfalso. exact (done_none s w b (I4 eq_refl) W). }
    assert (L : w < length (workers s)) by (apply nth_error_Some; congruence). unfold inv. cbn [workers pipe thread written stop main].
    split; [|split; [|split; [exact I3|]]].
    + intros w'. rewrite puts_app, <- I1. cbn [puts flat_map]. rewrite app_nil_r. unfold buffer. cbn [workers]. destruct (Nat.eqb_spec w w') as [<- | N].
      * rewrite update_same by exact L. rewrite W, <- !app_assoc. reflexivity.
      * rewrite update_other by exact N. now rewrite app_nil_r.
    + intros w' b' H. destruct (Nat.eq_dec w w') as [<- | N]; [rewrite update_same in H by exact L; discriminate|]. rewrite update_other in H by exact N. eauto.
    + rewrite NT in *. split; [discriminate|]. split; [exact I5|]. split; [exact I6|]. split; [intros H; destruct (I7 H); discriminate|exact I8].
  - destruct (nth_error (workers s) w) as [[[|i b] e]|] eqn:W; try discriminate. injection E as <-. assert (e = false) as ->. { destruct e; [|reflexivity]. now apply I2 in W. }
    assert (NT : stop s = false). { destruct (stop s) eqn:T; [|reflexivity]. exfalso. exact (done_none s w _ (I4 eq_refl) W). }
    assert (L : w < length (workers s)) by (apply nth_error_Some; congruence). unfold inv. cbn [workers pipe thread written stop main].
    split; [|split; [|split; [intros _ H; now destruct (pipe s)|]]].
    + intros w'. rewrite puts_app. cbn [puts flat_map]. rewrite app_nil_r, <- I1, from_app. unfold buffer. cbn [workers]. unfold from at 3. cbn [filter fst]. destruct (Nat.eqb_spec w w') as [<- | N].
      * rewrite update_same by exact L. rewrite W, <- !app_assoc. reflexivity.
      * rewrite update_other by exact N. cbn. now rewrite app_nil_r.
    + intros w' b' H. destruct (Nat.eq_dec w w') as [<- | N]; [rewrite update_same in H by exact L; discriminate|]. rewrite update_other in H by exact N. eauto.
    + rewrite NT in *. split; [discriminate|]. split; [exact I5|]. split; [exact I6|]. split; [intros H; destruct (I7 H); discriminate|exact I8].
  - destruct (nth_error (workers s) w) as [[[|i b] [|]]|] eqn:W; try discriminate. injection E as <-. assert (NT : stop s = false). { destruct (stop s) eqn:T; [|reflexivity]. exfalso. exact (done_none s w _ (I4 eq_refl) W). }
    assert (L : w < length (workers s)) by (apply nth_error_Some; congruence). unfold inv. cbn [workers pipe thread written stop main].
    split; [|split; [|split; [exact I3|]]].
    + intros w'. rewrite puts_app. cbn [puts flat_map]. rewrite app_nil_r, <- I1. unfold buffer. cbn [workers]. destruct (Nat.eq_dec w w') as [<- | N].
      * rewrite update_same by exact L. now rewrite W.
      * now rewrite update_other by exact N.
    + intros w' b' H. destruct (Nat.eq_dec w w') as [<- | N]; [rewrite update_same in H by exact L; congruence|]. rewrite update_other in H by exact N. eauto.
    + rewrite NT in *. split; [discriminate|]. split; [exact I5|]. split; [exact I6|]. split; [intros H; destruct (I7 H); discriminate|exact I8].
  - contradiction.
  - assert (P : forall w, puts w (l ++ [Thread]) = puts w l) by (intros w; rewrite puts_app; cbn; apply app_nil_r). unfold inv. setoid_rewrite P.
    destruct (thread s) eqn:T; [| | | |discriminate].
    + injection E as <-. cbn [workers pipe thread written stop main]. split; [exact I1|]. split; [exact I2|]. split; [destruct (stop s); discriminate|]. split; [exact I4|]. split; [exact I5|]. split; [destruct (stop s); [reflexivity|discriminate]|]. split; [destruct (stop s); discriminate|]. intros H. apply I8 in H. discriminate.
    + injection E as <-. cbn [workers pipe thread written stop main]. split; [exact I1|]. split; [exact I2|]. split; [destruct (pipe s); discriminate|]. split; [exact I4|]. split; [exact I5|]. split; [destruct (pipe s); discriminate|]. split; [destruct (pipe s); [auto|discriminate]|]. intros H. apply I8 in H. discriminate.
    + injection E as <-. cbn [workers pipe thread written stop main]. split; [exact I1|]. split; [exact I2|]. split; [destruct (pipe s); discriminate|]. split; [exact I4|]. split; [exact I5|]. split; [destruct (pipe s); discriminate|]. split; [destruct (pipe s); discriminate|]. intros H. apply I8 in H. discriminate.
    + destruct (pipe s) as [|[w i] p] eqn:Q; [discriminate|]. injection E as <-. cbn [workers pipe thread written stop main]. split; [|split; [exact I2|]; split; [discriminate|]; split; [exact I4|]; split; [exact I5|]; split; [discriminate|]; split; [discriminate|]; intros H; apply I8 in H; discriminate].
      intros w'. rewrite <- I1, from_app. unfold from at 2 5. cbn [filter fst]. unfold buffer. cbn [workers]. destruct (w =? w'); cbn [map]; [now rewrite <- app_assoc|now rewrite app_nil_r].
  - assert (P : forall w, puts w (l ++ [Main]) = puts w l) by (intros w; rewrite puts_app; cbn; apply app_nil_r). unfold inv. setoid_rewrite P.
    destruct (main s) eqn:M; [| |discriminate].
    + destruct (forallb snd (workers s)) eqn:F; [|discriminate]. injection E as <-. cbn [workers pipe thread written stop main]. split; [exact I1|]. split; [exact I2|]. split; [exact I3|]. split; [|split; [reflexivity|]; split; [reflexivity|]; split; [intros H; now destruct (I7 H)|discriminate]].
      intros _ w b e H. assert (e = true) as ->. { rewrite forallb_forall in F. now apply (F (b, e)), nth_error_In with w. } split; [|reflexivity]. eauto.
    + destruct (thread s) eqn:T; try discriminate. injection E as <-. cbn [workers pipe thread written stop main]. split; [exact I1|]. split; [exact I2|]. split; [discriminate|]. split; [exact I4|]. split; [intros _; now apply I5|]. split; [discriminate|]. split; [exact I7|reflexivity].
Qed.
Lemma inv_start n : inv [] (start n).
Proof.
  unfold inv, start. cbn [workers pipe thread written stop main]. assert (R : forall w b e, nth_error (repeat (@nil item, false) n) w = Some (b, e) -> b = [] /\ e = false).
  { intros w b e H. apply nth_error_In, repeat_spec in H. injection H as -> ->. auto. }
  split; [intros w; unfold buffer; cbn [workers]; destruct (nth_error _ w) as [[b e]|] eqn:E; [apply R in E; destruct E as [-> _]; reflexivity|reflexivity]|].
  split; [intros w b H; apply R in H; now destruct H|]. repeat split; try discriminate. contradiction.
Qed.
Lemma inv_run n l s : only_main l -> run (start n) l = Some s -> inv l s.
Proof.
  revert s. induction l as [|a l IH] using rev_ind; intros s O E; [injection E as <-; apply inv_start|]. rewrite run_app in E. destruct (run (start n) l) as [s1|] eqn:R; [|discriminate]. cbn in E. destruct (step s1 a) as [s2|] eqn:S; [|discriminate]. injection E as <-.
  apply (inv_step l s1 a); [|apply IH|exact S]; [intros ->; apply O, in_or_app; right; now left| |reflexivity]. intros H. apply O, in_or_app. now left.
Qed.

(** If nobody sets the stop event before the processes have ended, then when training returns every evaluation of every process has been recorded, exactly once and in the order of its process. *)
Theorem C108_all_recorded_partial n l s : only_main l -> run (start n) l = Some s -> main s = Returned ->
  exists order, (forall w, from w order = puts w l) /\ scalars s = concat (map (fun wi => record_tb_stats (snd wi)) order).
Proof.
  intros O R M. exists (written s). split; [|reflexivity]. intros w. destruct (inv_run n l s O R) as (I1 & I2 & _ & I4 & I5 & _ & I7 & I8). destruct (I7 (I8 M)) as [P S]. rewrite <- I1, P. unfold buffer. destruct (nth_error (workers s) w) as [[b e]|] eqn:E; [|cbn; now rewrite app_nil_r].
  apply (I4 S) in E. destruct E as [-> _]. cbn. now rewrite app_nil_r.
Qed.
(** Whoever sets it: training returns once the processes have ended, whatever is in the queue. *)
Lemma drain p : forall s, stop s = true -> pipe s = p -> thread s = AtEvent -> exists k s', run s (repeat Thread k) = Some s' /\ thread s' = Ended /\ main s' = main s /\ workers s' = workers s.
Proof.
  induction p as [|i p IH]; intros s S P T.
  - exists 2. eexists. split; [cbn [repeat run step]; rewrite T, S; cbn [run step thread pipe]; rewrite P; reflexivity|]. cbn. auto.
  - set (s4 := mkState (workers s) p AtEvent (written s ++ [i]) true (main s)). destruct (IH s4 eq_refl eq_refl eq_refl) as (k & s' & R & H1 & H2 & H3). exists (4 + k), s'.
    split; [|auto]. cbn [Nat.add repeat run step]. rewrite T, S. cbn [run step thread pipe]. rewrite P. cbn [run step thread pipe workers written stop main]. exact R.
Qed.
Theorem C108_returns n l s : run (start n) l = Some s -> main s = Waiting -> forallb snd (workers s) = true -> exists k s', run s ([Main] ++ repeat Thread k ++ [Main]) = Some s' /\ main s' = Returned.
Proof.
  intros R M F. assert (G : thread s = AtGet -> pipe s <> []).
  { clear M F. revert s R. induction l as [|a l IH] using rev_ind; intros s R; [injection R as <-; discriminate|]. rewrite run_app in R. destruct (run (start n) l) as [s1|]; [|discriminate]. specialize (IH s1 eq_refl). cbn in R. destruct (step s1 a) as [s2|] eqn:E; [|discriminate]. injection R as <-.
    destruct a; cbn [step] in E.
    - destruct (nth_error _ _) as [[? [|]]|]; try discriminate. now injection E as <-.
    - destruct (nth_error _ _) as [[[|? ?] ?]|]; try discriminate. injection E as <-. intros _ H. cbn in H. now destruct (pipe s1).
    - destruct (nth_error _ _) as [[[|? ?] [|]]|]; try discriminate. now injection E as <-.
    - now injection E as <-.
    - destruct (thread s1) eqn:T; [| | | |discriminate].
      + injection E as <-. cbn. destruct (stop s1); discriminate.
      + injection E as <-. cbn. destruct (pipe s1); discriminate.
      + injection E as <-. cbn. destruct (pipe s1); discriminate.
      + destruct (pipe s1); [discriminate|]. injection E as <-. discriminate.
    - destruct (main s1); [| |discriminate]; [destruct (forallb _ _); [|discriminate]; now injection E as <-|]. destruct (thread s1) eqn:T; try discriminate. injection E as <-. discriminate. }
  set (s1 := mkState (workers s) (pipe s) (thread s) (written s) true Joining).
  assert (S : forall s, stop s = true -> (thread s = AtGet -> pipe s <> []) -> exists k s', run s (repeat Thread k) = Some s' /\ thread s' = Ended /\ main s' = main s).
  { clear. assert (A : forall s, stop s = true -> (thread s = AtGet -> pipe s <> []) -> thread s <> Ended -> thread s <> AtEvent -> exists k s', run s (repeat Thread k) = Some s' /\ (thread s' = Ended \/ thread s' = AtEvent) /\ stop s' = true /\ main s' = main s).
    { intros s S G N1 N2. destruct (thread s) eqn:T; try contradiction.
      - destruct (pipe s) as [|i p] eqn:P; [exists 1|exists 3]; eexists; (split; [cbn [repeat run step]; rewrite T; cbn [run step thread pipe]; rewrite P; cbn [run step thread pipe]; reflexivity|]); cbn; auto.
      - destruct (pipe s) as [|i p] eqn:P; [exists 1|exists 2]; eexists; (split; [cbn [repeat run step]; rewrite T; cbn [run step thread pipe]; rewrite P; cbn [run step thread pipe]; reflexivity|]); cbn; auto.
      - destruct (pipe s) as [|i p] eqn:P; [exfalso; now apply G|]. exists 1. eexists. (split; [cbn [repeat run step]; rewrite T, P; reflexivity|]); cbn; auto. }
    intros s S G. destruct (thread s) eqn:T.
    - destruct (drain (pipe s) s S eq_refl T) as (k & s' & R & H & M & _). eauto.
    - destruct (A s S ltac:(congruence) ltac:(congruence) ltac:(congruence)) as (k & s' & R & [H | H] & S' & M); [eauto|]. destruct (drain (pipe s') s' S' eq_refl H) as (k' & s'' & R' & H' & M' & _). exists (k + k'), s''. rewrite repeat_app, run_app, R. split; [exact R'|]. split; [exact H'|congruence].
    - destruct (A s S ltac:(congruence) ltac:(congruence) ltac:(congruence)) as (k & s' & R & [H | H] & S' & M); [eauto|]. destruct (drain (pipe s') s' S' eq_refl H) as (k' & s'' & R' & H' & M' & _). exists (k + k'), s''. rewrite repeat_app, run_app, R. split; [exact R'|]. split; [exact H'|congruence].
    - destruct (A s S ltac:(auto) ltac:(congruence) ltac:(congruence)) as (k & s' & R & [H | H] & S' & M); [eauto|]. destruct (drain (pipe s') s' S' eq_refl H) as (k' & s'' & R' & H' & M' & _). exists (k + k'), s''. rewrite repeat_app, run_app, R. split; [exact R'|]. split; [exact H'|congruence].
    - exists 0, s. auto. }
  destruct (S s1 eq_refl G) as (k & s2 & R2 & T2 & M2). exists k. eexists. split; [rewrite run_app; cbn [run step]; rewrite M, F; fold s1; rewrite run_app, R2; cbn [run step]; rewrite M2; cbn [main s1]; rewrite T2; reflexivity|reflexivity].
Qed.
Definition ex_item (t : nat) : item := mkItem [(text_of "loss", 0%R)] (mkStats 1 2%Q 2%Q 0%R 2%Q 2%Q 2%Q 2%Q 0%R 2%Q 2%Q) [] t.
(** If an agent is successful, or the caller stops training, the writer may end first: evaluations made by the other processes are then not recorded. *)
Theorem C108_all_recorded_refuted : ~ (forall n l s, run (start n) l = Some s -> main s = Returned -> forall w, from w (written s) = puts w l).
Proof.
  intros H. specialize (H 2 [SetStop; End 0; Thread; Thread; Put 1 (ex_item 5); Feed 1; End 1; Main; Main] (mkState [([], true); ([], true)] [(1, ex_item 5)] Ended [] true Returned) eq_refl eq_refl 1).
  apply (f_equal (@length item)) in H. discriminate H.
Qed.

(** Two processes, three evaluations: all recorded. *)
Example C108_ex : exists s, run (start 2) [Put 0 (ex_item 4); Put 1 (ex_item 3); Feed 1; Thread; Thread; Thread; Put 1 (ex_item 6); Feed 0; Feed 1; End 1; Thread; End 0; Thread; Main; Thread; Thread; Thread; Thread; Thread; Thread; Thread; Main] = Some s /\
  main s = Returned /\ map (fun wi => (fst wi, i_t (snd wi))) (written s) = [(1, 3); (0, 4); (1, 6)] /\ length (scalars s) = 24.
Proof. exists (mkState [([], true); ([], true)] [] Ended [(1, ex_item 3); (0, ex_item 4); (1, ex_item 6)] true Returned). split; [reflexivity|]. split; [reflexivity|]. split; reflexivity. Qed.

Print Assumptions C108_curves.
Print Assumptions C108_all_recorded_partial.
Print Assumptions C108_returns.
Print Assumptions C108_all_recorded_refuted.
