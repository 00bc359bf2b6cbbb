(** Proofs about action values and target values. *)
From Coq Require Import QArith Qminmax Lqa.
From Verif Require Import Base P_Base M_ReplayBuffer M_Batch S_Batch P_Batch M_ActionValue M_Targets S_Targets.
Open Scope nat_scope.

(** * argmax *)
Lemma Qle_bool_false x y : Qle_bool x y = false -> (y < x)%Q.
Proof. intros H. apply Qnot_le_lt. intros C. apply Qle_bool_iff in C. congruence. Qed.

Lemma argmax_from_ok l : forall i best m pre, i = length pre -> nth_error pre best = Some m -> (forall x, In x pre -> (x <= m)%Q) ->
  is_argmax (pre ++ l) (argmax_from i best m l).
Proof.
  induction l as [|x l IH]; intros i best m pre Hi Hb Hm.
  - rewrite app_nil_r. exists m. split; assumption.
  - cbn [argmax_from]. replace (pre ++ x :: l) with ((pre ++ [x]) ++ l) by now rewrite <- app_assoc. destruct (Qle_bool x m) eqn:E.
    + apply IH; [rewrite app_length; cbn; lia|rewrite nth_error_app1; [exact Hb|apply nth_error_Some; congruence]|].
      apply Qle_bool_iff in E. intros y Hy. apply in_app_or in Hy. destruct Hy as [Hy|[<-|[]]]; auto.
    + apply Qle_bool_false in E. apply IH; [rewrite app_length; cbn; lia| |].
      * rewrite nth_error_app2 by lia. replace (i - length pre) with 0 by lia. reflexivity.
      * intros y Hy. apply in_app_or in Hy. destruct Hy as [Hy|[<-|[]]]; [|lra]. specialize (Hm y Hy). lra.
Qed.
Lemma argmax_ok l : l <> [] -> exists a, argmax l = Ok a /\ is_argmax l a.
Proof.
  destruct l as [|x l]; [congruence|]. intros _. eexists. split; [reflexivity|]. apply (argmax_from_ok l 1 0 x [x]); [reflexivity|reflexivity|].
  intros y [<-|[]]. lra.
Qed.
Lemma max_ok l : l <> [] -> exists m, max l = Ok m /\ is_max l m.
Proof.
  intros H. destruct (argmax_ok l H) as (a & E & m & Hn & Hm). exists m. unfold max, greedy_action. rewrite E. cbn [rbind]. unfold gather. rewrite Hn.
  split; [reflexivity|]. split; [eapply nth_error_In; exact Hn|exact Hm].
Qed.
Lemma is_argmax_lt l a : is_argmax l a -> a < length l.
Proof. intros (m & H & _). apply nth_error_Some. congruence. Qed.

(** * Rows of a batch *)
Record row {S A : Type} := { r_s : S; r_a : A; r_r : Q; r_ns : S; r_tm : Q; r_dc : Q }.
Arguments row : clear implicits.

Lemma zip_rows {W S A} (P : W -> S -> A -> Q -> S -> Q -> Q -> Prop) : forall (ws : list W) ls la lr lns ltm ldc,
  length ls = length ws -> length la = length ws -> length lr = length ws -> length lns = length ws -> length ltm = length ws -> length ldc = length ws ->
  (forall i w, nth_error ws i = Some w -> exists s a r ns tm dc, nth_error ls i = Some s /\ nth_error la i = Some a /\ nth_error lr i = Some r /\
     nth_error lns i = Some ns /\ nth_error ltm i = Some tm /\ nth_error ldc i = Some dc /\ P w s a r ns tm dc) ->
  exists rows : list (row S A), ls = map r_s rows /\ la = map r_a rows /\ lr = map r_r rows /\ lns = map r_ns rows /\ ltm = map r_tm rows /\ ldc = map r_dc rows /\
    Forall2 (fun w x => P w (r_s x) (r_a x) (r_r x) (r_ns x) (r_tm x) (r_dc x)) ws rows.
Proof.
  induction ws as [|w ws IH]; intros [|s ls] [|a la] [|r lr] [|ns lns] [|tm ltm] [|dc ldc]; cbn; intros L1 L2 L3 L4 L5 L6 H; try discriminate.
  - exists []. repeat split; constructor.
  - injection L1 as L1; injection L2 as L2; injection L3 as L3; injection L4 as L4; injection L5 as L5; injection L6 as L6.
    destruct (IH ls la lr lns ltm ldc L1 L2 L3 L4 L5 L6) as (rows & E1 & E2 & E3 & E4 & E5 & E6 & F). { intros i w' Hi. apply (H (Datatypes.S i) w' Hi). }
    destruct (H 0 w eq_refl) as (s' & a' & r' & ns' & tm' & dc' & X1 & X2 & X3 & X4 & X5 & X6 & HP). cbn in *.
    injection X1 as ->; injection X2 as ->; injection X3 as ->; injection X4 as ->; injection X5 as ->; injection X6 as ->.
    exists ({| r_s := s'; r_a := a'; r_r := r'; r_ns := ns'; r_tm := tm'; r_dc := dc' |} :: rows). cbn. repeat split; try congruence. constructor; [exact HP|exact F].
Qed.

Lemma batch_rows {S A} gamma (exps : list (list (trans (exper S A)))) : Forall (fun w => w <> []) exps ->
  exists b rows, batch_experiences gamma exps = Ok b /\ b_state b = map r_s rows /\ b_action b = map r_a rows /\ b_reward b = map r_r rows /\
    b_next_state b = map r_ns rows /\ b_terminal b = map r_tm rows /\ b_discount b = map r_dc rows /\
    Forall2 (fun w x => entry_ok gamma w (r_s x) (r_a x) (r_r x) (r_ns x) (r_tm x) (r_dc x)) exps rows.
Proof.
  intros H. destruct (batch_ok gamma exps H) as (b & E & L1 & L2 & L3 & L4 & L5 & L6 & HE & _).
  destruct (zip_rows (entry_ok gamma) exps _ _ _ _ _ _ L1 L2 L3 L4 L5 L6 HE) as (rows & R). exists b, rows. split; [exact E|exact R].
Qed.

Lemma entry_target {S A} gamma (w : list (trans (exper S A))) s a r ns tm dc v : entry_ok gamma w s a r ns tm dc ->
  (r + dc * (1 - tm) * v == nstep gamma w v)%Q /\ from_to w s a ns.
Proof.
  intros (first & last & init & rest & E1 & E2 & Es & Ea & En & Er & T1 & T2 & Ed). split.
  - unfold nstep. rewrite Er, Ed. destruct (existsb terminal w) eqn:X.
    + apply existsb_exists in X. rewrite (T1 X). ring.
    + rewrite T2; [ring|]. intros t Ht. destruct (terminal t) eqn:Y; [|reflexivity]. assert (existsb terminal w = true) by (apply existsb_exists; eauto). congruence.
  - exists first, last, init, rest. repeat split; assumption.
Qed.

(** * rmapM and zipped maps *)
Lemma rmapM_rows {X Y Z} (f : Y -> result Z) (g : X -> Y) (P : X -> Z -> Prop) (l : list X) : (forall x, In x l -> exists z, f (g x) = Ok z /\ P x z) ->
  exists zs, rmapM f (map g l) = Ok zs /\ Forall2 P l zs.
Proof.
  induction l as [|x l IH]; intros H; [exists []; split; constructor|]. destruct (H x (or_introl eq_refl)) as (z & E & HP). destruct IH as (zs & E' & F); [intros y Hy; apply H; right; exact Hy|].
  exists (z :: zs). cbn [map rmapM]. rewrite E. cbn [rbind]. rewrite E'. split; [reflexivity|]. constructor; assumption.
Qed.
Lemma combine_map {X Y Z} (f : X -> Y) (g : X -> Z) l : combine (map f l) (map g l) = map (fun x => (f x, g x)) l.
Proof. induction l; cbn; congruence. Qed.
Lemma bellman_rows {S A} gamma (exps : list (list (trans (exper S A)))) rows (qs : list Q) (P : row S A -> Q -> Prop) :
  Forall2 (fun w x => entry_ok gamma w (r_s x) (r_a x) (r_r x) (r_ns x) (r_tm x) (r_dc x)) exps rows -> Forall2 P rows qs ->
  Forall2 (fun w t => exists x v, from_to w (r_s x) (r_a x) (r_ns x) /\ P x v /\ (t == nstep gamma w v)%Q) exps (bellman (map r_r rows) (map r_dc rows) (map r_tm rows) qs).
Proof.
  intros F. revert qs. induction F as [|w x exps rows He F IH]; intros qs HQ; inversion HQ; subst; [constructor|]. cbn [map bellman]. constructor; [|apply IH; assumption].
  destruct (entry_target gamma w _ _ _ _ _ _ y He) as [E1 E2]. exists x, y. repeat split; [exact E2|assumption|exact E1].
Qed.
Lemma Forall2_imp {X Y} (P Q : X -> Y -> Prop) l l' : (forall x y, P x y -> Q x y) -> Forall2 P l l' -> Forall2 Q l l'.
Proof. intros H F. induction F; constructor; auto. Qed.
Lemma Forall2_map_r {X Y Z} (P : X -> Z -> Prop) (f : Y -> Z) l l' : Forall2 (fun x y => P x (f y)) l l' -> Forall2 P l (map f l').
Proof. intros F. induction F; constructor; auto. Qed.

Section Agents.
  Context {S A : Type}.
  Variables (gamma : Q) (exps : list (list (trans (exper S A)))).
  Hypothesis Hne : Forall (fun w => w <> []) exps.

  Lemma dqn_ok (target_model : S -> list Q) : (forall s, target_model s <> []) -> exists b, batch_experiences gamma exps = Ok b /\ exists ts, dqn_target target_model b = Ok ts /\
    Forall2 (fun w t => exists s a s' v, from_to w s a s' /\ is_max (target_model s') v /\ (t == nstep gamma w v)%Q) exps ts.
  Proof.
    intros Hq. destruct (batch_rows gamma exps Hne) as (b & rows & E & E1 & E2 & E3 & E4 & E5 & E6 & F). exists b. split; [exact E|].
    unfold dqn_target. rewrite E3, E4, E5, E6, map_map.
    destruct (rmapM_rows max (fun x => target_model (r_ns x)) (fun x v => is_max (target_model (r_ns x)) v) rows) as (qs & Eq & FQ). { intros x _. apply max_ok. apply Hq. }
    rewrite Eq. cbn [rbind]. eexists. split; [reflexivity|]. eapply Forall2_imp; [|apply (bellman_rows gamma exps rows qs _ F FQ)].
    intros w t (x & v & H1 & H2 & H3). exists (r_s x), (r_a x), (r_ns x), v. auto.
  Qed.

  Lemma combine_F2 {X Y Z} (P : X -> Y -> Prop) (f : X -> Z) l l' : Forall2 P l l' -> exists zs : list (X * Y), map fst zs = l /\ combine (map f l) l' = map (fun p => (f (fst p), snd p)) zs /\ Forall (fun p => P (fst p) (snd p)) zs.
  Proof.
    intros F. induction F as [|x y l l' HP F (zs & E1 & E2 & E3)]; [exists []; repeat split; constructor|]. exists ((x, y) :: zs). cbn. rewrite E1, E2. repeat split. constructor; assumption.
  Qed.

  Lemma double_dqn_ok (model target_model : S -> list Q) : (forall s, model s <> [] /\ length (target_model s) = length (model s)) -> exists b, batch_experiences gamma exps = Ok b /\ exists ts, double_dqn_target model target_model b = Ok ts /\
    Forall2 (fun w t => exists s a s' i v, from_to w s a s' /\ is_argmax (model s') i /\ nth_error (target_model s') i = Some v /\ (t == nstep gamma w v)%Q) exps ts.
  Proof.
    intros Hq. destruct (batch_rows gamma exps Hne) as (b & rows & E & E1 & E2 & E3 & E4 & E5 & E6 & F). exists b. split; [exact E|].
    unfold double_dqn_target. rewrite E3, E4, E5, E6, !map_map.
    destruct (rmapM_rows greedy_action (fun x => model (r_ns x)) (fun x i => is_argmax (model (r_ns x)) i) rows) as (gs & Eg & FG). { intros x _. apply argmax_ok. apply Hq. }
    rewrite Eg. cbn [rbind]. destruct (combine_F2 _ (fun x => target_model (r_ns x)) rows gs FG) as (zs & Z1 & -> & Z3).
    destruct (rmapM_rows (fun p => evaluate_action (fst p) (snd p)) (fun p : row S A * nat => (target_model (r_ns (fst p)), snd p)) (fun p v => is_argmax (model (r_ns (fst p))) (snd p) /\ nth_error (target_model (r_ns (fst p))) (snd p) = Some v) zs) as (qs & Eq & FQ).
    { intros [x i] Hin. rewrite Forall_forall in Z3. specialize (Z3 _ Hin). cbn [fst snd] in *. unfold evaluate_action, gather.
      destruct (nth_error (target_model (r_ns x)) i) as [v|] eqn:N; [exists v; auto|]. apply nth_error_None in N. apply is_argmax_lt in Z3. destruct (Hq (r_ns x)) as [_ L]. lia. }
    rewrite Eq. cbn [rbind]. eexists. split; [reflexivity|].
    eapply Forall2_imp; [|apply (bellman_rows gamma exps rows qs (fun x v => exists i, is_argmax (model (r_ns x)) i /\ nth_error (target_model (r_ns x)) i = Some v) F)].
    - intros w t (x & v & H1 & (i & H2 & H3) & H4). exists (r_s x), (r_a x), (r_ns x), i, v. auto.
    - rewrite <- Z1. clear - FQ. induction FQ as [|[x i] v zs qs HP FQ IH]; cbn; constructor; eauto.
  Qed.

  Lemma combine_rows {X Y} (f : row S A -> X) (rows : list (row S A)) (ys : list Y) : length ys = length rows -> exists zs : list (row S A * Y), map fst zs = rows /\ map snd zs = ys /\ combine (map f rows) ys = map (fun p => (f (fst p), snd p)) zs.
  Proof.
    revert ys. induction rows as [|r rows IH]; intros [|y ys]; cbn; intros L; try discriminate; [exists []; repeat split|]. injection L as L. destruct (IH ys L) as (zs & E1 & E2 & E3).
    exists ((r, y) :: zs). cbn. now rewrite E1, E2, E3.
  Qed.

  Lemma map_rows_ok {Y} (f : row S A -> Y -> Q) (ys : list Y) rows (zs : list (row S A * Y)) : map fst zs = rows -> map snd zs = ys ->
    Forall2 (fun w x => entry_ok gamma w (r_s x) (r_a x) (r_r x) (r_ns x) (r_tm x) (r_dc x)) exps rows ->
    Forall2 (fun wy t => exists x, from_to (fst wy) (r_s x) (r_a x) (r_ns x) /\ (t == nstep gamma (fst wy) (f x (snd wy)))%Q) (combine exps ys)
      (bellman (map r_r rows) (map r_dc rows) (map r_tm rows) (map (fun p => f (fst p) (snd p)) zs)).
  Proof.
    clear Hne. intros <- <- F. revert F. generalize exps. induction zs as [|[x y] zs IH]; intros ws F; inversion F as [|w x' ws' rows' He F']; subst; [constructor|]. cbn [map bellman combine fst snd]. constructor; [|apply IH; assumption].
    exists x. cbn [fst snd]. destruct (entry_target gamma w _ _ _ _ _ _ (f x y) He) as [E1 E2]. split; assumption.
  Qed.

  Lemma td3_ok (q1 q2 : S -> A -> Q) (next_actions : list A) : length next_actions = length exps -> exists b, batch_experiences gamma exps = Ok b /\
    Forall2 (fun wa t => exists s a s', from_to (fst wa) s a s' /\ (t == nstep gamma (fst wa) (Qmin (q1 s' (snd wa)) (q2 s' (snd wa))))%Q) (combine exps next_actions) (td3_target q1 q2 next_actions b).
  Proof.
    intros L. destruct (batch_rows gamma exps Hne) as (b & rows & E & E1 & E2 & E3 & E4 & E5 & E6 & F). exists b. split; [exact E|].
    unfold td3_target. rewrite E3, E4, E5, E6. pose proof (Forall2_len _ _ _ F) as LR. destruct (combine_rows r_ns rows next_actions) as (zs & Z1 & Z2 & Z3); [congruence|].
    rewrite Z3, !map_map, combine_map, map_map. cbn [fst snd].
    eapply Forall2_imp; [|apply (map_rows_ok (fun x a => Qmin (q1 (r_ns x) a) (q2 (r_ns x) a)) next_actions rows zs Z1 Z2 F)].
    intros w t (x & H1 & H2). exists (r_s x), (r_a x), (r_ns x). auto.
  Qed.

  Lemma sac_ok (q1 q2 : S -> A -> Q) (temperature : Q) (samples : list (A * Q)) : length samples = length exps -> exists b, batch_experiences gamma exps = Ok b /\
    Forall2 (fun wa t => exists s a s', from_to (fst wa) s a s' /\ (t == nstep gamma (fst wa) (Qmin (q1 s' (fst (snd wa))) (q2 s' (fst (snd wa))) - temperature * snd (snd wa)))%Q) (combine exps samples) (sac_target q1 q2 temperature samples b).
  Proof.
    intros L. destruct (batch_rows gamma exps Hne) as (b & rows & E & E1 & E2 & E3 & E4 & E5 & E6 & F). exists b. split; [exact E|].
    unfold sac_target. rewrite E3, E4, E5, E6. pose proof (Forall2_len _ _ _ F) as LR. destruct (combine_rows r_ns rows samples) as (zs & Z1 & Z2 & Z3); [congruence|].
    rewrite Z3. rewrite !map_map, combine_map, map_map. cbn [fst snd]. rewrite <- Z2 at 2. rewrite map_map, combine_map, map_map. cbn [fst snd].
    eapply Forall2_imp; [|apply (map_rows_ok (fun x s => Qmin (q1 (r_ns x) (fst s)) (q2 (r_ns x) (fst s)) - temperature * snd s)%Q samples rows zs Z1 Z2 F)].
    intros w t (x & H1 & H2). exists (r_s x), (r_a x), (r_ns x). auto.
  Qed.
  (** ** IQN *)
  Lemma total_sum l : total l = sum l.
  Proof. induction l as [|x l IH]; cbn; congruence. Qed.
  Lemma column_F2 nA quantiles a : Forall (fun row => length row = nA) quantiles -> a < nA -> Forall2 (fun row v => nth_error row a = Some v) quantiles (column quantiles a).
  Proof. intros F Ha. induction F as [|row l Hr F IH]; cbn [column map]; constructor; [apply nth_error_nth'; lia|exact IH]. Qed.
  Lemma F2_det quantiles a vals vals' : Forall2 (fun row (v : Q) => nth_error row a = Some v) quantiles vals -> Forall2 (fun row v => nth_error row a = Some v) quantiles vals' -> vals = vals'.
  Proof. intros F. revert vals'. induction F as [|row v l vs H F IH]; intros vals' F'; inversion F'; subst; [reflexivity|]. f_equal; [congruence|auto]. Qed.
  Lemma average_ok nA quantiles a : Forall (fun row => length row = nA) quantiles -> a < nA -> average_of quantiles a (mean (column quantiles a)).
  Proof. intros F Ha. exists (column quantiles a). split; [exact (column_F2 nA _ _ F Ha)|]. reflexivity. Qed.
  Lemma n_actions_ok nA quantiles : quantiles <> [] -> Forall (fun row => length row = nA) quantiles -> n_actions quantiles = nA.
  Proof. intros H F. destruct F; [congruence|assumption]. Qed.
  Lemma quantile_greedy nA quantiles : 0 < nA -> quantiles <> [] -> Forall (fun row => length row = nA) quantiles ->
    exists i, greedy_action (quantile_q_values quantiles) = Ok i /\ i < nA /\ best_average quantiles i.
  Proof.
    intros Hn Hq F. unfold greedy_action, quantile_q_values. rewrite (n_actions_ok nA _ Hq F).
    destruct (argmax_ok (map (fun a => mean (column quantiles a)) (seq 0 nA))) as (i & E & m & Hm & Hmax). { destruct nA; [lia|discriminate]. }
    exists i. split; [exact E|]. assert (Hi : i < nA). { assert (i < length (map (fun a => mean (column quantiles a)) (seq 0 nA))) by (apply nth_error_Some; congruence). rewrite map_length, seq_length in *. assumption. }
    split; [exact Hi|]. exists m. rewrite nth_error_map in Hm. rewrite (nth_error_nth' (seq 0 nA) 0) in Hm by (rewrite seq_length; lia). rewrite seq_nth in Hm by lia. cbn in Hm. injection Hm as <-.
    split; [exact (average_ok nA _ _ F Hi)|]. intros j m' (vals & FV & Em').
    assert (Hj : j < nA). { destruct quantiles as [|row l]; [congruence|]. inversion FV; subst. inversion F; subst. apply nth_error_Some. congruence. }
    rewrite (F2_det _ _ _ _ FV (column_F2 nA _ _ F Hj)) in Em'. rewrite Em'. apply Hmax. apply in_map_iff. exists j. split; [reflexivity|]. apply in_seq. lia.
  Qed.

  Lemma iqn_ok (Z : S -> list Q -> list (list Q)) nA (taus_tilde taus_prime : list (list Q)) : 0 < nA ->
    (forall s taus, length (Z s taus) = length taus /\ Forall (fun row => length row = nA) (Z s taus)) ->
    length taus_tilde = length exps -> length taus_prime = length exps -> Forall (fun l => l <> []) taus_tilde -> Forall (fun l => l <> []) taus_prime ->
    exists b, batch_experiences gamma exps = Ok b /\ exists ts, iqn_target Z taus_tilde taus_prime b = Ok ts /\
      Forall2 (fun wtd t => let '(w, td, tp) := wtd in exists s a s' i, from_to w s a s' /\ best_average (Z s' td) i /\
                 Forall2 (fun row x => exists z, nth_error row i = Some z /\ (x == nstep gamma w z)%Q) (Z s' tp) t) (combine (combine exps taus_tilde) taus_prime) ts.
  Proof.
    intros Hn HZ L1 L2 F1 F2. destruct (batch_rows gamma exps Hne) as (b & rows & E & E1 & E2 & E3 & E4 & E5 & E6 & F). exists b. split; [exact E|].
    unfold iqn_target. rewrite E3, E4, E5, E6. clear E E1 E2 E3 E4 E5 E6 b Hne. revert taus_tilde taus_prime L1 L2 F1 F2.
    cut (forall taus_tilde taus_prime, length taus_tilde = length exps -> length taus_prime = length exps -> Forall (fun l => l <> []) taus_tilde -> Forall (fun l => l <> []) taus_prime ->
      exists gs, rmapM greedy_action (map (fun p => quantile_q_values (Z (fst p) (snd p))) (combine (map r_ns rows) taus_tilde)) = Ok gs /\
      exists mz, rmapM (fun p => evaluate_action_as_quantiles (fst p) (snd p)) (combine (map (fun p => Z (fst p) (snd p)) (combine (map r_ns rows) taus_prime)) gs) = Ok mz /\
      Forall2 (fun wtd t => let '(w, td, tp) := wtd in exists s a s' i, from_to w s a s' /\ best_average (Z s' td) i /\
                 Forall2 (fun row x => exists z, nth_error row i = Some z /\ (x == nstep gamma w z)%Q) (Z s' tp) t) (combine (combine exps taus_tilde) taus_prime)
        (map (fun p => let '(r, d, tm, z) := p in map (fun q => r + d * (1 - tm) * q)%Q z) (combine (combine (combine (map r_r rows) (map r_dc rows)) (map r_tm rows)) mz))).
    { intros H taus_tilde taus_prime L1 L2 F1 F2. destruct (H _ _ L1 L2 F1 F2) as (gs & -> & mz & Em & R). cbn [rbind]. rewrite Em. cbn [rbind]. eexists. split; [reflexivity|exact R]. }
    induction F as [|w x ws rows He F IH]; intros [|td tds] [|tp tps]; cbn; intros L1 L2 F1 F2; try discriminate.
    - exists []. split; [reflexivity|]. exists []. split; [reflexivity|constructor].
    - injection L1 as L1. injection L2 as L2. inversion F1 as [|? ? N1 F1']; subst. inversion F2 as [|? ? N2 F2']; subst. destruct (IH tds tps L1 L2 F1' F2') as (gs & Eg & mz & Em & R).
      destruct (HZ (r_ns x) td) as [Hl1 Hr1]. destruct (HZ (r_ns x) tp) as [Hl2 Hr2].
      destruct (quantile_greedy nA (Z (r_ns x) td) Hn) as (i & Ei & Hi & Hbest). { destruct td; [congruence|]. destruct (Z (r_ns x) (q :: td)); [discriminate|congruence]. } { exact Hr1. }
      exists (i :: gs). rewrite Ei. cbn [rbind]. rewrite Eg. split; [reflexivity|]. cbn [combine rmapM fst snd]. unfold evaluate_action_as_quantiles at 1.
      rewrite (n_actions_ok nA (Z (r_ns x) tp)); [|destruct tp; [congruence|]; destruct (Z (r_ns x) (q :: tp)); [discriminate|congruence]|exact Hr2].
      destruct (Nat.ltb_spec i nA); [|lia]. cbn [rbind]. rewrite Em. cbn [rbind]. eexists. split; [reflexivity|]. cbn [combine map]. constructor; [|exact R].
      exists (r_s x), (r_a x), (r_ns x), i. split; [apply (entry_target gamma w _ _ _ _ _ _ 0%Q He)|]. split; [exact Hbest|].
      pose proof (column_F2 nA _ _ Hr2 H) as FC. clear - FC He. induction FC as [|row v l vs Hv FC IH]; cbn [map]; constructor; [|exact IH]. exists v. split; [exact Hv|]. apply (entry_target gamma w _ _ _ _ _ _ v He).
  Qed.

  (** ** DDPG, windows of one transition *)
  Lemma ddpg_ok (q : S -> A -> Q) (next_actions : list A) : Forall (fun w => length w = 1) exps -> length next_actions = length exps -> exists b, batch_experiences gamma exps = Ok b /\
    Forall2 (fun wa t => exists s a s', from_to (fst wa) s a s' /\ (t == nstep gamma (fst wa) (q s' (snd wa)))%Q) (combine exps next_actions) (ddpg_target gamma q next_actions b).
  Proof.
    intros H1 L. destruct (batch_rows gamma exps Hne) as (b & rows & E & E1 & E2 & E3 & E4 & E5 & E6 & F). exists b. split; [exact E|].
    unfold ddpg_target. rewrite E3, E4, E5, map_map. clear E E1 E2 E3 E4 E5 E6 b Hne. revert next_actions L H1. induction F as [|w x ws rows He F IH]; intros [|a l]; cbn; intros L H1; try discriminate; [constructor|].
    injection L as L. inversion H1; subst. constructor; [|apply IH; assumption]. exists (r_s x), (r_a x), (r_ns x). destruct (entry_target gamma w _ _ _ _ _ _ (q (r_ns x) a) He) as [X Y]. split; [exact Y|].
    cbn [fst snd]. rewrite <- X. destruct He as (? & ? & ? & ? & _ & _ & _ & _ & _ & _ & _ & _ & Ed). rewrite Ed. rewrite H2. unfold gpow. cbn. ring.
  Qed.
End Agents.

(** * Advantage learning and DPP (actions are indices) *)
Section Operators.
  Context {S : Type}.
  Variables (gamma : Q) (exps : list (list (trans (exper S nat)))).
  Hypothesis Hne : Forall (fun w => w <> []) exps.
  Variable (target_model : S -> list Q).
  Hypothesis Hacts : Forall (fun w => forall s a s', from_to w s a s' -> a < length (target_model s) /\ a < length (target_model s')) exps.

  Lemma advantage_ok q a : a < length q -> exists m v, is_max q m /\ nth_error q a = Some v /\ compute_advantage q a = Ok (v - m)%Q.
  Proof.
    intros Ha. destruct (nth_error q a) as [v|] eqn:N; [|apply nth_error_None in N; lia]. destruct (max_ok q) as (m & Em & Hm). { intros ->. cbn in Ha. lia. }
    exists m, v. split; [exact Hm|]. split; [reflexivity|]. unfold compute_advantage, evaluate_action, gather. rewrite N. cbn [rbind]. rewrite Em. reflexivity.
  Qed.

  Lemma rows_acts rows : Forall2 (fun w x => entry_ok gamma w (r_s x) (r_a x) (r_r x) (r_ns x) (r_tm x) (r_dc x)) exps rows ->
    forall x, In x rows -> r_a x < length (target_model (r_s x)) /\ r_a x < length (target_model (r_ns x)).
  Proof.
    intros F. clear Hne. induction F as [|w x ws rows He F IH]; [intros _ []|]. inversion Hacts as [|? ? H1 H2]; subst. intros y [<-|Hy]; [|apply IH; assumption].
    apply (H1 _ _ _). apply (entry_target gamma w _ _ _ _ _ _ 0%Q He).
  Qed.

  Lemma al_ok alpha : exists b, batch_experiences gamma exps = Ok b /\ exists ts, al_target alpha target_model b = Ok ts /\
    Forall2 (fun w t => exists s a s' m m' q, from_to w s a s' /\ is_max (target_model s) m /\ is_max (target_model s') m' /\ nth_error (target_model s) a = Some q /\
      (t == nstep gamma w m' + alpha * (q - m))%Q) exps ts.
  Proof.
    destruct (batch_rows gamma exps Hne) as (b & rows & E & E1 & E2 & E3 & E4 & E5 & E6 & F). exists b. split; [exact E|]. pose proof (rows_acts rows F) as HA.
    unfold al_target. rewrite E1, E2, E3, E4, E5, E6, !map_map, combine_map.
    destruct (rmapM_rows max (fun x : row S nat => target_model (r_ns x)) (fun x v => is_max (target_model (r_ns x)) v) rows) as (qs & Eq & FQ). { intros x Hx. apply max_ok. intros Z. specialize (HA x Hx). rewrite Z in HA. cbn in HA. lia. }
    rewrite Eq. cbn [rbind].
    destruct (rmapM_rows (fun p => compute_advantage (fst p) (snd p)) (fun x : row S nat => (target_model (r_s x), r_a x)) (fun x d => exists m v, is_max (target_model (r_s x)) m /\ nth_error (target_model (r_s x)) (r_a x) = Some v /\ d = (v - m)%Q) rows) as (ds & Ed & FD).
    { intros x Hx. destruct (advantage_ok (target_model (r_s x)) (r_a x)) as (m & v & A1 & A2 & A3); [apply HA; exact Hx|]. exists (v - m)%Q. split; [exact A3|]. exists m, v. auto. }
    rewrite Ed. cbn [rbind]. eexists. split; [reflexivity|]. clear - F FQ FD. revert qs ds FQ FD. induction F as [|w x ws rows He F IH]; intros qs ds FQ FD; inversion FQ; inversion FD; subst; [constructor|].
    unfold add_scaled. cbn [map bellman combine fst snd]. constructor; [|apply (IH l'); assumption]. match goal with H : exists _ _, _ |- _ => destruct H as (m & v & A1 & A2 & ->) end.
    destruct (entry_target gamma w _ _ _ _ _ _ y He) as [X Y]. exists (r_s x), (r_a x), (r_ns x), m, y, v. repeat split; try apply A1; try assumption; try (match goal with H : is_max _ y |- _ => apply H end). rewrite X. reflexivity.
  Qed.

  Lemma pal_ok alpha : exists b, batch_experiences gamma exps = Ok b /\ exists ts, pal_target alpha target_model b = Ok ts /\
    Forall2 (fun w t => exists s a s' m m' q q', from_to w s a s' /\ is_max (target_model s) m /\ is_max (target_model s') m' /\ nth_error (target_model s) a = Some q /\ nth_error (target_model s') a = Some q' /\
      (t == nstep gamma w m' + alpha * Qmax (q - m) (q' - m'))%Q) exps ts.
  Proof.
    destruct (batch_rows gamma exps Hne) as (b & rows & E & E1 & E2 & E3 & E4 & E5 & E6 & F). exists b. split; [exact E|]. pose proof (rows_acts rows F) as HA.
    unfold pal_target. rewrite E1, E2, E3, E4, E5, E6, !map_map, !combine_map.
    destruct (rmapM_rows max (fun x : row S nat => target_model (r_ns x)) (fun x v => max (target_model (r_ns x)) = Ok v /\ is_max (target_model (r_ns x)) v) rows) as (qs & Eq & FQ).
    { intros x Hx. destruct (max_ok (target_model (r_ns x))) as (m & Em & Hm); [|exists m; auto]. intros Z. specialize (HA x Hx). rewrite Z in HA. cbn in HA. lia. }
    rewrite Eq. cbn [rbind].
    destruct (rmapM_rows (fun p => compute_advantage (fst p) (snd p)) (fun x : row S nat => (target_model (r_s x), r_a x)) (fun x d => exists m v, is_max (target_model (r_s x)) m /\ nth_error (target_model (r_s x)) (r_a x) = Some v /\ d = (v - m)%Q) rows) as (ds & Ed & FD).
    { intros x Hx. destruct (advantage_ok (target_model (r_s x)) (r_a x)) as (m & v & A1 & A2 & A3); [apply HA; exact Hx|]. exists (v - m)%Q. split; [exact A3|]. exists m, v. auto. }
    rewrite Ed. cbn [rbind].
    destruct (rmapM_rows (fun p => compute_advantage (fst p) (snd p)) (fun x : row S nat => (target_model (r_ns x), r_a x)) (fun x d => exists m v, max (target_model (r_ns x)) = Ok m /\ nth_error (target_model (r_ns x)) (r_a x) = Some v /\ d = (v - m)%Q) rows) as (ns & En & FN).
    { intros x Hx. destruct (nth_error (target_model (r_ns x)) (r_a x)) as [v|] eqn:N; [|apply nth_error_None in N; specialize (HA x Hx); lia].
      destruct (max_ok (target_model (r_ns x))) as (m & Em & Hm). { intros Z. rewrite Z in N. destruct (r_a x); discriminate. }
      exists (v - m)%Q. cbn [fst snd]. unfold compute_advantage, evaluate_action, gather. rewrite N. cbn [rbind]. rewrite Em. split; [reflexivity|]. exists m, v. auto. }
    rewrite En. cbn [rbind]. eexists. split; [reflexivity|]. clear - F FQ FD FN. revert qs ds ns FQ FD FN. induction F as [|w x ws rows He F IH]; intros qs ds ns FQ FD FN.
    - inversion FQ; inversion FD; inversion FN; subst. constructor.
    - inversion FQ as [|? mx ? qs' [M1 M2] FQ']; subst. inversion FD as [|? d ? ds' (m & v & A1 & A2 & ->) FD']; subst. inversion FN as [|? d ? ns' (m' & v' & B1 & B2 & ->) FN']; subst.
      unfold add_scaled. cbn [map bellman combine fst snd]. constructor; [|apply (IH qs'); assumption]. assert (m' = mx) as -> by congruence.
      destruct (entry_target gamma w _ _ _ _ _ _ mx He) as [X Y]. exists (r_s x), (r_a x), (r_ns x), m, mx, v, v'. split; [exact Y|]. split; [exact A1|]. split; [exact M2|]. split; [exact A2|]. split; [exact B2|]. rewrite X. reflexivity.
  Qed.

  Lemma dpp_ok (l_operator : list Q -> result Q) : (forall q, q <> [] -> exists v, l_operator q = Ok v) -> exists b, batch_experiences gamma exps = Ok b /\ exists ts, dpp_target l_operator target_model b = Ok ts /\
    Forall2 (fun w t => exists s a s' q l l', from_to w s a s' /\ nth_error (target_model s) a = Some q /\ l_operator (target_model s) = Ok l /\ l_operator (target_model s') = Ok l' /\
      (t == q + nstep gamma w l' - l)%Q) exps ts.
  Proof.
    intros HL. destruct (batch_rows gamma exps Hne) as (b & rows & E & E1 & E2 & E3 & E4 & E5 & E6 & F). exists b. split; [exact E|]. pose proof (rows_acts rows F) as HA.
    unfold dpp_target. rewrite E1, E2, E3, E4, E5, E6, !map_map, combine_map.
    destruct (rmapM_rows (fun p => evaluate_action (fst p) (snd p)) (fun x : row S nat => (target_model (r_s x), r_a x)) (fun x v => nth_error (target_model (r_s x)) (r_a x) = Some v) rows) as (qs & Eq & FQ).
    { intros x Hx. cbn [fst snd]. unfold evaluate_action, gather. destruct (nth_error (target_model (r_s x)) (r_a x)) as [v|] eqn:N; [eauto|]. apply nth_error_None in N. specialize (HA x Hx). lia. }
    rewrite Eq. cbn [rbind].
    destruct (rmapM_rows l_operator (fun x : row S nat => target_model (r_s x)) (fun x v => l_operator (target_model (r_s x)) = Ok v) rows) as (ls & El & FL).
    { intros x Hx. destruct (HL (target_model (r_s x))) as [v Hv]; [|eauto]. intros Z. specialize (HA x Hx). rewrite Z in HA. cbn in HA. lia. }
    rewrite El. cbn [rbind].
    destruct (rmapM_rows l_operator (fun x : row S nat => target_model (r_ns x)) (fun x v => l_operator (target_model (r_ns x)) = Ok v) rows) as (ns & En & FN).
    { intros x Hx. destruct (HL (target_model (r_ns x))) as [v Hv]; [|eauto]. intros Z. specialize (HA x Hx). rewrite Z in HA. cbn in HA. lia. }
    rewrite En. cbn [rbind]. eexists. split; [reflexivity|]. clear - F FQ FL FN. revert qs ls ns FQ FL FN. induction F as [|w x ws rows He F IH]; intros qs ls ns FQ FL FN.
    - inversion FQ; inversion FL; inversion FN; subst. constructor.
    - inversion FQ as [|? q ? qs' M FQ']; subst. inversion FL as [|? l ? ls' A1 FL']; subst. inversion FN as [|? l' ? ns' B1 FN']; subst. cbn [map bellman combine]. constructor; [|apply IH; assumption].
      destruct (entry_target gamma w _ _ _ _ _ _ l' He) as [X Y]. exists (r_s x), (r_a x), (r_ns x), q, l, l'. split; [exact Y|]. split; [exact M|]. split; [exact A1|]. split; [exact B1|]. rewrite X. reflexivity.
  Qed.
End Operators.
