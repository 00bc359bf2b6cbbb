(** C95: implicit quantile networks. *)
From Coq Require Import QArith Lia.
From Verif Require Import Base M_Batch P_Batch M_ActionValue M_IQN.
Close Scope Q_scope. Open Scope nat_scope.

(** What the network is to compute for one observation (its features [p]) and one threshold (its embedding [e]): f(p * e). *)
Definition pair_value (f : list Q -> list Q) (p e : list Q) : list Q := f (map (fun q => (fst q * snd q)%Q) (combine p e)).
(** The embedding of a threshold: for each output unit the weighted sum of cos(pi i tau), i = 1 ... n, plus the bias. *)
Fixpoint wsum (w : list Q) (g : nat -> Q) (i : nat) : Q := match w with [] => 0%Q | a :: w => (a * g i + wsum w g (S i))%Q end.
Definition embedding (cosine : Q -> nat -> Q) (w : list (list Q)) (bias : list Q) (tau : Q) : list Q :=
  map (fun p => (wsum (fst p) (cosine tau) 1 + snd p)%Q) (combine w bias).

Lemma reshape_concat {X} n m (ls : list (list X)) : length ls = n -> Forall (fun l => length l = m) ls -> reshape2 n m (concat ls) = Ok ls.
Proof.
  intros <- F. unfold reshape2.
  assert (L : forall ls : list (list X), Forall (fun l => length l = m) ls -> length (concat ls) = length ls * m).
  { clear. induction 1; cbn; [reflexivity|]. rewrite app_length. lia. }
  rewrite (L ls F), Nat.eqb_refl. f_equal.
  assert (G : forall k, map (fun i => firstn m (skipn (i * m) (concat ls))) (seq k (length ls - k)) = skipn k ls).
  { clear L. induction F as [|l ls Hl F IH]; intros k; [destruct k; reflexivity|].
    assert (Z : forall j, map (fun i => firstn m (skipn (i * m) (concat (l :: ls)))) (seq (S j) (length (l :: ls) - S j)) = skipn j ls).
    { intros j. rewrite <- (IH j). rewrite <- seq_shift, map_map. cbn [length Nat.sub]. apply map_ext. intros i. f_equal. cbn [concat Nat.mul].
      rewrite skipn_app. rewrite (skipn_all2 l) by lia. cbn [app]. f_equal. lia. }
    destruct k as [|k]; [|exact (Z k)]. cbn [length Nat.sub seq map skipn]. f_equal.
    - cbn [Nat.mul skipn concat]. rewrite firstn_app, <- Hl, Nat.sub_diag, firstn_all. cbn. apply app_nil_r.
    - specialize (Z 0). cbn [length Nat.sub] in Z. rewrite Nat.sub_0_r in Z. exact Z. }
  specialize (G 0). rewrite Nat.sub_0_r in G. exact G.
Qed.
Lemma map_concat {X Y} (f : X -> Y) ls : map f (concat ls) = concat (map (map f) ls).
Proof. apply concat_map. Qed.
Lemma dot_wsum (w : list Q) g : forall i n, length w = n -> (M_IQN.dot w (map g (seq i n)) = wsum w g i).
Proof. induction w as [|a w IH]; intros i [|n] H; try discriminate; [reflexivity|]. cbn. rewrite IH by (now injection H). reflexivity. Qed.
Lemma first_len {X} (l : list (list X)) m : Forall (fun r => length r = m) l -> l <> [] -> match l with [] => 0 | r :: _ => length r end = m.
Proof. intros F N. destruct l; [congruence|]. now inversion F. Qed.

(** CosineBasisLinear: element (b, k) of the output is the embedding of threshold (b, k), whatever the shape. *)
Theorem C95_embedding cosine n_basis w bias (taus : list (list Q)) T :
  taus <> [] -> Forall (fun r => length r = T) taus -> Forall (fun r => length r = n_basis) w ->
  cosine_basis_linear cosine n_basis w bias taus = Ok (map (map (embedding cosine w bias)) taus).
Proof.
  intros N F W. unfold cosine_basis_linear, flatten2, cosine_basis_functions. rewrite (first_len taus T F N). rewrite map_concat, map_map.
  rewrite (reshape_concat (length taus) T).
  - f_equal. apply map_ext. intros r. rewrite !map_map. apply map_ext. intros tau. unfold linear, embedding. apply map_ext_in. intros [wr b] I. cbn [fst snd].
    rewrite dot_wsum; [reflexivity|]. rewrite Forall_forall in W. apply W. apply in_combine_l in I. exact I.
  - apply map_length.
  - apply Forall_map. eapply Forall_impl; [|exact F]. cbn beta. intros r H. now rewrite !map_length.
Qed.

(** The network: element (b, k) of the output is the value of observation [b] at its own threshold [k], computed from that pair alone; for
    every batch size, number of thresholds and hidden size. *)
Theorem C95_pairs {Ob : Type} (psi : Ob -> list Q) phi (e : Q -> list Q) f (obs : list Ob) (taus : list (list Q)) T H :
  obs <> [] -> length taus = length obs -> Forall (fun r => length r = T) taus ->
  (forall o, length (psi o) = H) -> (forall tau, length (e tau) = H) ->
  phi taus = Ok (map (map e) taus) ->
  iqn_forward psi phi f obs taus = Ok (map (fun p => map (fun tau => pair_value f (psi (fst p)) (e tau)) (snd p)) (combine obs taus)).
Proof.
  intros N L F HP HE P. unfold iqn_forward, evaluate_psi_x. rewrite map_length, L, Nat.eqb_refl. cbn [passert rbind].
  assert (NT : taus <> []) by (destruct taus, obs; cbn in *; congruence).
  rewrite (first_len taus T F NT), P. cbn [rbind].
  replace (match map psi obs with [] => 0 | r :: _ => length r end) with H by (destruct obs; [congruence|cbn; symmetry; apply HP]).
  replace ((length (map (map e) taus) =? length obs) && all_len T (map (map e) taus) && forallb (all_len H) (map (map e) taus)) with true.
  2:{ symmetry. rewrite !andb_true_iff. repeat split.
      - rewrite map_length, L. apply Nat.eqb_refl.
      - unfold all_len. apply forallb_forall. intros r I. apply in_map_iff in I. destruct I as (r' & <- & I). rewrite map_length. rewrite Forall_forall in F. rewrite (F _ I). apply Nat.eqb_refl.
      - apply forallb_forall. intros r I. apply in_map_iff in I. destruct I as (r' & <- & I). unfold all_len. apply forallb_forall. intros v J. apply in_map_iff in J.
        destruct J as (tau & <- & _). rewrite HE. apply Nat.eqb_refl. }
  cbn [passert rbind]. unfold flatten2. rewrite map_concat, map_map.
  match goal with |- context [concat ?x] => set (rows := x) end.
  assert (R : rows = map (fun p => map (fun tau => pair_value f (psi (fst p)) (e tau)) (snd p)) (combine obs taus)).
  { unfold rows, pair_value. clear. revert taus. induction obs as [|o obs IH]; intros [|r taus]; try reflexivity. cbn [map combine]. f_equal; [|apply IH]. cbn [fst snd]. rewrite !map_map. reflexivity. }
  assert (RL : length rows = length obs) by (rewrite R, map_length, combine_length; lia).
  assert (RT : Forall (fun l => length l = T) rows).
  { rewrite R. apply Forall_map. apply Forall_forall. intros [o r] I. cbn. rewrite map_length. rewrite Forall_forall in F. apply F. apply in_combine_r in I. exact I. }
  assert (LC : length (concat rows) = length obs * T).
  { rewrite <- RL. clear - RT. induction RT; cbn; [reflexivity|]. rewrite app_length. lia. }
  rewrite LC, Nat.eqb_refl. cbn [passert rbind]. rewrite (reshape_concat _ T rows RL RT). now rewrite R.
Qed.

(** Learning: the prediction for example [b] are the values of its own observation and action at its own thresholds. *)
Theorem C95_prediction {Ob : Type} (psi : Ob -> list Q) phi (e : Q -> list Q) f nA (obs : list Ob) (taus : list (list Q)) (actions : list nat) T H :
  obs <> [] -> length taus = length obs -> length actions = length obs -> 0 < T -> Forall (fun r => length r = T) taus ->
  (forall o, length (psi o) = H) -> (forall tau, length (e tau) = H) -> phi taus = Ok (map (map e) taus) ->
  (forall r, length (f r) = nA) -> Forall (fun a => a < nA) actions ->
  exists q y, iqn_forward psi phi f obs taus = Ok q /\ iqn_y q actions = Ok y /\
    y = map (fun p => map (fun tau => nth (snd (fst p)) (pair_value f (psi (fst (fst p))) (e tau)) 0%Q) (snd p)) (combine (combine obs actions) taus).
Proof.
  intros N L LA TP F HP HE P FN FA. rewrite (C95_pairs psi phi e f obs taus T H N L F HP HE P). eexists _, _. split; [reflexivity|]. split; [|reflexivity].
  unfold iqn_y. rewrite map_length, combine_length, LA, L, Nat.min_id, Nat.eqb_refl.
  clear N HP HE P. revert taus actions L LA F FA. induction obs as [|o obs IH]; intros [|r taus] [|a actions] L LA F FA; try discriminate; [reflexivity|].
  inversion F; subst. inversion FA; subst. cbn [combine map rmapM fst snd].
  assert (NA : n_actions (map (fun tau => pair_value f (psi o) (e tau)) r) = nA).
  { destruct r; [cbn in TP; lia|]. cbn. unfold pair_value. apply FN. }
  unfold evaluate_action_as_quantiles at 1. rewrite NA. replace (a <? nA) with true by (symmetry; now apply Nat.ltb_lt). cbn [rbind].
  rewrite IH; auto. cbn [rbind]. unfold column. rewrite map_map. reflexivity.
Qed.

(** Acting deterministically: the action for an observation depends on that observation alone (not on the others in the batch), and is the
    greedy action of the average over the fixed, evenly spaced thresholds. *)
Theorem C95_deterministic {Ob : Type} (psi : Ob -> list Q) phi (e : Q -> list Q) f k (obs : list Ob) H :
  obs <> [] -> (forall o, length (psi o) = H) -> (forall tau, length (e tau) = H) ->
  (forall taus T, taus <> [] -> Forall (fun r => length r = T) taus -> phi taus = Ok (map (map e) taus)) ->
  act_deterministically psi phi f k obs = rmapM (fun o => greedy_action (quantile_q_values (map (fun tau => pair_value f (psi o) (e tau)) (linspace01 k)))) obs.
Proof.
  intros N HP HE P. unfold act_deterministically.
  assert (F : Forall (fun r : list Q => length r = length (linspace01 k)) (map (fun _ => linspace01 k) obs)) by (apply Forall_map, Forall_forall; reflexivity).
  rewrite (C95_pairs psi phi e f obs (map (fun _ => linspace01 k) obs) (length (linspace01 k)) H N (map_length _ _) F HP HE).
  - cbn [rbind]. unfold iqn_greedy. clear N F. induction obs as [|o obs IH]; [reflexivity|]. cbn [map combine rmapM fst snd]. destruct (greedy_action _); [|reflexivity]. cbn [rbind].
    rewrite IH. reflexivity.
  - eapply P; [destruct obs; [congruence|discriminate]|exact F].
Qed.
(** The thresholds are evenly spaced from 0 to 1. *)
Theorem C95_thresholds k : 2 <= k -> length (linspace01 k) = k /\ (nth 0 (linspace01 k) 2 == 0)%Q /\ (nth (k - 1) (linspace01 k) 2 == 1)%Q /\
  forall i, S i < k -> (nth (S i) (linspace01 k) 2 - nth i (linspace01 k) 2 == 1 / inject_Z (Z.of_nat (k - 1)))%Q.
Proof.
  intros K. assert (E : linspace01 k = map (fun i => (inject_Z (Z.of_nat i) / inject_Z (Z.of_nat (k - 1)))%Q) (seq 0 k)) by (destruct k as [|[|k]]; [lia|lia|reflexivity]).
  assert (NTH : forall i, i < k -> nth i (linspace01 k) 2%Q = (inject_Z (Z.of_nat i) / inject_Z (Z.of_nat (k - 1)))%Q).
  { intros i I. rewrite E. set (g := fun i => (inject_Z (Z.of_nat i) / inject_Z (Z.of_nat (k - 1)))%Q). rewrite (nth_indep _ 2%Q (g 0)) by (rewrite map_length, seq_length; lia).
    rewrite map_nth, seq_nth by lia. reflexivity. }
  assert (NZ : ~ (inject_Z (Z.of_nat (k - 1)) == 0)%Q) by (unfold Qeq; cbn; lia).
  split; [rewrite E, map_length, seq_length; reflexivity|]. split; [rewrite NTH by lia; cbn; field; exact NZ|]. split; [rewrite NTH by lia; field; exact NZ|].
  intros i I. rewrite !NTH by lia. rewrite Nat2Z.inj_succ. unfold Z.succ. rewrite inject_Z_plus. change (inject_Z 1) with 1%Q. field. exact NZ.
Qed.

(** Two observations with different thresholds, two basis functions, three actions; a rational stand-in for cos. *)
Definition ex_cos (x : Q) (i : nat) : Q := (x * inject_Z (Z.of_nat i))%Q.
Definition ex_phi := cosine_basis_linear ex_cos 2 [[1; 0]; [0; 1]]%Q [0; 1]%Q.
Example C95_ex : iqn_forward (fun o : Q => [o; 1])%Q ex_phi (fun r => r ++ [5%Q]) [2; 3]%Q [[1; 2; 3]; [4; 5; 6]]%Q =
  Ok (map (fun p => map (fun tau => pair_value (fun r => r ++ [5%Q]) [fst p; 1%Q] (embedding ex_cos [[1; 0]; [0; 1]]%Q [0; 1]%Q tau)) (snd p)) [(2, [1; 2; 3]); (3, [4; 5; 6])]%Q) /\
  act_deterministically (fun o : Q => [o; 1])%Q ex_phi (fun r => r) 3 [2; -3; 40]%Q = Ok [1; 1; 0].
Proof. split; vm_compute; reflexivity. Qed.
Print Assumptions C95_embedding.
Print Assumptions C95_pairs.
Print Assumptions C95_prediction.
Print Assumptions C95_deterministic.
Print Assumptions C95_thresholds.
