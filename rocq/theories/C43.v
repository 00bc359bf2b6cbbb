(** C43: TRPO's line search. *)
From Coq Require Import QArith Lqa.
From Verif Require Import Base P_Base Vec M_LineSearch S_LineSearch.
Open Scope nat_scope.

Lemma split_len v sizes : length v = list_sum sizes -> map (@length Q) (split v sizes) = sizes /\ concat (split v sizes) = v.
Proof.
  revert v. induction sizes as [|n sizes IH]; intros v L; cbn [split map concat list_sum fold_right] in *.
  - destruct v; [split; reflexivity|discriminate].
  - change (fold_right Nat.add 0 sizes) with (list_sum sizes) in L. destruct (IH (skipn n v)) as [I1 I2]; [rewrite skipn_length; lia|]. rewrite I1, I2, firstn_skipn. split; [|reflexivity]. f_equal. apply firstn_length_le. lia.
Qed.
Lemma split_concat (vs : list vec) : split (concat vs) (map (@length Q) vs) = vs.
Proof.
  induction vs as [|v vs IH]; [reflexivity|]. cbn [concat map split]. rewrite firstn_app, Nat.sub_diag, firstn_all, skipn_app, skipn_all, Nat.sub_diag. cbn [firstn skipn app]. rewrite app_nil_r, IH. reflexivity.
Qed.
Lemma replace_ok ps news : map (@length Q) news = map (@length Q) ps -> replace_params_data ps news = Ok news.
Proof.
  revert news. induction ps as [|p ps IH]; intros [|n news] H; try discriminate H; [reflexivity|]. injection H as Hn H. cbn [replace_params_data]. rewrite Hn, Nat.eqb_refl. cbn [passert rbind]. rewrite (IH _ H). reflexivity.
Qed.
Lemma list_sum_len (vs : list vec) : list_sum (map (@length Q) vs) = length (concat vs).
Proof. induction vs as [|v vs IH]; [reflexivity|]. cbn [map concat]. rewrite app_length, <- IH. reflexivity. Qed.

Section C43.
  Context (gain_at kl_at : nat -> list vec -> fl) (max_kl : Q).
  (** the parameters tried at iteration i *)
  Definition acceptable (gain : fl) (i : nat) (ps : list vec) : Prop := not_below (gain_at i ps) gain /\ within (kl_at i ps) max_kl.
  Lemma accept_spec gain i ps :
    (negb (isfinite (gain_at i ps)) = true \/ negb (isfinite (kl_at i ps)) = true \/ flt (fsub (gain_at i ps) gain) (Fin 0) = true \/ flt (Fin max_kl) (kl_at i ps) = true) <-> ~ acceptable gain i ps.
  Proof.
    unfold acceptable. destruct (gain_at i ps) as [a| | |]; cbn [isfinite negb not_below]; [|tauto|tauto|tauto]. destruct (kl_at i ps) as [b| | |]; cbn [isfinite negb within]; [|tauto|tauto|tauto].
    assert (FL : forall x y, flt (Fin x) (Fin y) = true <-> (x < y)%Q). { intros x y. cbn [flt]. rewrite negb_true_iff. split; [intros H; apply Qnot_le_lt; intros X; apply Qle_bool_iff in X; congruence|intros H; destruct (Qle_bool y x) eqn:B; [apply Qle_bool_iff in B; lra|reflexivity]]. }
    rewrite FL. destruct gain as [g| | |]; cbn [fsub].
    - rewrite FL. split; [intros [H|[H|[H|H]]] [H1 H2]; try discriminate; lra|]. intros H. destruct (Qlt_le_dec (a - g) 0) as [X|X]; [tauto|]. destruct (Qlt_le_dec max_kl b) as [Y|Y]; [tauto|]. destruct H. split; lra.
    - cbn. tauto.
    - cbn. split; [intros [H|[H|[H|H]]] [H1 H2]; try discriminate; lra|]. intros H. destruct (Qlt_le_dec max_kl b) as [Y|Y]; [tauto|]. tauto.
    - cbn. split; [intros [H|[H|[H|H]]] [H1 H2]; try discriminate; lra|]. intros H. destruct (Qlt_le_dec max_kl b) as [Y|Y]; [tauto|]. tauto.
  Qed.
  Definition tried (old : list vec) (step : vec) (c : Q) : list vec := split (vadd (concat old) (vscale c step)) (map (@length Q) old).
  Fixpoint hp (c : Q) (i : nat) : Q := match i with 0 => c | S i => hp (c * (1 # 2)) i end.

  Lemma tried_len old step c : length step = length (concat old) -> map (@length Q) (tried old step c) = map (@length Q) old /\ concat (tried old step c) = vadd (concat old) (vscale c step).
  Proof. intros L. apply split_len. rewrite list_sum_len. apply vadd_len; [reflexivity|apply vscale_len; exact L]. Qed.
  Lemma search_ok old step gain : length step = length (concat old) -> forall n i c s, map (@length Q) (policy_params s) = map (@length Q) old ->
    exists s', search gain_at kl_at max_kl n i s (map (@length Q) old) (concat old) step gain c = Ok s' /\
      ((exists j, j < n /\ acceptable gain (i + j) (tried old step (hp c j)) /\ (forall j', j' < j -> ~ acceptable gain (i + j') (tried old step (hp c j'))) /\
          s' = mkSt (tried old step (hp c j)) (kl_record s ++ [kl_at (i + j) (tried old step (hp c j))]) (step_size_record s ++ [hp c j])) \/
       ((forall j, j < n -> ~ acceptable gain (i + j) (tried old step (hp c j))) /\ s' = mkSt old (kl_record s) (step_size_record s ++ [0%Q]))).
  Proof.
    intros L n. induction n as [|n IH]; intros i c s Hs; cbn [search].
    - rewrite split_concat, replace_ok by congruence. cbn [rbind]. eexists. split; [reflexivity|]. right. split; [intros j Hj; lia|reflexivity].
    - fold (tried old step c). destruct (tried_len old step c L) as [TL _]. rewrite replace_ok by congruence. cbn [rbind].
      set (ps := tried old step c) in *. pose proof (accept_spec gain i ps) as AS. set (s1 := mkSt ps (kl_record s) (step_size_record s)).
      specialize (IH (S i) (c * (1 # 2))%Q s1 TL). destruct IH as (s' & E & D).
      assert (G : ~ acceptable gain i ps -> exists s'0, search gain_at kl_at max_kl n (S i) s1 (map (@length Q) old) (concat old) step gain (c * (1 # 2)) = Ok s'0 /\
        ((exists j, j < S n /\ acceptable gain (i + j) (tried old step (hp c j)) /\ (forall j', j' < j -> ~ acceptable gain (i + j') (tried old step (hp c j'))) /\
          s'0 = mkSt (tried old step (hp c j)) (kl_record s ++ [kl_at (i + j) (tried old step (hp c j))]) (step_size_record s ++ [hp c j])) \/
       ((forall j, j < S n -> ~ acceptable gain (i + j) (tried old step (hp c j))) /\ s'0 = mkSt old (kl_record s) (step_size_record s ++ [0%Q])))).
      { intros N. exists s'. split; [exact E|]. destruct D as [(j & Hj & A & F & ->)|[F ->]].
        - left. exists (S j). rewrite Nat.add_succ_r. cbn [hp]. cbn [Nat.add] in A. split; [lia|]. split; [exact A|]. split; [|reflexivity]. intros [|j'] Hj'; [rewrite Nat.add_0_r; exact N|]. rewrite Nat.add_succ_r. apply (F j'). lia.
        - right. split; [|reflexivity]. intros [|j] Hj; [rewrite Nat.add_0_r; exact N|]. rewrite Nat.add_succ_r. apply (F j). lia. }
      cbn [kl_record step_size_record].
      destruct (negb (isfinite (gain_at i ps))) eqn:B1; [apply G; apply AS; auto|]. destruct (negb (isfinite (kl_at i ps))) eqn:B2; [apply G; apply AS; auto|].
      destruct (flt (fsub (gain_at i ps) gain) (Fin 0)) eqn:B3; [apply G; apply AS; auto|]. destruct (flt (Fin max_kl) (kl_at i ps)) eqn:B4; [apply G; apply AS; auto|].
      eexists. split; [reflexivity|]. left. exists 0. rewrite Nat.add_0_r. cbn [hp]. fold ps. split; [lia|]. split; [|split; [intros j' Hj'; lia|reflexivity]].
      destruct (gain_at i ps) as [a| | |] eqn:Ga; try discriminate B1. destruct (kl_at i ps) as [b| | |] eqn:Kb; try discriminate B2. unfold acceptable. rewrite Ga, Kb. cbn [not_below within].
      cbn [flt] in B4. apply negb_false_iff, Qle_bool_iff in B4. split; [|exact B4]. destruct gain as [g| | |]; cbn [fsub flt] in B3; try exact I; try discriminate B3. apply negb_false_iff, Qle_bool_iff in B3. lra.
  Qed.
  Lemma hp_half c i : (hp c i == c * half_pow i)%Q.
  Proof. revert c. induction i as [|i IH]; intros c; cbn [hp half_pow]; [ring|]. rewrite IH. field. Qed.
End C43.

(** After the search the parameters are the old ones exactly, or old + 2^-i * step for the first i at which gain and divergence are acceptable;
    the former only if none of the max_backtrack + 1 candidates is.  The record of step sizes gets 0 or (a number equal to) 2^-i, and the
    record of divergences the divergence at the accepted parameters. *)
Theorem C43_line_search (gain_at kl_at : nat -> list vec -> fl) (max_kl : Q) (max_backtrack : nat) (s : st) (step : vec) (gain : fl) :
  length step = length (concat (policy_params s)) ->
  exists candidate : nat -> list vec, (forall i, moved (policy_params s) (half_pow i) step (candidate i)) /\
  exists s', line_search gain_at kl_at max_kl max_backtrack s step gain = Ok s' /\
    ((exists i c, i <= max_backtrack /\ not_below (gain_at i (candidate i)) gain /\ within (kl_at i (candidate i)) max_kl /\
        (forall j, j < i -> ~ (not_below (gain_at j (candidate j)) gain /\ within (kl_at j (candidate j)) max_kl)) /\
        policy_params s' = candidate i /\ (c == half_pow i)%Q /\ step_size_record s' = step_size_record s ++ [c] /\ kl_record s' = kl_record s ++ [kl_at i (candidate i)]) \/
     ((forall i, i <= max_backtrack -> ~ (not_below (gain_at i (candidate i)) gain /\ within (kl_at i (candidate i)) max_kl)) /\
        policy_params s' = policy_params s /\ step_size_record s' = step_size_record s ++ [0%Q] /\ kl_record s' = kl_record s)).
Proof.
  intros L. exists (fun i => tried (policy_params s) step (hp 1 i)). split.
  - intros i. destruct (tried_len (policy_params s) step (hp 1 i) L) as [T1 T2]. split; [exact T1|]. rewrite T2, hp_half. setoid_replace (1 * half_pow i)%Q with (half_pow i) by ring. reflexivity.
  - unfold line_search. destruct (search_ok gain_at kl_at max_kl (policy_params s) step gain L (S max_backtrack) 0 1%Q s eq_refl) as (s' & E & D). exists s'. split; [exact E|]. cbn [Nat.add] in D.
    destruct D as [(j & Hj & A & F & ->)|[F ->]]; [left|right].
    + exists j, (hp 1 j). split; [lia|]. destruct A as [A1 A2]. split; [exact A1|]. split; [exact A2|]. split; [intros j' Hj'; exact (F j' Hj')|]. split; [reflexivity|]. split; [rewrite hp_half; ring|]. split; reflexivity.
    + split; [intros i Hi; apply (F i); lia|]. repeat split.
Qed.

(** a policy with two tensors; the full step gives a NaN gain, the half step diverges too much, the quarter step is taken *)
Definition ex_gain (i : nat) (ps : list vec) : fl := match i with 0 => NaN | _ => Fin (1 # 10) end.
Definition ex_kl (i : nat) (ps : list vec) : fl := match ps with (x :: _) :: _ => Fin (x / 100) | _ => PInf end.
Example C43_ex : exists s', line_search ex_gain ex_kl (1 # 50) 5 (mkSt [[1; 2]; [3]]%Q [] []) [4; 0; 8]%Q (Fin 0) = Ok s' /\
  map (map Qred) (policy_params s') = [[2; 2]; [5]]%Q /\ map Qred (step_size_record s') = [1 # 4]%Q.
Proof. eexists. split; [vm_compute; reflexivity|]. split; vm_compute; reflexivity. Qed.
Example C43_ex_none : exists s', line_search ex_gain (fun _ _ => PInf) (1 # 50) 5 (mkSt [[1; 2]; [3]]%Q [] []) [4; 0; 8]%Q (Fin 0) = Ok s' /\ policy_params s' = [[1; 2]; [3]]%Q.
Proof. eexists. split; [vm_compute; reflexivity|]. vm_compute; reflexivity. Qed.

Print Assumptions C43_line_search.
