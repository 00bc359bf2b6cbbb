(** C34: A2C returns. *)
From Coq Require Import QArith Qpower Lqa.
From Verif Require Import Base P_Base M_A2C S_PPO P_PPO S_A2C P_A2C.
Open Scope nat_scope.

(** Without GAE: R_t = r_t + gamma * mask_t * R_{t+1}, bootstrapped with the last value, i.e. the discounted sum of the rewards up to and
    including the first step that ends the episode, or up to the end of the window plus the discounted bootstrap value. *)
Theorem C34_returns (gamma tau nv : Q) (rs values : list Q) (ended : list bool) : length ended = length rs ->
  let R := compute_returns false gamma tau rs (map mask_of ended) values nv in
  length R = length rs /\
  forall t, t < length rs -> exists x, nth_error R t = Some x /\
    (x == nth t rs 0 + gamma * mask_of (nth t ended false) * nth (S t) (R ++ [nv]) 0)%Q /\
    (forall e, t <= e -> nth_error ended e = Some true -> (forall j, t <= j < e -> nth_error ended j = Some false) ->
       (x == discounted_sum gamma (fun l => nth (t + l) rs 0) (S (e - t)))%Q) /\
    ((forall j, t <= j < length rs -> nth_error ended j = Some false) ->
       (x == discounted_sum gamma (fun l => nth (t + l) rs 0) (length rs - t) + Qpower gamma (Z.of_nat (length rs - t)) * nv)%Q).
Proof.
  intros HL. cbn zeta. unfold compute_returns. rewrite plain_prec. set (c := combine rs (map mask_of ended)).
  assert (Lc : length c = length rs) by (unfold c; rewrite combine_length, map_length; lia).
  split; [rewrite prec_len; exact Lc|]. intros t Ht. exists (fst (prec gamma nv (skipn t c))). split; [apply prec_nth; lia|].
  assert (Sk : forall k, skipn k c = combine (skipn k rs) (map mask_of (skipn k ended))) by (intros k; unfold c; rewrite skipn_combine, <- skipn_map; reflexivity).
  assert (Ls : length (skipn t ended) = length (skipn t rs)) by (rewrite !skipn_length; lia).
  split; [|split].
  - assert (Nx : nth (S t) (snd (prec gamma nv c) ++ [nv]) 0%Q = fst (prec gamma nv (skipn (S t) c))).
    { destruct (Nat.eq_dec (S t) (length rs)) as [E|E].
      - rewrite app_nth2 by (rewrite prec_len; lia). rewrite prec_len, Lc, E, Nat.sub_diag. rewrite skipn_all2 by lia. reflexivity.
      - rewrite app_nth1 by (rewrite prec_len; lia). apply nth_error_nth. apply prec_nth. lia. }
    rewrite Nx. assert (Hc : exists r m, nth_error c t = Some (r, m) /\ r = nth t rs 0%Q /\ m = mask_of (nth t ended false)).
    { unfold c. clear - HL Ht. revert rs ended HL Ht. induction t as [|t IH]; intros [|r rs] [|e ended] HL Ht; cbn in HL, Ht; try lia; [cbn; eauto|]. cbn. apply IH; lia. }
    destruct Hc as (r & m & Hc & -> & ->). assert (Es : skipn t c = (nth t rs 0%Q, mask_of (nth t ended false)) :: skipn (S t) c).
    { apply skipn_nth. exact Hc. }
    rewrite Es. cbn [prec]. destruct (prec gamma nv (skipn (S t) c)). cbn [fst]. ring.
  - intros e He H1 H2. rewrite Sk. rewrite (prec_end gamma nv (skipn t rs) (skipn t ended) (e - t) Ls).
    + apply dsum_ext. intros l _. unfold reward_at. rewrite nth_skipn0. reflexivity.
    + rewrite nth_error_skipn'. rewrite <- H1. f_equal. lia.
    + intros j Hj. rewrite nth_error_skipn'. apply H2. lia.
  - intros H2. rewrite Sk. rewrite (prec_noend gamma nv (skipn t rs) (skipn t ended) Ls).
    + rewrite skipn_length. apply Qplus_comp; [|reflexivity]. apply dsum_ext. intros l _. unfold reward_at. rewrite nth_skipn0. reflexivity.
    + rewrite skipn_length. intros j Hj. rewrite nth_error_skipn'. apply H2. lia.
Qed.

(** The TD error of step k with the value predictions (the bootstrap value follows the last prediction). *)
Definition tde (gamma nv : Q) (rs : list Q) (ended : list bool) (values : list Q) (k : nat) : Q :=
  (nth k rs 0 + gamma * mask_of (nth k ended false) * nth (S k) (values ++ [nv]) 0 - nth k (values ++ [nv]) 0)%Q.

(** With GAE: the return is the lambda-return R_t = r_t + gamma * mask_t * ((1 - tau) V_{t+1} + tau R_{t+1}); minus the value it is the
    sum of (gamma tau)^l times the TD errors up to the first step that ends the episode (or the end of the window). *)
Theorem C34_gae (gamma tau nv : Q) (rs values : list Q) (ended : list bool) : length ended = length rs -> length values = length rs ->
  let R := compute_returns true gamma tau rs (map mask_of ended) values nv in
  length R = length rs /\
  forall t, t < length rs -> exists x, nth_error R t = Some x /\
    (x == nth t rs 0 + gamma * mask_of (nth t ended false) * ((1 - tau) * nth (S t) (values ++ [nv]) 0 + tau * nth (S t) (R ++ [nv]) 0))%Q /\
    (forall e, t <= e -> nth_error ended e = Some true -> (forall j, t <= j < e -> nth_error ended j = Some false) ->
       (x - nth t values 0 == discounted_sum (gamma * tau) (fun l => tde gamma nv rs ended values (t + l)) (S (e - t)))%Q) /\
    ((forall j, t <= j < length rs -> nth_error ended j = Some false) ->
       (x - nth t values 0 == discounted_sum (gamma * tau) (fun l => tde gamma nv rs ended values (t + l)) (length rs - t))%Q).
Proof.
  intros HL HV. cbn zeta. unfold compute_returns. rewrite gae2_grec. set (c := combine (combine rs (map mask_of ended)) values).
  assert (Lc : length c = length rs) by (unfold c; rewrite !combine_length, map_length; lia).
  split; [rewrite grec2_len; exact Lc|]. intros t Ht.
  assert (Hc : forall k, k < length rs -> nth_error c k = Some (nth k rs 0%Q, mask_of (nth k ended false), nth k values 0%Q)).
  { unfold c. clear - HL HV. intros t Ht. revert rs ended values HL HV Ht. induction t as [|t IH]; intros [|r rs] [|e ended] [|v vs] HL HV Ht; cbn in HL, HV, Ht; try lia; [reflexivity|]. cbn. apply IH; lia. }
  exists (fst (fst (grec2 gamma tau nv (skipn t c))) + nth t values 0)%Q. split; [eapply grec2_nth; apply Hc; exact Ht|].
  assert (Sk : forall k, skipn k c = combine (combine (skipn k rs) (map mask_of (skipn k ended))) (skipn k values)) by (intros k; unfold c; rewrite !skipn_combine, <- skipn_map; reflexivity).
  assert (Ls : length (skipn t ended) = length (skipn t rs)) by (rewrite !skipn_length; lia). assert (Lv : length (skipn t values) = length (skipn t rs)) by (rewrite !skipn_length; lia).
  assert (Va : forall k j, k <= length rs -> value_at (skipn k values) nv j = nth (k + j) (values ++ [nv]) 0%Q).
  { intros k j Hk. unfold value_at. rewrite <- nth_skipn0. f_equal. rewrite skipn_app. replace (k - length values) with 0 by lia. reflexivity. }
  assert (Dx : forall l, (delta2 gamma nv (skipn t rs) (skipn t ended) (skipn t values) l == tde gamma nv rs ended values (t + l))%Q).
  { intros l. unfold delta2, tde. rewrite !Va by lia. rewrite !nth_skipn0. replace (t + S l) with (S (t + l)) by lia. reflexivity. }
  split; [|split].
  - assert (Es : skipn t c = (nth t rs 0%Q, mask_of (nth t ended false), nth t values 0%Q) :: skipn (S t) c).
    { apply skipn_nth. apply Hc. exact Ht. }
    rewrite Es. cbn [grec2]. pose proof (grec2_next gamma tau nv (skipn (S t) rs) (map mask_of (skipn (S t) ended)) (skipn (S t) values)) as Nx. rewrite <- Sk in Nx.
    rewrite map_length, !skipn_length in Nx. specialize (Nx ltac:(lia) ltac:(lia)). rewrite Va in Nx by lia. replace (S t + 0) with (S t) in Nx by lia.
    assert (Rn : nth (S t) (snd (grec2 gamma tau nv c) ++ [nv]) 0%Q == fst (fst (grec2 gamma tau nv (skipn (S t) c))) + nth (S t) (values ++ [nv]) 0%Q).
    { destruct (Nat.eq_dec (S t) (length rs)) as [E|E].
      - rewrite !app_nth2 by (rewrite ?grec2_len; lia). rewrite grec2_len, Lc, HV, E, Nat.sub_diag. rewrite skipn_all2 by lia. cbn. ring.
      - rewrite !app_nth1 by (rewrite ?grec2_len; lia). rewrite (nth_error_nth _ _ _ (grec2_nth gamma tau nv c (S t) _ _ _ (Hc (S t) ltac:(lia)))). reflexivity. }
    rewrite Rn. destruct (grec2 gamma tau nv (skipn (S t) c)) as [[g n] a]. cbn [fst snd] in *. subst n. ring.
  - intros e He H1 H2. rewrite Sk. rewrite (grec2_end gamma tau nv (skipn t rs) (skipn t ended) (skipn t values) (e - t) Ls Lv).
    + rewrite (dsum_ext _ _ _ _ (fun l _ => Dx l)). ring.
    + rewrite nth_error_skipn'. rewrite <- H1. f_equal. lia.
    + intros j Hj. rewrite nth_error_skipn'. apply H2. lia.
  - intros H2. rewrite Sk. rewrite (grec2_noend gamma tau nv (skipn t rs) (skipn t ended) (skipn t values) Ls Lv).
    + rewrite skipn_length. rewrite (dsum_ext _ _ _ _ (fun l _ => Dx l)). ring.
    + rewrite skipn_length. intros j Hj. rewrite nth_error_skipn'. apply H2. lia.
Qed.

(** Four steps, the second ends an episode: the first two returns do not see the rewards 8 and 16. *)
Example C34_ex : map Qred (compute_returns false (1#2) 0 [1;2;8;16]%Q (map mask_of [false;true;false;false]) [] 100) = [2;2;41;66]%Q.
Proof. vm_compute. reflexivity. Qed.
Example C34_ex_gae : map Qred (compute_returns true (1#2) (1#2) [1;2;8;16]%Q (map mask_of [false;true;false;false]) [10;20;30;40]%Q 100) = [(13#2);2;(69#2);66]%Q.
Proof. vm_compute. reflexivity. Qed.

Print Assumptions C34_returns.
Print Assumptions C34_gae.
