(** C92: Ornstein-Uhlenbeck exploration noise. *)
From Coq Require Import Reals QArith Qpower Lra Lia.
From Verif Require Import Base M_Explorers M_OU.
Open Scope Q_scope.

(** The noise added in each call: what was returned minus the greedy action. *)
Definition noises (l : list (Q * Q)) (us : list Q) : list Q := map (fun p => snd p - fst (fst p)) (combine l us).
(** Sum over j < n of rho^(n-1-j) z_j, for the samples z_0 ... z_(n-1). *)
Fixpoint filtered (rho : Q) (zs : list Q) : Q := match zs with [] => 0 | z :: zs => rho ^ Z.of_nat (length zs) * z + filtered rho zs end.

Lemma calls_length mu th st : forall l s, length (snd (ou_calls mu th st s l)) = length l.
Proof.
  induction l as [|[a z] l IH]; intros s; [reflexivity|]. cbn [ou_calls]. destruct (additive_ou mu th st s a z) as [s1 u].
  specialize (IH s1). destruct (ou_calls mu th st s1 l). cbn in *. lia.
Qed.
Lemma pow_S (x : Q) n : x ^ Z.of_nat (S n) == x * x ^ Z.of_nat n.
Proof. destruct (Qeq_dec x 0) as [E|N].
  - rewrite E. rewrite Qpower_0 by lia. ring.
  - rewrite Nat2Z.inj_succ. unfold Z.succ. rewrite Qpower_plus by exact N. simpl. ring.
Qed.

(** After a call left the state [x], [k] more calls leave the state and add the noise of the closed form. *)
Lemma calls_from mu th st : forall l x k a z, nth_error l k = Some (a, z) ->
  exists n, nth_error (noises l (snd (ou_calls mu th st (Some x) l))) k = Some n /\
    n == mu + (1 - th) ^ Z.of_nat (S k) * (x - mu) + filtered (1 - th) (map snd (firstn (S k) l)).
Proof.
  induction l as [|[a0 z0] l IH]; intros x k a z E; [destruct k; discriminate|].
  cbn [ou_calls additive_ou]. destruct (ou_calls mu th st (Some (x + (th * (mu - x) + z0))) l) as [s2 us] eqn:R.
  destruct k as [|k].
  - eexists. split; [reflexivity|]. cbn [snd fst firstn map filtered length]. rewrite pow_S. change (Z.of_nat 0) with 0%Z. simpl. ring.
  - cbn in E. destruct (IH (x + (th * (mu - x) + z0)) k a z E) as (n & E1 & E2). rewrite R in E1. exists n. split; [exact E1|].
    rewrite E2. rewrite firstn_cons. cbn [map snd filtered]. rewrite (pow_S _ (S k)).
    assert (L : length (map snd (firstn (S k) l)) = S k).
    { rewrite map_length, firstn_length. assert (k < length l)%nat by (apply nth_error_Some; congruence). lia. }
    rewrite L. ring.
Qed.

(** One explorer, called for one environment: action = greedy action + noise; the first noise is mu (or the first sample), every later one
    obeys x' = x + theta (mu - x) + z with the sample of that call; in closed form, the noise forgets its start geometrically.  Episode
    ends do not appear: the process runs on. *)
Theorem C92_process_partial mu theta start l k a z a' z' :
  let noise := noises l (snd (ou_calls mu theta start None l)) in
  nth_error l k = Some (a, z) -> nth_error l (S k) = Some (a', z') ->
  exists n0 n n', nth_error noise 0 = Some n0 /\ nth_error noise k = Some n /\ nth_error noise (S k) = Some n' /\
    n' == n + theta * (mu - n) + z' /\
    (exists a0 z0, nth_error l 0 = Some (a0, z0) /\ n0 == if start then mu else z0) /\
    n == mu + (1 - theta) ^ Z.of_nat k * (n0 - mu) + filtered (1 - theta) (map snd (firstn k (tl l))).
Proof.
  cbn zeta. intros E E'. destruct l as [|[a0 z0] l]; [destruct k; discriminate|].
  cbn [ou_calls additive_ou]. set (x := if start then mu else z0). destruct (ou_calls mu theta start (Some x) l) as [s2 us] eqn:R.
  pose proof (calls_from mu theta start l x) as C. rewrite R in C. cbn [snd] in C.
  change (nth_error l k = Some (a', z')) in E'. unfold noises. cbn [combine map snd fst nth_error tl].
  destruct (C k a' z' E') as (n' & N1 & N2). destruct k as [|k].
  - exists (a0 + x - a0), (a0 + x - a0), n'. repeat split; auto.
    + rewrite N2. destruct l as [|[a1 z1] l]; [discriminate|]. cbn in E'. injection E' as -> ->. cbn [firstn map snd filtered length].
      rewrite pow_S. change (Z.of_nat 0) with 0%Z. simpl. ring.
    + exists a0, z0. split; [reflexivity|]. fold x. ring.
    + cbn [firstn map filtered]. change (Z.of_nat 0) with 0%Z. simpl. ring.
  - change (nth_error l k = Some (a, z)) in E. destruct (C k a z E) as (n & M1 & M2).
    exists (a0 + x - a0), n, n'. repeat split; auto.
    + rewrite N2, M2, (pow_S _ (S k)).
      assert (F : filtered (1 - theta) (map snd (firstn (S (S k)) l)) == (1 - theta) * filtered (1 - theta) (map snd (firstn (S k) l)) + z').
      { clear - E'. revert k E'. induction l as [|[b c] l IH]; intros k E'; [discriminate|]. cbn in E'. destruct k as [|k].
        - destruct l as [|[b1 c1] l]; [discriminate|]. cbn in E'. injection E' as -> ->. cbn [firstn map snd filtered length].
          rewrite pow_S. change (Z.of_nat 0) with 0%Z. simpl. ring.
        - rewrite (firstn_cons (S (S k))), (firstn_cons (S k)). cbn [map snd filtered]. rewrite (IH k E').
          assert (L1 : length (map snd (firstn (S (S k)) l)) = S (S k)).
          { rewrite map_length, firstn_length. assert (S k < length l)%nat by (apply nth_error_Some; congruence). lia. }
          assert (L2 : length (map snd (firstn (S k) l)) = S k).
          { rewrite map_length, firstn_length. assert (S k < length l)%nat by (apply nth_error_Some; congruence). lia. }
          rewrite L1, L2, (pow_S _ (S k)). ring. }
      rewrite F. ring.
    + exists a0, z0. split; [reflexivity|]. fold x. ring.
    + rewrite M2. replace (a0 + x - a0 - mu) with (a0 + x - a0 - mu) by reflexivity. assert (X : a0 + x - a0 == x) by ring. rewrite X. reflexivity.
Qed.

(** The noise environment [i] gets in round [r]. *)
Definition env_noise (rounds : list (list (Q * Q))) (uss : list (list Q)) (r i : nat) : option Q :=
  match nth_error rounds r, nth_error uss r with Some l, Some us => nth_error (noises l us) i | _, _ => None end.
(** The claim: with several environments acted on together, the noise of each environment is such a process: it moves by
    theta (mu - x) plus the sample drawn for that environment. *)
Definition own_process (mu theta : Q) (start : bool) (rounds : list (list (Q * Q))) : Prop :=
  forall r i n n' l' a' z', env_noise rounds (snd (ou_rounds mu theta start None rounds)) r i = Some n ->
    env_noise rounds (snd (ou_rounds mu theta start None rounds)) (S r) i = Some n' ->
    nth_error rounds (S r) = Some l' -> nth_error l' i = Some (a', z') ->
    n' == n + theta * (mu - n) + z'.

Theorem C92_own_process_refuted :
  exists mu theta rounds, 0 < theta /\ theta < 1 /\ Forall (fun r => length r = 2%nat) rounds /\ ~ own_process mu theta true rounds.
Proof.
  exists 0, (1 # 2), [[(0, 0); (0, 1)]; [(0, 0); (0, 0)]]. repeat split; [repeat constructor|].
  intros H. specialize (H 0%nat 0%nat 0 (4 # 8) [(0, 0); (0, 0)] 0 0).
  assert (X : 4 # 8 == 0 + (1 # 2) * (0 - 0) + 0); [|revert X; vm_compute; discriminate].
  apply H; vm_compute; reflexivity.
Qed.

Lemma calls_app mu th st : forall l1 s l2, ou_calls mu th st s (l1 ++ l2) =
  (let (s1, us1) := ou_calls mu th st s l1 in let (s2, us2) := ou_calls mu th st s1 l2 in (s2, us1 ++ us2)).
Proof.
  induction l1 as [|[a z] l1 IH]; intros s l2; cbn [app ou_calls]; [destruct (ou_calls mu th st s l2); reflexivity|].
  destruct (additive_ou mu th st s a z) as [s1 u]. rewrite IH. destruct (ou_calls mu th st s1 l1) as [s2 us]. destruct (ou_calls mu th st s2 l2). reflexivity.
Qed.
Lemma calls_state mu th st : forall l s k a z, nth_error l k = Some (a, z) -> S k = length l ->
  exists x, fst (ou_calls mu th st s l) = Some x /\ nth_error (noises l (snd (ou_calls mu th st s l))) k = Some (a + x - a).
Proof.
  induction l as [|[a0 z0] l IH]; intros s k a z E L; [destruct k; discriminate|].
  cbn [ou_calls]. unfold additive_ou. set (x0 := match s with None => _ | Some _ => _ end).
  destruct l as [|p l].
  - cbn in L. assert (k = 0)%nat by lia. subst k. cbn in E. injection E as -> ->. exists x0. cbn. auto.
  - destruct k as [|k]; [cbn in L; lia|]. cbn in E. destruct (IH (Some x0) k a z E) as (x & X1 & X2); [cbn in L |- *; lia|].
    destruct (ou_calls mu th st (Some x0) (p :: l)) as [s2 us]. exists x. cbn in *. auto.
Qed.

Lemma noises_app (l1 l2 : list (Q * Q)) us1 us2 : length us1 = length l1 -> noises (l1 ++ l2) (us1 ++ us2) = noises l1 us1 ++ noises l2 us2.
Proof.
  intros L. unfold noises. rewrite <- map_app. f_equal. revert us1 L.
  induction l1 as [|p l IH]; intros us1 L; destruct us1 as [|u us1]; try discriminate; [reflexivity|]. cbn. f_equal. apply IH. cbn in L. lia.
Qed.
Lemma stride mu theta start s (before : list (Q * Q)) a z (others : list (Q * Q)) a' z' after :
  let l := before ++ (a, z) :: others ++ (a', z') :: after in
  let noise := noises l (snd (ou_calls mu theta start s l)) in
  exists n n', nth_error noise (length before) = Some n /\ nth_error noise (length before + S (length others)) = Some n' /\
    n' == mu + (1 - theta) ^ Z.of_nat (S (length others)) * (n - mu) + filtered (1 - theta) (map snd others ++ [z']).
Proof.
  cbn zeta. replace (before ++ (a, z) :: others ++ (a', z') :: after) with ((before ++ [(a, z)]) ++ (others ++ (a', z') :: after)) by (rewrite <- app_assoc; reflexivity).
  rewrite calls_app.
  destruct (calls_state mu theta start (before ++ [(a, z)]) s (length before) a z) as (x & X1 & X2).
  { rewrite nth_error_app2, Nat.sub_diag by lia. reflexivity. } { rewrite app_length. cbn. lia. }
  pose proof (calls_length mu theta start (before ++ [(a, z)]) s) as L.
  destruct (ou_calls mu theta start s (before ++ [(a, z)])) as [s1 us1]. cbn [fst snd] in *. subst s1.
  destruct (calls_from mu theta start (others ++ (a', z') :: after) x (length others) a' z') as (n' & N1 & N2).
  { rewrite nth_error_app2, Nat.sub_diag by lia. reflexivity. }
  destruct (ou_calls mu theta start (Some x) (others ++ (a', z') :: after)) as [s2 us2]. cbn [snd] in *.
  assert (NL : length (noises (before ++ [(a, z)]) us1) = S (length before)).
  { unfold noises. rewrite map_length, combine_length, L, app_length. cbn. lia. }
  exists (a + x - a), n'. rewrite noises_app by exact L. split; [rewrite nth_error_app1 by lia; exact X2|]. split.
  - rewrite nth_error_app2 by lia. replace (length before + S (length others) - _)%nat with (length others) by lia. exact N1.
  - rewrite N2. assert (F : firstn (S (length others)) (others ++ (a', z') :: after) = others ++ [(a', z')]).
    { replace (S (length others)) with (length others + 1)%nat by lia. rewrite firstn_app_2. reflexivity. }
    rewrite F, map_app. cbn [map snd]. assert (X : a + x - a == x) by ring. rewrite X. reflexivity.
Qed.


Lemma rounds_at mu th st : forall (rounds : list (list (Q * Q))) s r l l', nth_error rounds r = Some l -> nth_error rounds (S r) = Some l' ->
  exists s0, let uss := snd (ou_rounds mu th st s rounds) in nth_error uss r = Some (snd (ou_calls mu th st s0 l)) /\
    nth_error uss (S r) = Some (snd (ou_calls mu th st (fst (ou_calls mu th st s0 l)) l')).
Proof.
  induction rounds as [|l0 rs IH]; intros s r l l' E E'; [destruct r; discriminate|]. cbn [ou_rounds].
  destruct (ou_calls mu th st s l0) as [s1 us] eqn:R1. destruct r as [|r].
  - cbn in E, E'. injection E as ->. exists s. rewrite R1. destruct rs as [|l1 rs]; [discriminate|]. cbn in E'. injection E' as ->.
    cbn [ou_rounds fst snd]. destruct (ou_calls mu th st s1 l') as [s2 us2]. destruct (ou_rounds mu th st s2 rs). split; reflexivity.
  - destruct (IH s1 r l l' E E') as (s0 & X1 & X2). exists s0. destruct (ou_rounds mu th st s1 rs). split; assumption.
Qed.

(** What does hold with [N] environments acted on together (here N - 1 = the number of environments after this one in the one round and
    before it in the next): the noise of an environment goes through [N] steps of the process between two of its own actions, those drawn
    for the others included, so its correlation over one round is (1 - theta)^N instead of 1 - theta. *)
Theorem C92_batch_partial mu theta start rounds r b1 a z a1 b2 a' z' a2 :
  nth_error rounds r = Some (b1 ++ (a, z) :: a1) -> nth_error rounds (S r) = Some (b2 ++ (a', z') :: a2) -> length b1 = length b2 ->
  let uss := snd (ou_rounds mu theta start None rounds) in
  exists n n', env_noise rounds uss r (length b1) = Some n /\ env_noise rounds uss (S r) (length b1) = Some n' /\
    n' == mu + (1 - theta) ^ Z.of_nat (S (length a1 + length b2)) * (n - mu) + filtered (1 - theta) (map snd (a1 ++ b2) ++ [z']).
Proof.
  intros E E' L. cbn zeta. destruct (rounds_at mu theta start rounds None r _ _ E E') as (s0 & X1 & X2). unfold env_noise. rewrite E, E', X1, X2.
  destruct (stride mu theta start s0 b1 a z (a1 ++ b2) a' z' a2) as (n & n' & N1 & N2 & N3).
  assert (A : b1 ++ (a, z) :: (a1 ++ b2) ++ (a', z') :: a2 = (b1 ++ (a, z) :: a1) ++ (b2 ++ (a', z') :: a2)).
  { rewrite <- !app_assoc. cbn [app]. rewrite <- ?app_assoc. reflexivity. }
  cbn zeta in N1, N2. rewrite A in N1, N2. clear A.
  rewrite calls_app in N1, N2.
  pose proof (calls_length mu theta start (b1 ++ (a, z) :: a1) s0) as L1.
  destruct (ou_calls mu theta start s0 (b1 ++ (a, z) :: a1)) as [s1 us1]. cbn [fst snd] in *.
  pose proof (calls_length mu theta start (b2 ++ (a', z') :: a2) s1) as L2.
  destruct (ou_calls mu theta start s1 (b2 ++ (a', z') :: a2)) as [s2 us2]. cbn [snd] in *.
  rewrite noises_app in N1, N2 by exact L1.
  assert (NL : length (noises (b1 ++ (a, z) :: a1) us1) = (length b1 + S (length a1))%nat).
  { unfold noises. rewrite map_length, combine_length, L1, app_length. cbn. lia. }
  exists n, n'. rewrite nth_error_app1 in N1 by lia. split; [exact N1|].
  rewrite app_length in N2, N3. rewrite nth_error_app2 in N2 by lia.
  replace (length b1 + S (length a1 + length b2) - length (noises (b1 ++ (a, z) :: a1) us1))%nat with (length b1) in N2 by lia.
  split; [exact N2|exact N3].
Qed.

(** With one environment the claim holds. *)
Theorem C92_own_process_partial mu theta start rounds : Forall (fun r => length r = 1%nat) rounds -> own_process mu theta start rounds.
Proof.
  intros F r i n n' l' a' z' E E' El Ea.
  assert (L1 : length l' = 1%nat) by (rewrite Forall_forall in F; apply F; eapply nth_error_In; eauto).
  destruct l' as [|p [|]]; try discriminate. destruct i as [|i]; [|destruct i; discriminate]. cbn in Ea. injection Ea as ->.
  unfold env_noise at 1 in E. destruct (nth_error rounds r) as [l|] eqn:R; [|discriminate].
  assert (L2 : length l = 1%nat) by (rewrite Forall_forall in F; apply F; eapply nth_error_In; eauto).
  destruct l as [|[a z] [|]]; try discriminate.
  destruct (C92_batch_partial mu theta start rounds r [] a z [] [] a' z' [] R El eq_refl) as (m & m' & M1 & M2 & M3).
  unfold env_noise at 1 in M1. rewrite R in M1. cbn [length] in M1, M2. rewrite E in M1. rewrite E' in M2. injection M1 as <-. injection M2 as <-.
  rewrite M3. cbn [length map app filtered Nat.add]. rewrite pow_S. change (Z.of_nat 0) with 0%Z. simpl. ring.
Qed.

(** The start distribution is the stationary one: a variable of standard deviation sigma_stable, moved by one step with an independent
    sample of standard deviation sigma, has variance (1 - theta)^2 sigma_stable^2 + sigma^2, the same again. *)
Theorem C92_stationary (theta sigma : R) : (0 < theta < 2)%R ->
  ((1 - theta) * (1 - theta) * (sigma_stable theta sigma * sigma_stable theta sigma) + sigma * sigma = sigma_stable theta sigma * sigma_stable theta sigma)%R.
Proof.
  intros [H1 H2]. unfold sigma_stable. assert (P : (0 < 2 * theta - theta * theta)%R) by nra.
  assert (S : (sqrt (2 * theta - theta * theta) * sqrt (2 * theta - theta * theta) = 2 * theta - theta * theta)%R) by (apply sqrt_sqrt; lra).
  assert (N : (sqrt (2 * theta - theta * theta) <> 0)%R) by (apply Rgt_not_eq, sqrt_lt_R0, P).
  set (q := sqrt (2 * theta - theta * theta)) in *. clearbody q.
  replace ((sigma / q * (sigma / q))%R) with ((sigma * sigma / (2 * theta - theta * theta))%R) by (rewrite <- S; field; exact N).
  field. lra.
Qed.

(** Two environments, theta = 1/4, mu = 0, starting at mu: the noises of two rounds. *)
Example C92_ex :
  map (map Qred) (snd (ou_rounds 0 (1 # 4) true None [[(10, 0); (20, 1)]; [(10, 0); (20, 0)]])) = [[10; 21]; [43 # 4; 329 # 16]].
Proof. vm_compute. reflexivity. Qed.
Print Assumptions C92_process_partial.
Print Assumptions C92_own_process_refuted.
Print Assumptions C92_batch_partial.
Print Assumptions C92_own_process_partial.
Print Assumptions C92_stationary.
