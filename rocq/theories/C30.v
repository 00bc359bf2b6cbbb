(** C30: epsilon schedules and action noise. *)
From Coq Require Import Qpower Lqa.
From Verif Require Import Base P_Base M_Explorers P_Explorers.
Open Scope Q_scope.

Definition between (a b x : Q) : Prop := (a <= x <= b) \/ (b <= x <= a).

(** The action is the greedy one unless the random number is below epsilon. *)
Theorem C30_select {A} (epsilon : nat -> result Q) (t : nat) (u : Q) (random greedy : unit -> A) eps : epsilon t = Ok eps ->
  exists a, select_action epsilon t u random greedy = Ok (eps, a) /\ (u < eps -> a = random tt) /\ (eps <= u -> a = greedy tt).
Proof.
  intros H. unfold select_action. rewrite H. cbn [rbind]. eexists. split; [reflexivity|]. unfold select_action_epsilon_greedily.
  split; intros Hu; [apply Qltb_iff in Hu|apply Qltb_false in Hu]; rewrite Hu; reflexivity.
Qed.

(** Linear decay, decay_steps >= 1. *)
Theorem C30_linear (s e : Q) (n : nat) : (1 <= n)%nat ->
  exists f, (forall t, linear_epsilon s e n t = Ok (f t)) /\
    f 0%nat == s /\ (forall t, (n <= t)%nat -> f t == e) /\ (forall t, between s e (f t)) /\
    (forall t t', (t <= t')%nat -> (s <= e -> f t <= f t') /\ (e <= s -> f t' <= f t)) /\
    (forall t, (t <= n)%nat -> f t - s == (e - s) * (inject_Z (Z.of_nat t) / inject_Z (Z.of_nat n))).
Proof.
  intros Hn. exists (fun t => if (n <? t)%nat then e else s + (e - s) * frac t n).
  assert (G : forall t, (t <= n)%nat -> 0 <= frac t n <= 1). { intros t Ht. pose proof (frac_le 0 t n Hn ltac:(lia)) as H1. pose proof (frac_le t n n Hn Ht) as H2. rewrite frac_0 in H1. rewrite (frac_1 n Hn) in H2. split; assumption. }
  split; [|split; [|split; [|split; [|split]]]].
  - intros t. unfold linear_epsilon. destruct (n <? t)%nat; [reflexivity|]. destruct (Nat.eqb_spec n 0); [lia|]. reflexivity.
  - destruct (Nat.ltb_spec n 0); [lia|]. rewrite frac_0. ring.
  - intros t Ht. destruct (Nat.ltb_spec n t); [reflexivity|]. assert (t = n) as -> by lia. rewrite (frac_1 n Hn). ring.
  - intros t. unfold between. destruct (Nat.ltb_spec n t); [destruct (Qlt_le_dec s e); [left|right]; split; lra|]. specialize (G t ltac:(lia)).
    destruct (Qlt_le_dec s e); [left|right]; split; nra.
  - intros t t' Ht. destruct (Nat.ltb_spec n t), (Nat.ltb_spec n t'); try lia; try (split; intros; lra).
    + specialize (G t ltac:(lia)). split; intros; nra.
    + pose proof (frac_le t t' n Hn Ht). specialize (G t ltac:(lia)). split; intros; nra.
  - intros t Ht. destruct (Nat.ltb_spec n t); [lia|]. fold (frac t n). ring.
Qed.

(** decay_steps = 0 is accepted by the constructor but the first call, with t = 0, raises. *)
Theorem C30_linear_zero_steps (s e : Q) : (0 <= s <= 1 -> 0 <= e <= 1 -> linear_init s e 0 = Ok tt) /\ linear_epsilon s e 0 0 = Err ZeroDivisionError /\ (forall t, (1 <= t)%nat -> linear_epsilon s e 0 t = Ok e).
Proof.
  split; [|split; [reflexivity|]].
  - intros [H1 H2] [H3 H4]. unfold linear_init, unit_interval. apply Qle_bool_iff in H1, H2, H3, H4. rewrite H1, H2, H3, H4. reflexivity.
  - intros t Ht. unfold linear_epsilon. destruct (Nat.ltb_spec 0 t); [reflexivity|lia].
Qed.

(** Exponential decay: never below end, starts at start (if start >= end), does not increase, and equals end from some time on
    if end > 0. *)
Theorem C30_exponential (s e d : Q) : exponential_init s e d = Ok tt ->
  exists f, (forall t, exponential_epsilon s e d t = Ok (f t)) /\
    (forall t, e <= f t <= 1) /\ (e <= s -> f 0%nat == s) /\ (forall t t', (t <= t')%nat -> f t' <= f t) /\
    (forall t, e <= s * d ^ Z.of_nat t -> f t == s * d ^ Z.of_nat t) /\
    (0 < e -> exists T, forall t, (T <= t)%nat -> f t == e).
Proof.
  intros H. unfold exponential_init in H. destruct (unit_interval s) eqn:Es; [|discriminate]. destruct (unit_interval e) eqn:Ee; [|discriminate]. cbn [passert rbind] in H.
  destruct (Qltb 0 d && Qltb d 1)%bool eqn:Ed; [|discriminate]. unfold unit_interval in *. apply andb_true_iff in Es, Ee, Ed. destruct Es as [Es1 Es2], Ee as [Ee1 Ee2], Ed as [Ed1 Ed2].
  apply Qle_bool_iff in Es1, Es2, Ee1, Ee2. apply Qltb_iff in Ed1, Ed2. clear H. assert (Hd : 0 < d < 1) by (split; assumption).
  exists (fun t => Qmax (s * Qpower d (Z.of_nat t)) e). assert (P1 : forall t, Qpower d (Z.of_nat t) <= 1) by (intros t; pose proof (pow_mono d 0 t Hd ltac:(lia)) as P; cbn in P; lra).
  split; [reflexivity|]. split; [|split; [|split; [|split]]].
  - intros t. split; [apply max_ge_r|]. apply Q.max_lub; [|exact Ee2]. pose proof (pow_pos d t Ed1). specialize (P1 t). nra.
  - intros He. cbn [Z.of_nat Qpower]. rewrite Q.max_l; lra.
  - intros t t' Ht. apply Q.max_lub; [|apply max_ge_r]. eapply Qle_trans; [|apply max_ge_l]. pose proof (pow_mono d t t' Hd Ht). nra.
  - intros t Ht. apply Q.max_l. exact Ht.
  - intros He. destruct (pow_to_0 s e d Hd (conj Es1 Es2) He) as [T HT]. exists T. intros t Ht. apply Q.max_r. exact (HT t Ht).
Qed.

(** AdditiveGaussian: the action has the clipped components of greedy action plus noise: within the bounds, and exactly the
    sum where that is within the bounds. *)
Theorem C30_gaussian (low high : option Q) a noise i x z : (forall l h, low = Some l -> high = Some h -> l <= h) ->
  nth_error a i = Some x -> nth_error noise i = Some z ->
  exists y, nth_error (additive_gaussian low high a noise) i = Some y /\
    (forall l, low = Some l -> l <= y) /\ (forall h, high = Some h -> y <= h) /\
    ((forall l, low = Some l -> l <= x + z) -> (forall h, high = Some h -> x + z <= h) -> y == x + z).
Proof.
  intros H H1 H2. eexists. split; [exact (gaussian_nth low high a noise i x z H1 H2)|]. pose proof (clip_ok low high (x + z) H) as C.
  destruct low as [l|], high as [h|]; exact C.
Qed.

(** AdditiveOU: the noise starts at mu (or at a sample) and moves by theta (mu - x) plus the new sample; with start_with_mu
    and zero samples it stays at mu. *)
Theorem C30_ou (mu theta : Q) (b : bool) (a z : Q) :
  (exists n, additive_ou mu theta b None a z = (Some n, a + n) /\ n = if b then mu else z) /\
  (forall x, exists n, additive_ou mu theta b (Some x) a z = (Some n, a + n) /\ n - mu == (1 - theta) * (x - mu) + z).
Proof. split; [eexists; split; reflexivity|]. intros x. eexists. split; [reflexivity|]. ring. Qed.

Example C30_ex : map (fun t => rmap Qred (linear_epsilon 1 (1 # 10) 10 t)) [0; 5; 10; 20]%nat = [Ok 1; Ok (11 # 20); Ok (1 # 10); Ok (1 # 10)] /\
  map (fun t => rmap Qred (exponential_epsilon 1 (1 # 10) (1 # 2) t)) [0; 2; 4]%nat = [Ok 1; Ok (1 # 4); Ok (1 # 10)] /\
  exponential_init 1 (1 # 10) (1 # 2) = Ok tt /\
  rmap snd (select_action (linear_epsilon 1 (1 # 10) 10) 10 (1 # 20) (fun _ => 1%nat) (fun _ => 2%nat)) = Ok 1%nat /\
  rmap snd (select_action (linear_epsilon 1 (1 # 10) 10) 10 (1 # 10) (fun _ => 1%nat) (fun _ => 2%nat)) = Ok 2%nat /\
  map Qred (additive_gaussian (Some (-1)) (Some 1) [1 # 2; 1 # 2; 0] [1 # 4; 1; -2]) = [3 # 4; 1; -1].
Proof. vm_compute. repeat split. Qed.

Print Assumptions C30_select.
Print Assumptions C30_linear.
Print Assumptions C30_linear_zero_steps.
Print Assumptions C30_exponential.
Print Assumptions C30_gaussian.
Print Assumptions C30_ou.
