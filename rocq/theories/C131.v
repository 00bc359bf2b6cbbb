(** C131: the schedules of epsilon and of beta computed in IEEE binary64: always probabilities, monotone, exact at the
    ends where they are, and close to the exact schedule. *)
From Coq Require Import Reals Lra Lia Psatz ZArith.
From Flocq Require Import Core BinarySingleNaN.
From Verif Require Import Base M_FloatTree P_FloatB64 M_FloatSchedule P_FloatSchedule.
Open Scope R_scope.

(** A finite binary64 number between 0 and 1. *)
Definition probability (x : binary64) : Prop := is_finite x = true /\ 0 <= B2R x <= 1.

(** For all start and end values that pass the assertions, all positive numbers of decay steps up to 2^53, and all times:
    epsilon is a probability; it is the start value at time 0 and the end value after the decay; in between it deviates
    from the exact line by at most 5 * 2^-53. *)
Theorem C131_epsilon : forall s e n t, probability s -> probability e -> (0 < n <= 2 ^ 53)%Z -> (0 <= t)%Z ->
  exists v, linear64 s e n t = Ok v /\ probability v
    /\ (t = 0%Z -> B2R v = B2R s)
    /\ ((n < t)%Z -> v = e)
    /\ ((t <= n)%Z -> Rabs (B2R v - (B2R s + (B2R e - B2R s) * (IZR t / IZR n))) <= 5 * / 2 ^ 53).
Proof.
  intros s e n t [Fs Hs] [Fe He] Hn Ht. destruct (Z.lt_ge_cases n t) as [L|L].
  - exists e. unfold linear64. replace (n <? t)%Z with true by (symmetry; apply Z.ltb_lt; exact L).
    split; [reflexivity|]. split; [split; assumption|]. split; [lia|]. split; [reflexivity|lia].
  - destruct (linear64_val s e n Fs Fe Hs He Hn t (conj Ht L)) as (v & E & Fv & Ev). exists v. split; [exact E|].
    split; [|split; [|split]].
    + split; [exact Fv|]. rewrite Ev. destruct (Rle_or_lt (B2R e) (B2R s)) as [H|H].
      * pose proof (val_down s e n He Hn t (conj Ht L) H). lra.
      * pose proof (val_up s e n Hs He Hn t (conj Ht L) (Rlt_le _ _ H)). lra.
    + intros ->. rewrite Ev. apply val_0.
    + lia.
    + intros _. rewrite Ev. apply (val_error s e n Hs He Hn t (conj Ht L)).
Qed.

(** During the decay epsilon never moves the wrong way: it is monotone in time and on the proper side of the start. *)
Theorem C131_epsilon_monotone : forall s e n t t' v v', probability s -> probability e -> (0 < n <= 2 ^ 53)%Z -> (0 <= t <= t')%Z -> (t' <= n)%Z ->
  linear64 s e n t = Ok v -> linear64 s e n t' = Ok v' ->
  (B2R e <= B2R s -> B2R v' <= B2R v <= B2R s) /\ (B2R s <= B2R e -> B2R s <= B2R v <= B2R v').
Proof.
  intros s e n t t' v v' [Fs Hs] [Fe He] Hn Ht Hn' E E'.
  destruct (linear64_val s e n Fs Fe Hs He Hn t ltac:(lia)) as (w & Ew & _ & Vw). rewrite E in Ew. injection Ew as <-.
  destruct (linear64_val s e n Fs Fe Hs He Hn t' ltac:(lia)) as (w & Ew & _ & Vw'). rewrite E' in Ew. injection Ew as <-.
  rewrite Vw, Vw'. split; intros H.
  - split; [apply (val_mono_down s e n He Hn t t' Ht Hn' H)|apply (val_down s e n He Hn t ltac:(lia) H)].
  - split; [apply (val_up s e n Hs He Hn t ltac:(lia) H)|apply (val_mono_up s e n He Hn t t' Ht Hn' H)].
Qed.

(** Epsilon 1 always explores, epsilon 0 never, whatever the generator's outcome in [0, 1). *)
Theorem C131_certain : forall eps u, probability eps -> is_finite u = true -> 0 <= B2R u < 1 ->
  (B2R eps = 1 -> explores64 eps u = true) /\ (B2R eps = 0 -> explores64 eps u = false).
Proof.
  intros eps u [Fe He] Fu Hu. unfold explores64. rewrite (Bltb_correct 53 1024 u eps Fu Fe). split; intros ->.
  - apply Rlt_bool_true. lra.
  - apply Rlt_bool_false. lra.
Qed.

(** Beta, for every initial value in [0, 1], number of steps up to 2^53 and number k of samples drawn: it never
    decreases, is at most 1, and deviates from min(1, beta0 + k (1 - beta0) / betasteps) by at most k * 2^-51. *)
Theorem C131_beta : forall b0 n k, probability b0 -> (0 < n <= 2 ^ 53)%Z ->
  exists b b', beta64 b0 (Some n) k = Ok b /\ beta64 b0 (Some n) (S k) = Ok b' /\ probability b /\ B2R b <= B2R b' <= 1
    /\ Rabs (B2R b - Rmin 1 (B2R b0 + INR k * ((1 - B2R b0) / IZR n))) <= INR k * (4 * / 2 ^ 53).
Proof.
  intros b0 n k [Fb Hb] Hn. destruct (beta_add_ok b0 n Fb Hb Hn) as (add & E & Fa & Ha & Ea). unfold beta64. rewrite E. cbn [rbind].
  eexists _, _. split; [reflexivity|]. split; [reflexivity|]. split; [apply (beta_fin b0 add Fb Fa Hb Ha)|]. split; [apply (beta_step b0 add Fb Fa Hb Ha)|].
  apply beta_error; try assumption. assert (0 < IZR n) by (apply IZR_lt; lia). apply Rmult_le_pos; [lra|]. apply Rlt_le, Rinv_0_lt_compat. assumption.
Qed.

(** Once 1, beta stays 1. *)
Theorem C131_beta_stays : forall b0 n k b b', probability b0 -> (0 < n <= 2 ^ 53)%Z ->
  beta64 b0 (Some n) k = Ok b -> beta64 b0 (Some n) (S k) = Ok b' -> B2R b = 1 -> B2R b' = 1.
Proof.
  intros b0 n k b b' Pb Hn E E' H. destruct (C131_beta b0 n k Pb Hn) as (c & c' & Ec & Ec' & _ & Hc & _).
  rewrite E in Ec. rewrite E' in Ec'. injection Ec as <-. injection Ec' as <-. lra.
Qed.

(** Cases: decay from 1.0 to 0.1, and beta from 0.4. *)
Notation f0_1 := (@B754_finite 53 1024 false 7205759403792794 (-56) eq_refl).
Notation f0_4 := (@B754_finite 53 1024 false 7205759403792794 (-54) eq_refl).
Notation f1_0 := (@B754_finite 53 1024 false 4503599627370496 (-52) eq_refl).
Lemma prob_0_1 : probability f0_1. Proof. split; [reflexivity|]. cbn [B2R]. unfold F2R. cbn [Fnum Fexp cond_Zopp bpow]. simpl. lra. Qed.
Lemma prob_0_4 : probability f0_4. Proof. split; [reflexivity|]. cbn [B2R]. unfold F2R. cbn [Fnum Fexp cond_Zopp bpow]. simpl. lra. Qed.
Lemma prob_1_0 : probability f1_0. Proof. split; [reflexivity|]. cbn [B2R]. unfold F2R. cbn [Fnum Fexp cond_Zopp bpow]. simpl. lra. Qed.
Example C131_case : rmap B2SF (linear64 f1_0 f0_1 1000000 500000) = Ok (SpecFloat.S754_finite false 4953959590107546 (-53)).
Proof. vm_compute. reflexivity. Qed.

Print Assumptions C131_epsilon.
Print Assumptions C131_epsilon_monotone.
Print Assumptions C131_certain.
Print Assumptions C131_beta.
Print Assumptions C131_beta_stays.
