(** C39: EmpiricalNormalization learns the statistics of the data it has seen. *)
From Coq Require Import Reals Lra Permutation.
From Verif Require Import Base P_Base M_EmpNorm S_EmpNorm P_EmpNorm.
Open Scope R_scope.

(** Calls of the user on a normalizer; [learned_from] is the batch a call asks to learn. *)
Inductive call := Experience (x : list R) | Forward (x : list R) (update : bool).
Definition learned_from (c : call) : list R := match c with Experience x => x | Forward x true => x | Forward x false => [] end.
Definition step eps until clip (s : norm) (c : call) : norm :=
  match c with Experience x => experience until s x | Forward x u => fst (forward eps until clip s x u) end.
Definition run_calls eps until clip (calls : list call) : norm := fold_left (step eps until clip) calls init.

Lemma after_nil until d : after until d [] = d.
Proof. unfold after. destruct (stopped until d); [reflexivity|apply app_nil_r]. Qed.
Lemma step_inv eps until clip s d c : inv eps s d -> inv eps (step eps until clip s c) (after until d (learned_from c)).
Proof.
  intros H. destruct c as [x|x u]; cbn [step learned_from]; [apply experience_inv; exact H|]. unfold forward.
  assert (H' : inv eps (if u then experience until s x else s) (after until d (if u then x else []))). { destruct u; [apply experience_inv; exact H|rewrite after_nil; exact H]. }
  destruct (std_inverse_inv eps _ _ H') as [H2 _]. destruct (std_inverse eps _) as [s' v]. cbn [fst] in *. exact H2.
Qed.
Lemma run_inv eps until clip calls : forall s d, inv eps s d -> inv eps (fold_left (step eps until clip) calls s) (fold_left (after until) (map learned_from calls) d).
Proof. induction calls as [|c calls IH]; intros s d H; [exact H|]. cbn [fold_left map]. apply IH. apply step_inv. exact H. Qed.
Lemma after_concat bs : forall d, fold_left (after None) bs d = d ++ concat bs.
Proof. induction bs as [|b bs IH]; intros d; cbn; [now rewrite app_nil_r|]. rewrite IH. unfold after, stopped. now rewrite app_assoc. Qed.
Lemma after_stop u bs : forall d, (u <= length d)%nat -> fold_left (after (Some u)) bs d = d.
Proof. induction bs as [|b bs IH]; intros d H; cbn; [reflexivity|]. unfold after at 2, stopped. destruct (Nat.leb_spec u (length d)); [apply IH; exact H|lia]. Qed.
Lemma after_learned u bs : forall d, fold_left (after (Some u)) bs d = learned u d bs.
Proof.
  induction bs as [|b bs IH]; intros d; cbn [fold_left learned]; [reflexivity|]. unfold after at 2, stopped. destruct (Nat.leb_spec u (length d)); [now apply after_stop|apply IH].
Qed.

(** Without [until]: mean, variance and count are those of all the data, however it was split into batches. *)
Theorem C39_statistics eps clip calls : let s := run_calls eps None clip calls in let data := concat (map learned_from calls) in
  count s = length data /\ (data <> [] -> is_mean data (mean s) /\ is_variance data (var s)).
Proof.
  cbn zeta. pose proof (run_inv eps None clip calls init [] (inv_init eps)) as (C & _ & E & _). rewrite after_concat in C, E. split; [exact C|]. intros H. apply stats_spec; [exact H|]. apply E. exact H.
Qed.

(** With [until]: those of the batches learned until that many samples were reached. *)
Theorem C39_until eps clip u calls : let s := run_calls eps (Some u) clip calls in let data := learned u [] (map learned_from calls) in
  count s = length data /\ (data <> [] -> is_mean data (mean s) /\ is_variance data (var s)).
Proof.
  cbn zeta. pose proof (run_inv eps (Some u) clip calls init [] (inv_init eps)) as (C & _ & E & _). rewrite after_learned in C, E. split; [exact C|]. intros H. apply stats_spec; [exact H|]. apply E. exact H.
Qed.
(** From then on nothing changes. *)
Theorem C39_frozen eps clip u calls more : (u <= count (run_calls eps (Some u) clip calls))%nat ->
  state_dict (run_calls eps (Some u) clip (calls ++ more)) = state_dict (run_calls eps (Some u) clip calls).
Proof.
  unfold run_calls. rewrite fold_left_app. generalize (fold_left (step eps (Some u) clip) calls init). induction more as [|c more IH]; intros s H; [reflexivity|]. cbn [fold_left].
  assert (E : state_dict (step eps (Some u) clip s c) = state_dict s).
  { assert (X : forall x, experience (Some u) s x = s) by (intros x; unfold experience; destruct (Nat.leb_spec u (count s)); [reflexivity|lia]).
    destruct c as [x|x up]; cbn [step]; [now rewrite X|]. unfold forward. assert (Y : (if up then experience (Some u) s x else s) = s) by (destruct up; auto). rewrite Y. unfold std_inverse. destruct (cached_std_inverse s); reflexivity. }
  rewrite IH; [exact E|]. unfold state_dict in E. injection E as _ _ E. rewrite E. exact H.
Qed.

(** Order and batching do not matter. *)
Lemma sum_perm l l' : Permutation l l' -> sum_over l = sum_over l'.
Proof. intros P. induction P; cbn; try lra; unfold sum_over in *; congruence || lra. Qed.
Theorem C39_order eps clip clip' calls calls' : Permutation (concat (map learned_from calls)) (concat (map learned_from calls')) ->
  state_dict (run_calls eps None clip calls) = state_dict (run_calls eps None clip' calls').
Proof.
  intros P. unfold state_dict, run_calls. pose proof (run_inv eps None clip calls init [] (inv_init eps)) as (C & Z & E & _). pose proof (run_inv eps None clip' calls' init [] (inv_init eps)) as (C' & Z' & E' & _).
  rewrite after_concat in C, Z, E. rewrite after_concat in C', Z', E'. cbn [app] in *. rewrite C, C', (Permutation_length P).
  destruct (concat (map learned_from calls)) as [|a l] eqn:D.
  - apply Permutation_nil in P. destruct (Z eq_refl) as [-> ->]. destruct (Z' P) as [-> ->]. reflexivity.
  - destruct (concat (map learned_from calls')) as [|b l'] eqn:D'; [symmetry in P; apply Permutation_nil in P; discriminate|].
    destruct (E ltac:(discriminate)) as [-> ->]. destruct (E' ltac:(discriminate)) as [-> ->]. unfold sumsq. rewrite (sum_perm _ _ P), (sum_perm _ _ (Permutation_map (fun x => x * x) P)), (Permutation_length P). reflexivity.
Qed.

(** The output of forward: every value minus the mean, over the square root of variance + eps, clipped; and [inverse] undoes it when
    nothing is clipped. *)
Theorem C39_forward eps until clip calls x update : let '(s, y) := forward eps until clip (run_calls eps until clip calls) x update in
  y = map (fun v => let n := (v - mean s) / sqrt (var s + eps) in match clip with Some c => Rmin (Rmax n (- c)) c | None => n end) x /\
  (0 < eps -> clip = None -> inverse eps s y = x).
Proof.
  pose proof (run_inv eps until clip calls init [] (inv_init eps)) as H. fold (run_calls eps until clip calls) in H. unfold forward. set (s1 := if update then _ else _).
  assert (H1 : exists d, inv eps s1 d). { unfold s1. destruct update; eexists; [apply experience_inv; exact H|exact H]. }
  destruct H1 as (d & H1). destruct (std_inverse_inv eps s1 d H1) as (H2 & Ev & Em & Evar). pose proof (inv_var eps s1 d H1) as Hv. destruct (std_inverse eps s1) as [s2 v]. cbn [fst snd] in *.
  split.
  - destruct clip as [c|]; [rewrite map_map|]; apply map_ext; intros a; unfold clamp, Rdiv; rewrite Ev, Evar; reflexivity.
  - intros He ->. unfold inverse. rewrite map_map. rewrite <- (map_id x) at 2. apply map_ext. intros a. rewrite Ev, Evar. field. apply Rgt_not_eq. apply sqrt_lt_R0. lra.
Qed.

(** Three calls that learn 1, 3 / nothing / 5: mean 3, variance 8/3, count 3. *)
Example C39_ex : let s := run_calls 1 None None [Experience [1; 3]; Forward [7] false; Forward [5] true] in mean s = 3 /\ var s = 8 / 3 /\ count s = 3%nat.
Proof. cbn. unfold experience, t_mean, t_var, t_mean. cbn. repeat split; lra. Qed.
Example C39_until_ex : learned 2 [] [[1]; [2; 3]; [4]] = [1; 2; 3].
Proof. reflexivity. Qed.

Print Assumptions C39_statistics.
Print Assumptions C39_until.
Print Assumptions C39_frozen.
Print Assumptions C39_order.
Print Assumptions C39_forward.
