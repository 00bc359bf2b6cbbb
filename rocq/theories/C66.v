(** C66: restoring an EmpiricalNormalization. *)
From Coq Require Import Reals Lra.
From Verif Require Import Base P_Base M_EmpNorm S_EmpNorm P_EmpNorm C39.
Open Scope R_scope.

(** A normalizer that has already normalized something keeps using the old standard deviation after load_state_dict: its outputs differ
    from those of the normalizer that was saved.  (The same call with update=True would clear the cache.) *)
Theorem C66_load_refuted : forall eps, 0 < eps -> exists used saved x,
  let restored := load_state_dict (run_calls eps None None used) (state_dict (run_calls eps None None saved)) in
  state_dict restored = state_dict (run_calls eps None None saved) /\
  snd (forward eps None None restored x false) <> snd (forward eps None None (run_calls eps None None saved) x false).
Proof.
  intros eps He. exists [Forward [0] false], [Experience [0; 4]], [3]. cbn zeta. split; [reflexivity|].
  unfold run_calls. cbn [fold_left step fst forward std_inverse cached_std_inverse init mean var count map].
  unfold experience, t_var, t_mean. cbn. intros H. injection H as H.
  match type of H with ?m * / sqrt ?a = ?m * / sqrt ?b => assert (Eb : b = 4 + eps) by field; rewrite Eb in H; assert (Em : m = 1) by field; rewrite Em in H end.
  assert (A : / sqrt (1 + eps) = / sqrt (4 + eps)) by lra. apply (f_equal Rinv) in A. rewrite !Rinv_inv in A.
  apply sqrt_inj in A; lra.
Qed.

(** What holds: loading into a normalizer that has learned a batch, or has never been used, since it last normalized anything -- in particular a new one. *)
Theorem C66_load_partial eps until clip s d x update : cached_std_inverse s = None -> cached_std_inverse d = None \/ cached_std_inverse d = Some (/ sqrt (var d + eps)) ->
  let restored := load_state_dict s (state_dict d) in
  snd (forward eps until clip restored x update) = snd (forward eps until clip d x update) /\
  state_dict (fst (forward eps until clip restored x update)) = state_dict (fst (forward eps until clip d x update)).
Proof.
  intros Hs Hd. cbn zeta. unfold load_state_dict, state_dict. rewrite Hs. destruct d as [m v c k]. cbn [mean var count cached_std_inverse] in *.
  assert (G : forall s1 s2, (mean s1, var s1, count s1) = (mean s2, var s2, count s2) -> (cached_std_inverse s1 = None \/ cached_std_inverse s1 = Some (/ sqrt (var s1 + eps))) -> (cached_std_inverse s2 = None \/ cached_std_inverse s2 = Some (/ sqrt (var s2 + eps))) ->
    let f s := let '(s, inv) := std_inverse eps s in (s, let normalized := map (fun v => (v - mean s) * inv) x in match clip with Some c => map (clamp (- c) c) normalized | None => normalized end) in
    snd (f s1) = snd (f s2) /\ (mean (fst (f s1)), var (fst (f s1)), count (fst (f s1))) = (mean (fst (f s2)), var (fst (f s2)), count (fst (f s2)))).
  { intros [m1 v1 c1 k1] [m2 v2 c2 k2]. cbn [mean var count cached_std_inverse]. intros E. injection E as -> -> ->. intros [->| ->] [->| ->]; cbn; auto. }
  unfold forward. destruct update.
  - unfold experience. cbn [count mean var cached_std_inverse]. destruct (match until with Some u => (u <=? c)%nat | None => false end).
    + apply (G (mkN m v c None) (mkN m v c k)); auto.
    + destruct (length x =? 0)%nat; [apply (G (mkN m v c None) (mkN m v c k)); auto|]. cbn zeta. split; reflexivity.
  - apply (G (mkN m v c None) (mkN m v c k)); auto.
Qed.
(** Normalizers reached by calls meet the second hypothesis, and new ones the first. *)
Theorem C66_new_partial eps until clip saved x update :
  let d := run_calls eps until clip saved in let restored := load_state_dict init (state_dict d) in
  snd (forward eps until clip restored x update) = snd (forward eps until clip d x update) /\
  state_dict (fst (forward eps until clip restored x update)) = state_dict (fst (forward eps until clip d x update)).
Proof.
  cbn zeta. apply C66_load_partial; [reflexivity|]. pose proof (run_inv eps until clip saved init [] (inv_init eps)) as (_ & _ & _ & K). fold (run_calls eps until clip saved) in K.
  destruct (cached_std_inverse (run_calls eps until clip saved)) as [c|]; [right; f_equal; apply K; reflexivity|left; reflexivity].
Qed.
Example C66_ex : cached_std_inverse (run_calls 1 None None [Forward [3] false; Experience [1]]) = None /\ cached_std_inverse (run_calls 1 None None [Forward [3] false]) <> None.
Proof. cbn. split; [reflexivity|discriminate]. Qed.

Print Assumptions C66_load_refuted.
Print Assumptions C66_load_partial.
Print Assumptions C66_new_partial.
