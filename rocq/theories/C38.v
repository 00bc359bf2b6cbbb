(** C38: the categorical projection. *)
From Coq Require Import QArith Qminmax Qround Qabs Lqa.
From Verif Require Import Base P_Base M_ReplayBuffer M_Batch S_Batch M_ActionValue M_Categorical S_Targets S_Categorical P_Targets P_Categorical.
Open Scope nat_scope.

(** Values [y] with probabilities [probs] projected onto n >= 2 evenly spaced atoms: every value is moved into the range of the atoms (giving
    [c]) and its probability is shared between the neighbouring atoms by linear interpolation; total and mean (of c) are kept. *)
Theorem C38_projection (v_min delta : Q) (n : nat) (y probs : list Q) : 2 <= n -> (0 < delta)%Q -> length y = n -> length probs = n ->
  exists p c, apply_categorical_projection y probs (atoms v_min delta n) = Ok p /\ length p = n /\
    Forall2 (nearest_in v_min (v_min + delta * inject_Z (Z.of_nat (n - 1)))) y c /\
    (forall j, j < n -> (nth j p 0 == mean_of probs (map (fun c => share delta (c - nth j (atoms v_min delta n) 0)) c))%Q) /\
    (total p == total probs)%Q /\ (mean_of p (atoms v_min delta n) == mean_of probs c)%Q /\
    (Forall (fun q => (0 <= q)%Q) probs -> Forall (fun q => (0 <= q)%Q) p).
Proof. exact (project_spec v_min delta n y probs). Qed.

Lemma mean_ext probs : forall l l', Forall2 (fun x c => (c == x)%Q) l l' -> (mean_of probs l' == mean_of probs l)%Q.
Proof. induction probs as [|p ps IH]; intros l l' F; destruct F as [|x c l l' H F]; cbn [mean_of]; try reflexivity. rewrite H, (IH _ _ F). reflexivity. Qed.
Lemma nearest_within lo hi y c : Forall (fun x => (lo <= x <= hi)%Q) y -> Forall2 (nearest_in lo hi) y c -> Forall2 (fun x c => (c == x)%Q) y c.
Proof. intros H F. induction F as [|x c y cs HN F IH]; constructor; inversion H; subst; [apply HN; assumption|auto]. Qed.

(** Values within the range of the atoms: the mean is kept. *)
Theorem C38_mean_kept (v_min delta : Q) (n : nat) (y probs : list Q) : 2 <= n -> (0 < delta)%Q -> length y = n -> length probs = n ->
  Forall (fun x => (v_min <= x <= v_min + delta * inject_Z (Z.of_nat (n - 1)))%Q) y ->
  exists p, apply_categorical_projection y probs (atoms v_min delta n) = Ok p /\ (mean_of p (atoms v_min delta n) == mean_of probs y)%Q.
Proof.
  intros Hn Hd Ly Lp HY. destruct (project_spec v_min delta n y probs Hn Hd Ly Lp) as (p & c & E & _ & F & _ & _ & M & _). exists p. split; [exact E|]. rewrite M. apply mean_ext. eapply nearest_within; eassumption.
Qed.

(** Categorical DQN: the target is the projection of the next state's distribution with the largest mean. *)
Theorem C38_categorical_dqn {S A} gamma v_min delta n (exps : list (list (trans (exper S A)))) (target_model : S -> list (list Q)) :
  Forall (fun w => w <> []) exps -> 2 <= n -> (0 < delta)%Q -> (forall s, target_model s <> [] /\ Forall (fun d => length d = n) (target_model s)) ->
  exists b, batch_experiences gamma exps = Ok b /\ exists ts, categorical_target target_model (atoms v_min delta n) b = Ok ts /\
    Forall2 (fun w t => exists s a s' dist, from_to w s a s' /\
       (In dist (target_model s') /\ forall d, In d (target_model s') -> (mean_of d (atoms v_min delta n) <= mean_of dist (atoms v_min delta n))%Q) /\
       is_target gamma w v_min delta n dist t /\ (Forall (fun q => (0 <= q)%Q) dist -> Forall (fun q => (0 <= q)%Q) t)) exps ts.
Proof.
  intros Hne Hn Hd HT. destruct (batch_rows gamma exps Hne) as (b & rows & E & E1 & E2 & E3 & E4 & E5 & E6 & F). exists b. split; [exact E|]. set (z := atoms v_min delta n).
  unfold categorical_target. rewrite E4, map_map.
  destruct (rmapM_rows (fun q => max_as_distribution q z) (fun x => target_model (r_ns x))
      (fun x d => length d = n /\ In d (target_model (r_ns x)) /\ forall d', In d' (target_model (r_ns x)) -> (mean_of d' z <= mean_of d z)%Q) rows) as (ds & Ed & Fd).
  { intros x _. destruct (HT (r_ns x)) as [H1 H2]. destruct (argmax_ok (dist_q_values (target_model (r_ns x)) z)) as (g & Eg & m & Hm & Hmax). { destruct (target_model (r_ns x)); [congruence|discriminate]. }
    unfold dist_q_values in Hm. rewrite nth_error_map in Hm. destruct (nth_error (target_model (r_ns x)) g) as [d|] eqn:N; [|discriminate]. injection Hm as Hm. exists d.
    split; [unfold max_as_distribution, gather; rewrite Eg; cbn [rbind]; rewrite N; reflexivity|]. pose proof (nth_error_In _ _ N) as HI. split; [rewrite Forall_forall in H2; auto|]. split; [exact HI|].
    intros d' Hd'. change (dot d' z <= dot d z)%Q. rewrite Hm. apply Hmax. apply in_map_iff. exists d'. auto. }
  rewrite Ed. cbn [rbind]. destruct (project_rows_ok gamma v_min delta n exps Hn Hd b rows _ ds E3 E6 E5 F Fd) as (ts & Et & Ft).
  { clear - Fd. induction Fd as [|x d ? ? H ? IH]; constructor; [apply H|exact IH]. }
  exists ts. split; [exact Et|]. revert Ft. apply Forall2_imp. intros w t (x & d & H1 & (_ & H2) & H3 & H4). exists (r_s x), (r_a x), (r_ns x), d. auto.
Qed.

(** Categorical Double DQN: the online network chooses the action whose distribution has the largest mean, the target network supplies the
    distribution of that action. *)
Theorem C38_categorical_double_dqn {S A} gamma v_min delta n (exps : list (list (trans (exper S A)))) (model target_model : S -> list (list Q)) :
  Forall (fun w => w <> []) exps -> 2 <= n -> (0 < delta)%Q ->
  (forall s, model s <> [] /\ length (target_model s) = length (model s) /\ Forall (fun d => length d = n) (target_model s)) ->
  exists b, batch_experiences gamma exps = Ok b /\ exists ts, categorical_double_target model target_model (atoms v_min delta n) b = Ok ts /\
    Forall2 (fun w t => exists s a s' i own dist, from_to w s a s' /\
       (nth_error (model s') i = Some own /\ forall d, In d (model s') -> (mean_of d (atoms v_min delta n) <= mean_of own (atoms v_min delta n))%Q) /\
       nth_error (target_model s') i = Some dist /\ is_target gamma w v_min delta n dist t /\ (Forall (fun q => (0 <= q)%Q) dist -> Forall (fun q => (0 <= q)%Q) t)) exps ts.
Proof.
  intros Hne Hn Hd HT. destruct (batch_rows gamma exps Hne) as (b & rows & E & E1 & E2 & E3 & E4 & E5 & E6 & F). exists b. split; [exact E|]. set (z := atoms v_min delta n).
  unfold categorical_double_target. rewrite E4, !map_map.
  destruct (rmapM_rows (fun q => argmax (dist_q_values q z)) (fun x => model (r_ns x))
      (fun x i => exists own, nth_error (model (r_ns x)) i = Some own /\ forall d, In d (model (r_ns x)) -> (mean_of d z <= mean_of own z)%Q) rows) as (is & Ei & Fi).
  { intros x _. destruct (HT (r_ns x)) as [H1 H2]. destruct (argmax_ok (dist_q_values (model (r_ns x)) z)) as (g & Eg & m & Hm & Hmax). { destruct (model (r_ns x)); [congruence|discriminate]. }
    unfold dist_q_values in Hm. rewrite nth_error_map in Hm. destruct (nth_error (model (r_ns x)) g) as [d|] eqn:N; [|discriminate]. injection Hm as Hm. exists g. split; [exact Eg|]. exists d. split; [exact N|].
    intros d' Hd'. change (dot d' z <= dot d z)%Q. rewrite Hm. apply Hmax. apply in_map_iff. exists d'. auto. }
  rewrite Ei. cbn [rbind].
  assert (X : exists ds, rmapM (fun p => evaluate_action_as_distribution (fst p) (snd p)) (combine (map (fun x => target_model (r_ns x)) rows) is) = Ok ds /\
     Forall2 (fun x d => length d = n /\ exists i own, (nth_error (model (r_ns x)) i = Some own /\ forall d, In d (model (r_ns x)) -> (mean_of d z <= mean_of own z)%Q) /\ nth_error (target_model (r_ns x)) i = Some d) rows ds).
  { clear - HT Fi. induction Fi as [|x i rows is (own & H1 & H2) Fi (ds & Ed & Fd)]; [exists []; split; constructor|]. destruct (HT (r_ns x)) as (_ & L & HF).
    destruct (nth_error (target_model (r_ns x)) i) as [d|] eqn:N. 2:{ apply nth_error_None in N. assert (i < length (model (r_ns x))) by (apply nth_error_Some; congruence). lia. }
    exists (d :: ds). cbn [map combine rmapM fst snd]. unfold evaluate_action_as_distribution at 1, gather. rewrite N. cbn [rbind]. rewrite Ed. split; [reflexivity|]. constructor; [|exact Fd].
    split; [rewrite Forall_forall in HF; apply HF; eapply nth_error_In; exact N|]. exists i, own. auto. }
  destruct X as (ds & Ed & Fd). rewrite Ed. cbn [rbind]. destruct (project_rows_ok gamma v_min delta n exps Hn Hd b rows _ ds E3 E6 E5 F Fd) as (ts & Et & Ft).
  { clear - Fd. induction Fd as [|x d ? ? H ? IH]; constructor; [apply H|exact IH]. }
  exists ts. split; [exact Et|]. revert Ft. apply Forall2_imp. intros w t (x & d & H1 & (_ & i & own & H2 & H5) & H3 & H4). exists (r_s x), (r_a x), (r_ns x), i, own, d. auto.
Qed.

(** When no shifted atom leaves the support, the mean of such a target is the n-step target of the mean. *)
Theorem C38_target_mean {S A} gamma (w : list (trans (exper S A))) v_min delta n dist t : is_target gamma w v_min delta n dist t -> length dist = n -> (total dist == 1)%Q ->
  Forall (fun x => (v_min <= nstep gamma w x <= v_min + delta * inject_Z (Z.of_nat (n - 1)))%Q) (atoms v_min delta n) ->
  (total t == 1)%Q /\ (mean_of t (atoms v_min delta n) == nstep gamma w (mean_of dist (atoms v_min delta n)))%Q.
Proof.
  intros (c & F & _ & _ & T & M) L T1 R. split; [rewrite T; exact T1|]. rewrite M. clear M T t.
  assert (Fc : Forall2 (fun x c => (c == nstep gamma w x)%Q) (atoms v_min delta n) c).
  { revert F R. generalize (v_min + delta * inject_Z (Z.of_nat (n - 1)))%Q. intros hi F R. induction F as [|x c l cs HN F IH]; constructor; inversion R; subst; [apply HN; assumption|auto]. }
  assert (La : length (atoms v_min delta n) = length dist) by (unfold atoms; rewrite map_length, seq_length; congruence).
  clear F R L. unfold nstep in *. set (r := discounted _ _) in *. clearbody r.
  assert (E : (mean_of dist c == r * total dist + (if existsb terminal w then 0 else gpow gamma (length w) * mean_of dist (atoms v_min delta n)))%Q).
  { clear T1. revert dist La. induction Fc as [|x c l cs H Fc IH]; intros [|d dist] La; try discriminate La; cbn [mean_of total]; [destruct (existsb terminal w); ring|].
    injection La as La. rewrite (IH _ La), H. destruct (existsb terminal w); ring. }
  rewrite E, T1. ring.
Qed.

Definition tr (s : nat) (r : Q) (tm : bool) : trans (exper nat nat) := mkTrans (mkEx s 0 r (S s) None) tm.

(** Atoms -1, 0, 1, 2: a value on an atom, one between two atoms, and two outside. *)
Example C38_ex : rmap (map Qred) (apply_categorical_projection [-5; 0; 5 # 4; 9]%Q [1 # 8; 1 # 8; 1 # 2; 1 # 4]%Q (atoms (-1) 1 4)) = Ok [1 # 8; 1 # 8; 3 # 8; 3 # 8]%Q /\
  exists b, batch_experiences (1 # 2)%Q [[tr 1 0 false]; [tr 1 (1 # 2) false; tr 2 1 true]] = Ok b /\
    rmap (map (map Qred)) (categorical_target (fun s => [[1; 0; 0; 0]; [0; 0; 1 # 2; 1 # 2]]%Q) (atoms (-1) 1 4) b) = Ok [[0; 1 # 4; 3 # 4; 0]; [0; 0; 1; 0]]%Q.
Proof. split; [vm_compute; reflexivity|]. eexists. split; [vm_compute; reflexivity|]. vm_compute. reflexivity. Qed.

Print Assumptions C38_projection.
Print Assumptions C38_mean_kept.
Print Assumptions C38_categorical_dqn.
Print Assumptions C38_categorical_double_dqn.
Print Assumptions C38_target_mean.
