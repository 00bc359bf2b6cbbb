(** C137: with exact values, the advantages and returns that PPO, TRPO, A2C, A3C and ACER learn from are unbiased. *)
From Coq Require Import Setoid Morphisms QArith Qminmax Qpower Lqa.
From Verif Require Import Base P_Base M_AcerLoss P_AcerLoss M_A3C S_A3C P_A3C M_A2C S_A2C P_A2C M_PPO S_PPO P_PPO S_ValueIteration S_Unbiased P_Unbiased.
Close Scope Q_scope. Open Scope nat_scope.

(** The state after steps from [s] on; whether the last of them was terminal. *)
Fixpoint final (s : nat) (l : list step) : nat := match l with [] => s | x :: l => final (reached x) l end.
Definition over (l : list step) : bool := existsb ended l.
(** The value that follows the last step *)
Definition next_value (v : nat -> Q) (s : nat) (l : list step) : Q := if over l then 0%Q else v (final s l).

(** ** The lambda-return, of which most estimates are instances *)
Section Lambda.
Context (D : problem) (gamma lambda : Q) (v : nat -> Q).
Fixpoint lam (s : nat) (l : list step) : Q :=
  match l with [] => v s | x :: l => (earned x + gamma * (if ended x then 0 else (1 - lambda) * v (reached x) + lambda * lam (reached x) l))%Q end.
Lemma lam_mean (W : well_formed D) policy (HP : random_policy D policy) stop (HV : exact_values D gamma policy v) T past s a : s < states D -> a <= last_action D ->
  (given_action D policy stop T past s a (lam s) == action_value D gamma v s a)%Q.
Proof.
  intros Hs Ha. apply (tgt_mean D W policy HP stop gamma v lambda (fun _ _ => 1%Q) (fun _ _ => 1%Q) lam lam); [reflexivity| | |intros; ring|now apply on_policy|exact Hs|exact Ha].
  - intros. cbn [lam earned ended reached]. ring.
  - intros. cbn [lam earned ended reached]. ring.
Qed.
End Lambda.
Lemma lam_complete D gamma v s l : runs D s l -> complete l -> (lam gamma 1 v s l == rewards_sum gamma l)%Q.
Proof.
  intros H. induction H as [s Hs|s a r s' Hs Hs' Ha|s a r s' l Hs Ha H IH]; intros C; cbn [lam rewards_sum earned ended reached].
  - destruct C as ([|y l'] & x & E & _); discriminate.
  - reflexivity.
  - assert (C' : complete l). { destruct C as (l' & x & E & Hx). destruct l' as [|y l']; cbn [app] in E; injection E as E1 E2; [subst x; discriminate Hx|]. subst l. exists l', x. auto. }
    rewrite (IH C'). ring.
Qed.

(** ** PPO and TRPO *)
(** What is stored for a step with value predictions [w] *)
Definition stored_step (w : nat -> Q) (x : step) : gae_in :=
  {| g_reward := earned x; g_nonterminal := if ended x then 0%Q else 1%Q; g_v := w (at_state x); g_next_v := w (reached x) |}.
(** The advantage and the value target computed for the step after the steps [before] of the episode *)
Definition ppo_estimate (gamma lambda : Q) (before : list gae_in) (w : nat -> Q) (l : list step) : Q * Q :=
  nth (length before) (gae gamma lambda (before ++ map (stored_step w) l)) (0%Q, 0%Q).
Lemma skipn_pre {X} (a b : list X) : skipn (length a) (a ++ b) = b. Proof. induction a as [|x a IH]; [reflexivity|exact IH]. Qed.
Lemma nth_pre {X} (a b : list X) x : nth_error (a ++ x :: b) (length a) = Some x. Proof. induction a as [|y a IH]; [reflexivity|exact IH]. Qed.
Lemma ppo_lam gamma lambda w D s l : runs D s l -> (w s + fst (grec gamma lambda 0 (map (stored_step w) l)) == lam gamma lambda w s l)%Q.
Proof.
  intros H. induction H as [s Hs|s a r s' Hs Hs' Ha|s a r s' l Hs Ha H IH]; cbn [map grec lam earned ended reached fst].
  - ring.
  - unfold td_err. cbn [stored_step g_reward g_nonterminal g_v g_next_v earned ended reached at_state]. ring.
  - rewrite <- IH. destruct (grec gamma lambda 0 (map (stored_step w) l)) as [g ?]. cbn [fst]. unfold td_err. cbn [stored_step g_reward g_nonterminal g_v g_next_v earned ended reached at_state]. ring.
Qed.
Lemma ppo_values gamma lambda before w D s x l : runs D s (x :: l) -> (fst (ppo_estimate gamma lambda before w (x :: l)) == lam gamma lambda w s (x :: l) - w s)%Q /\ (snd (ppo_estimate gamma lambda before w (x :: l)) == lam gamma lambda w s (x :: l))%Q.
Proof.
  intros H. assert (Es : at_state x = s) by (inversion H; reflexivity). unfold ppo_estimate. rewrite gae_rec. cbn [map]. destruct (grec_nth gamma lambda (before ++ stored_step w x :: map (stored_step w) l) (length before) (stored_step w x) (nth_pre _ _ _)) as (r & E & ->).
  rewrite skipn_pre in E. rewrite (nth_error_nth _ _ (0%Q, 0%Q) E). cbn [fst snd]. change (stored_step w x :: map (stored_step w) l) with (map (stored_step w) (x :: l)). pose proof (ppo_lam gamma lambda w D s (x :: l) H) as L.
  rewrite <- L. cbn [stored_step g_v]. rewrite Es. split; ring.
Qed.
(** For every trajectory so far, whatever the rule by which the agent stops collecting: given the action taken, the expected advantage is what the
    action is worth more than the state, the expected value target is what the action is worth; so over the actions the mean advantage is 0. *)
Theorem C137_ppo D gamma lambda policy stop v T past before s a : well_formed D -> random_policy D policy -> exact_values D gamma policy v -> s < states D -> a <= last_action D ->
  (given_action D policy stop T past s a (fun l => fst (ppo_estimate gamma lambda before v l)) == action_value D gamma v s a - v s)%Q /\
  (given_action D policy stop T past s a (fun l => snd (ppo_estimate gamma lambda before v l)) == action_value D gamma v s a)%Q.
Proof.
  intros W HP HV Hs Ha. pose proof (lam_mean D gamma lambda v W policy HP stop HV T past s a Hs Ha) as M. split.
  - rewrite (given_ext D W policy HP stop T past s a _ (fun l => - v s + 1 * lam gamma lambda v s l)%Q Hs Ha).
    + rewrite (given_linear D W policy HP stop T past s a (- v s) 1 (lam gamma lambda v s) Hs Ha), M. ring.
    + intros x l Hl _. rewrite (proj1 (ppo_values gamma lambda before v D s x l Hl)). ring.
  - rewrite <- M. apply (given_ext D W policy HP stop); [exact Hs|exact Ha|]. intros x l Hl _. apply (ppo_values gamma lambda before v D s x l Hl).
Qed.
(** With lambda = 1 and complete episodes, value predictions [w] need not be exact: targets are unbiased, advantages are up to the prediction for the state. *)
Theorem C137_ppo_complete D gamma policy stop v w T past before s a : well_formed D -> random_policy D policy -> exact_values D gamma policy v -> s < states D -> a <= last_action D ->
  Forall (fun o => let '(r, s', terminal) := snd o in terminal = true \/ always_ends D policy stop T (past ++ [mkStep s a r s' terminal]) s') (outcomes D s a) ->
  (given_action D policy stop T past s a (fun l => fst (ppo_estimate gamma 1 before w l)) == action_value D gamma v s a - w s)%Q /\
  (given_action D policy stop T past s a (fun l => snd (ppo_estimate gamma 1 before w l)) == action_value D gamma v s a)%Q.
Proof.
  intros W HP HV Hs Ha HE. pose proof (rewards_mean D W policy HP stop gamma v HV T past s a Hs Ha HE) as M. split.
  - rewrite (complete_given D W policy HP stop T past s a _ (fun l => - w s + 1 * rewards_sum gamma l)%Q Hs Ha HE).
    + rewrite (given_linear D W policy HP stop T past s a (- w s) 1 (rewards_sum gamma) Hs Ha), M. ring.
    + intros x l Hl _ C. rewrite (proj1 (ppo_values gamma 1 before w D s x l Hl)), (lam_complete D gamma w s (x :: l) Hl C). ring.
  - rewrite <- M. apply (complete_given D W policy HP stop); [exact Hs|exact Ha|exact HE|]. intros x l Hl _ C. rewrite (proj2 (ppo_values gamma 1 before w D s x l Hl)). now apply (lam_complete D).
Qed.

(** ** A2C *)
(** A column of the window: reward, whether the mask is 0, value prediction. *)
Definition cell := (Q * bool * Q)%type.
Definition a2c_return (use_gae : bool) (gamma tau : Q) (w : list cell) (nv : Q) (i : nat) : Q :=
  nth i (compute_returns use_gae gamma tau (map (fun c => fst (fst c)) w) (map (fun c => mask_of (snd (fst c))) w) (map snd w) nv) 0%Q.
Definition cell_of (v : nat -> Q) (x : step) : cell := (earned x, ended x, v (at_state x)).
(** The window: steps [before], the steps [l] of the episode, and, if the episode is over, the steps [more l] of other episodes, then a last
    value [nv l]; otherwise the value of the state reached is the last. *)
Definition a2c_estimate (use_gae : bool) (gamma tau : Q) (before : list cell) (more : list step -> list cell) (nv : list step -> Q) (v : nat -> Q) (s : nat) (l : list step) : Q :=
  a2c_return use_gae gamma tau (before ++ map (cell_of v) l ++ (if over l then more l else [])) (if over l then nv l else v (final s l)) (length before).
Definition pair_of (c : cell) : Q * Q := (fst (fst c), mask_of (snd (fst c))).
Definition triple_of (c : cell) : Q * Q * Q := (fst (fst c), mask_of (snd (fst c)), snd c).
Lemma combine2 (w : list cell) : combine (map (fun c => fst (fst c)) w) (map (fun c => mask_of (snd (fst c))) w) = map pair_of w.
Proof. induction w as [|[[r e] x] w IH]; [reflexivity|]. cbn [map combine]. now rewrite IH. Qed.
Lemma combine3 (w : list cell) : combine (combine (map (fun c => fst (fst c)) w) (map (fun c => mask_of (snd (fst c))) w)) (map snd w) = map triple_of w.
Proof. induction w as [|[[r e] x] w IH]; [reflexivity|]. cbn [map combine]. now rewrite IH. Qed.
Lemma prec_cell gamma b v x w : prec gamma b (map pair_of (cell_of v x :: w)) = let (n, acc) := prec gamma b (map pair_of w) in let y := (earned x + gamma * n * mask_of (ended x))%Q in (y, y :: acc).
Proof. reflexivity. Qed.
Lemma plain_lam gamma v D s l : runs D s l -> forall m b, (over l = false -> m = [] /\ b = v (final s l)) -> (fst (prec gamma b (map pair_of (map (cell_of v) l ++ m))) == lam gamma 1 v s l)%Q.
Proof.
  intros H. induction H as [s Hs|s a r s' Hs Hs' Ha|s a r s' l Hs Ha H IH]; intros m b E.
  - destruct (E eq_refl) as [-> ->]. reflexivity.
  - change (map (cell_of v) [mkStep s a r s' true] ++ m) with (cell_of v (mkStep s a r s' true) :: m). rewrite prec_cell. cbn [lam earned ended reached at_state]. destruct (prec gamma b (map pair_of m)) as [n acc]. cbv zeta. cbn [fst mask_of]. ring.
  - specialize (IH m b E). change (map (cell_of v) (mkStep s a r s' false :: l) ++ m) with (cell_of v (mkStep s a r s' false) :: (map (cell_of v) l ++ m)). rewrite prec_cell. cbn [lam earned ended reached at_state].
    rewrite <- IH. destruct (prec gamma b (map pair_of (map (cell_of v) l ++ m))) as [n acc]. cbv zeta. cbn [fst mask_of]. ring.
Qed.
Lemma grec2_cell gamma tau b v x w : grec2 gamma tau b (map triple_of (cell_of v x :: w)) =
  let '(g, n, acc) := grec2 gamma tau b (map triple_of w) in
  let g' := (earned x + gamma * n * mask_of (ended x) - v (at_state x) + gamma * tau * mask_of (ended x) * g)%Q in (g', v (at_state x), (g' + v (at_state x))%Q :: acc).
Proof. reflexivity. Qed.
Lemma gae_lam gamma tau v D s l : runs D s l -> forall m b, (over l = false -> m = [] /\ b = v (final s l)) ->
  (fst (fst (grec2 gamma tau b (map triple_of (map (cell_of v) l ++ m)))) + v s == lam gamma tau v s l)%Q /\ snd (fst (grec2 gamma tau b (map triple_of (map (cell_of v) l ++ m)))) = v s.
Proof.
  intros H. induction H as [s Hs|s a r s' Hs Hs' Ha|s a r s' l Hs Ha H IH]; intros m b E.
  - destruct (E eq_refl) as [-> ->]. cbn [grec2 map fst snd final app lam]. split; [ring|reflexivity].
  - change (map (cell_of v) [mkStep s a r s' true] ++ m) with (cell_of v (mkStep s a r s' true) :: m). rewrite grec2_cell. cbn [lam earned ended reached at_state]. destruct (grec2 gamma tau b (map triple_of m)) as [[g n] acc]. cbv zeta. cbn [fst snd mask_of]. split; [ring|reflexivity].
  - destruct (IH m b E) as [I1 I2]. change (map (cell_of v) (mkStep s a r s' false :: l) ++ m) with (cell_of v (mkStep s a r s' false) :: (map (cell_of v) l ++ m)). rewrite grec2_cell. cbn [lam earned ended reached at_state].
    destruct (grec2 gamma tau b (map triple_of (map (cell_of v) l ++ m))) as [[g n] acc]. cbv zeta. cbn [fst snd mask_of] in *. subst n. split; [rewrite <- I1; ring|reflexivity].
Qed.
Lemma a2c_value use_gae gamma tau before more nv v D s x l : runs D s (x :: l) -> (a2c_estimate use_gae gamma tau before more nv v s (x :: l) == lam gamma (if use_gae then tau else 1) v s (x :: l))%Q.
Proof.
  intros H. unfold a2c_estimate, a2c_return, compute_returns. set (m := if over (x :: l) then more (x :: l) else []). set (b := if over (x :: l) then nv (x :: l) else v (final s (x :: l))).
  assert (E : over (x :: l) = false -> m = [] /\ b = v (final s (x :: l))) by (intros E; unfold m, b; rewrite E; auto).
  assert (Ls : skipn (length before) (before ++ map (cell_of v) (x :: l) ++ m) = map (cell_of v) (x :: l) ++ m) by apply skipn_pre. assert (Es : at_state x = s) by (inversion H; reflexivity).
  destruct use_gae.
  - rewrite combine3, gae2_grec. assert (N : nth_error (map triple_of (before ++ map (cell_of v) (x :: l) ++ m)) (length before) = Some (triple_of (cell_of v x))) by (rewrite (map_nth_error _ _ _ (nth_pre before (map (cell_of v) l ++ m) (cell_of v x))); reflexivity).
    apply (grec2_nth gamma tau b) in N. rewrite (nth_error_nth _ _ 0%Q N), skipn_map, Ls. cbn [cell_of snd]. rewrite Es. apply (gae_lam gamma tau v D s (x :: l) H m b E).
  - rewrite combine2, plain_prec. assert (N : length before < length (map pair_of (before ++ map (cell_of v) (x :: l) ++ m))) by (rewrite map_length, !app_length, map_length; cbn [length]; lia).
    apply (prec_nth gamma b) in N. rewrite (nth_error_nth _ _ 0%Q N), skipn_map, Ls. apply (plain_lam gamma v D s (x :: l) H m b E).
Qed.
Theorem C137_a2c D use_gae gamma tau policy stop v T past before more nv s a : well_formed D -> random_policy D policy -> exact_values D gamma policy v -> s < states D -> a <= last_action D ->
  (given_action D policy stop T past s a (a2c_estimate use_gae gamma tau before more nv v s) == action_value D gamma v s a)%Q.
Proof.
  intros W HP HV Hs Ha. rewrite <- (lam_mean D gamma (if use_gae then tau else 1%Q) v W policy HP stop HV T past s a Hs Ha). apply (given_ext D W policy HP stop); [exact Hs|exact Ha|]. intros x l Hl _. now apply (a2c_value use_gae gamma tau before more nv v D).
Qed.

(** ** A3C *)
(** A worker (not recurrent; its observations are the states) that has a segment in store: steps before with the rewards [before], then those of [l];
    its network predicts the values [v]. *)
Definition holds_segment {P RS : Type} (N : @M_A3C.net nat P RS) (c : M_A3C.cfg) (v : nat -> Q) (before : list (nat * nat * Q)) (l : list step) (w : @M_A3C.st nat nat P RS) : Prop :=
  M_A3C.recurrent c = false /\ (forall o, M_A3C.value N (M_A3C.model w) None o = v o) /\ M_A3C.t w = M_A3C.t_start w + length before + length l /\
  stored (M_A3C.past_obs w) (M_A3C.t_start w) (map (fun x => fst (fst x)) before ++ map at_state l) /\ stored (M_A3C.past_action w) (M_A3C.t_start w) (map (fun x => snd (fst x)) before ++ map took l) /\
  stored (M_A3C.past_rewards w) (M_A3C.t_start w) (map snd before ++ map earned l).
(** The return that the update computes for the first step of [l] *)
Definition a3c_estimate {P RS : Type} (N : @M_A3C.net nat P RS) (opt : P -> M_A3C.upd nat nat P RS -> P) (c : M_A3C.cfg) (before : list (nat * nat * Q)) (worker : list step -> @M_A3C.st nat nat P RS) (s : nat) (l : list step) : Q :=
  match M_A3C.update N opt c (if over l then None else Some (final s l)) (worker l) with Ok (_, u) => nth (length before) (M_A3C.u_returns u) 0%Q | Err _ => 0%Q end.
Lemma nsr_cons gamma b r l R : (n_step_return gamma (b ++ r :: l) R (length b) == r + gamma * n_step_return gamma ((b ++ [r]) ++ l) R (length (b ++ [r])))%Q.
Proof.
  unfold n_step_return. rewrite !app_length. cbn [length]. replace (length b + S (length l) - length b) with (S (length l)) by lia. replace (length b + 1 + length l - (length b + 1)) with (length l) by lia.
  rewrite dsum_shift. rewrite Nat.add_0_r, app_nth2, Nat.sub_diag by lia. cbn [nth]. rewrite (dsum_ext gamma (fun k => nth (length b + S k) (b ++ r :: l) 0%Q) (fun k => nth (length b + 1 + k) ((b ++ [r]) ++ l) 0%Q)).
  - rewrite Nat2Z.inj_succ. unfold Z.succ. assert (P : (Qpower gamma (Z.of_nat (length l) + 1) == gamma * Qpower gamma (Z.of_nat (length l)))%Q) by (rewrite Z.add_1_r, <- Nat2Z.inj_succ; apply (gpow_succ gamma (length l))). rewrite P. ring.
  - intros k _. rewrite <- app_assoc. cbn [app]. replace (length b + S k) with (length b + 1 + k) by lia. reflexivity.
Qed.
Lemma a3c_lam gamma v D s l : runs D s l -> forall b, (n_step_return gamma (b ++ map earned l) (next_value v s l) (length b) == lam gamma 1 v s l)%Q.
Proof.
  intros H. induction H as [s Hs|s a r s' Hs Hs' Ha|s a r s' l Hs Ha H IH]; intros b; cbn [map lam earned ended reached].
  - unfold n_step_return, next_value. cbn [over existsb final]. rewrite app_nil_r, Nat.sub_diag. cbn. ring.
  - rewrite nsr_cons. unfold n_step_return, next_value. cbn [over existsb ended orb]. rewrite app_nil_r, Nat.sub_diag. cbn. ring.
  - rewrite nsr_cons. change (next_value v s (mkStep s a r s' false :: l)) with (next_value v s' l). rewrite (IH (b ++ [r])). ring.
Qed.
Theorem C137_a3c {P RS} N opt c D policy stop v T past before (worker : list step -> @M_A3C.st nat nat P RS) s a :
  well_formed D -> random_policy D policy -> exact_values D (M_A3C.gamma c) policy v -> s < states D -> a <= last_action D -> (forall l, l <> [] -> holds_segment N c v before l (worker l)) ->
  (given_action D policy stop T past s a (a3c_estimate N opt c before worker s) == action_value D (M_A3C.gamma c) v s a)%Q.
Proof.
  intros W HP HV Hs Ha HR. rewrite <- (lam_mean D (M_A3C.gamma c) 1 v W policy HP stop HV T past s a Hs Ha). apply (given_ext D W policy HP stop); [exact Hs|exact Ha|]. intros x l Hl _.
  destruct (HR (x :: l) ltac:(discriminate)) as (Hrec & Hv & Ht & Ho & Hac & Hr). unfold a3c_estimate, M_A3C.update, range. replace (M_A3C.t_start _ <? M_A3C.t _) with true by (symmetry; apply Nat.ltb_lt; rewrite Ht; cbn [length]; lia). cbn [passert rbind].
  set (w := worker (x :: l)) in *. replace (M_A3C.t w - M_A3C.t_start w) with (length before + length (x :: l)) by lia. rewrite Hrec.
  assert (Ln : forall (A : Type) (f : nat * nat * Q -> A) (g : step -> A), length (map f before ++ map g (x :: l)) = length before + length (x :: l)) by (intros; now rewrite app_length, !map_length).
  pose proof (dgets_stored _ _ _ Ho) as Go. pose proof (dgets_stored _ _ _ Hac) as Ga. rewrite Ln in Go, Ga. rewrite Go, Ga.
  set (R := match (if over (x :: l) then None else Some (final s (x :: l))) with Some o => _ | None => 0%Q end). assert (ER : R = next_value v s (x :: l)) by (unfold R, next_value; destruct (over (x :: l)); [reflexivity|apply Hv]).
  destruct (rev_returns_ok (M_A3C.gamma c) (M_A3C.past_rewards w) (M_A3C.t_start w) _ Hr R) as (revs & E & _ & Nv). rewrite Ln in E, Nv. specialize (Nv (length before) ltac:(cbn [length]; lia)).
  destruct (if M_A3C.keep_loss_scale_same c && _ then _ else _) as [pf vf]. destruct (if M_A3C.normalize_grad_by_t_max c then _ else _) as [pf' vf']. cbn [rbind]. rewrite E. cbn [rbind M_A3C.u_returns]. rewrite Nv, ER. rewrite <- (map_length snd before). now apply (a3c_lam (M_A3C.gamma c) v D).
Qed.

(** There are such workers, with any values and for any steps: the parameters of the network are the values. *)
Lemma stored_listed {X} (xs : list X) : forall a, stored (combine (seq a (length xs)) xs) a xs.
Proof.
  induction xs as [|y xs IH]; intros a [|i] x E; cbn in E; try discriminate; cbn [length seq combine dget].
  - injection E as ->. now rewrite Nat.add_0_r, Nat.eqb_refl.
  - replace (a =? a + S i) with false by (symmetry; apply Nat.eqb_neq; lia). replace (a + S i) with (S a + i) by lia. now apply IH.
Qed.
Definition table_net : @M_A3C.net nat (nat -> Q) unit := {| M_A3C.value := fun p _ o => p o; M_A3C.advance := fun _ _ _ => tt |}.
Definition plain_cfg (g : Q) : M_A3C.cfg :=
  {| M_A3C.process_idx := 1; M_A3C.t_max := 5; M_A3C.gamma := g; M_A3C.recurrent := false; M_A3C.pi_loss_coef := 1; M_A3C.v_loss_coef := 1 # 2; M_A3C.keep_loss_scale_same := false; M_A3C.normalize_grad_by_t_max := false |}.
Definition worker_of (v : nat -> Q) (l : list step) : @M_A3C.st nat nat (nat -> Q) unit :=
  {| M_A3C.training := true; M_A3C.t := 7 + length l; M_A3C.t_start := 7; M_A3C.past_obs := combine (seq 7 (length (map at_state l))) (map at_state l); M_A3C.past_action := combine (seq 7 (length (map took l))) (map took l);
     M_A3C.past_rewards := combine (seq 7 (length (map earned l))) (map earned l); M_A3C.past_recurrent_state := []; M_A3C.train_rs := None; M_A3C.test_rs := None; M_A3C.model := v; M_A3C.shared_model := v |}.
Example C137_a3c_worker g v l : holds_segment table_net (plain_cfg g) v [] l (worker_of v l).
Proof. split; [reflexivity|]. split; [reflexivity|]. split; [cbn; lia|]. split; [apply stored_listed|]. split; apply stored_listed. Qed.
Example C137_a3c_estimate : let v s := match s with O => 3%Q | _ => 5%Q end in
  (a3c_estimate table_net (fun p _ => p) (plain_cfg (1 # 2)) [] (worker_of v) 0 [mkStep 0 0 1%Q 1 false] == 1 + (1 # 2) * 5)%Q /\ (a3c_estimate table_net (fun p _ => p) (plain_cfg (1 # 2)) [] (worker_of v) 0 [mkStep 0 0 1%Q 1 true] == 1)%Q.
Proof. vm_compute. auto. Qed.

(** ** ACER: actions are taken by any policy [mu], values are those of the policy [pi]. *)
(** What the loss is computed from for a step: exact values, any importance weights *)
Definition acer_step (v : nat -> Q) (q rho root : nat -> nat -> Q) (pi_loss : step -> Q -> Q) (x : step) : lstep :=
  {| l_r := earned x; l_v := v (at_state x); l_q := q (at_state x) (took x); l_rho := rho (at_state x) (took x); l_root := root (at_state x) (took x); l_pi := pi_loss x |}.
Definition acer_estimate (c : lcfg) (before : list lstep) (v : nat -> Q) (q rho root : nat -> nat -> Q) (pi_loss : step -> Q -> Q) (s : nat) (l : list step) : Q * Q * option Q :=
  nth (length before) (snd (compute_loss c (next_value v s l) (before ++ map (acer_step v q rho root pi_loss) l))) (0%Q, 0%Q, None).
Definition exact_action_values (D : problem) (gamma : Q) (pi : nat -> list (Q * nat)) (v : nat -> Q) (q : nat -> nat -> Q) : Prop :=
  (forall s, s < states D -> (v s == mean (pi s) (q s))%Q) /\ (forall s a, s < states D -> a <= last_action D -> (q s a == action_value D gamma v s a)%Q).
Section Acer.
Context (D : problem) (W : well_formed D) (c : lcfg) (mu : nat -> list (Q * nat)) (HM : random_policy D mu) (stop : list step -> bool) (v : nat -> Q) (q rho root : nat -> nat -> Q) (pl : step -> Q -> Q).
Context (HQ : forall s a, s < states D -> a <= last_action D -> (q s a == action_value D (l_gamma c) v s a)%Q).
Notation conv := (map (acer_step v q rho root pl)).
Definition coefficient (s a : nat) : Q := if l_discrete c then Qmin 1 (rho s a) else Qmin 1 (root s a).
Definition ret s l := Q_ret (lrun c (next_value v s l) (conv l)).
Definition opc s l := Q_opc (lrun c (next_value v s l) (conv l)).
Definition ret_target (s : nat) l : Q := match l with [] => 0%Q | x :: l' => (earned x + l_gamma c * Q_ret (lrun c (next_value v s l) (conv l')))%Q end.
Definition opc_target (s : nat) l : Q := match l with [] => 0%Q | x :: l' => (earned x + l_gamma c * Q_opc (lrun c (next_value v s l) (conv l')))%Q end.
Lemma at_ s x l : runs D s (x :: l) -> at_state x = s /\ s < states D /\ took x <= last_action D. Proof. intros H. inversion H; subst; auto. Qed.
Lemma ret_mean T past s a : s < states D -> a <= last_action D -> (given_action D mu stop T past s a (ret_target s) == q s a)%Q.
Proof.
  intros Hs Ha. rewrite (HQ s a Hs Ha). apply (tgt_mean D W mu HM stop (l_gamma c) v 1%Q coefficient (fun _ _ => 0%Q) ret ret_target); [reflexivity| | | | |exact Hs|exact Ha].
  - intros. unfold ret_target, next_value. cbn [over existsb ended orb map lrun fold_right l_init Q_ret earned]. ring.
  - intros s0 a0 r s' l H0 Ha0 Hl. unfold ret_target, ret. change (next_value v s0 (mkStep s0 a0 r s' false :: l)) with (next_value v s' l). cbn [earned]. ring.
  - intros s0 x l Hl. destruct (at_ s0 x l Hl) as (E & H0 & Ha0). unfold ret, ret_target. cbn [map]. unfold lrun at 1. cbn [fold_right]. fold (lrun c (next_value v s0 (x :: l)) (conv l)). unfold lbody. cbn [Q_ret acer_step l_r l_v l_q l_rho l_root]. rewrite E, <- (HQ s0 (took x) H0 Ha0). unfold coefficient. destruct (l_discrete c); ring.
  - intros s0 H0. rewrite (mean_ext_all _ _ (fun a => 0 + 0 * 0)%Q) by (intros; ring). rewrite mean_linear. ring.
Qed.
Lemma opc_mean T past s a : s < states D -> a <= last_action D -> (given_action D mu stop T past s a (opc_target s) == q s a)%Q.
Proof.
  intros Hs Ha. rewrite (HQ s a Hs Ha). apply (tgt_mean D W mu HM stop (l_gamma c) v 1%Q (fun _ _ => 1%Q) (fun _ _ => 0%Q) opc opc_target); [reflexivity| | | | |exact Hs|exact Ha].
  - intros. unfold opc_target, next_value. cbn [over existsb ended orb map lrun fold_right l_init Q_opc earned]. ring.
  - intros s0 a0 r s' l H0 Ha0 Hl. unfold opc_target, opc. change (next_value v s0 (mkStep s0 a0 r s' false :: l)) with (next_value v s' l). cbn [earned]. ring.
  - intros s0 x l Hl. destruct (at_ s0 x l Hl) as (E & H0 & Ha0). unfold opc, opc_target. cbn [map]. unfold lrun at 1. cbn [fold_right]. fold (lrun c (next_value v s0 (x :: l)) (conv l)). unfold lbody. cbn [Q_opc acer_step l_r l_v l_q l_rho l_root]. rewrite E, <- (HQ s0 (took x) H0 Ha0). ring.
  - intros s0 H0. rewrite (mean_ext_all _ _ (fun a => 0 + 0 * 0)%Q) by (intros; ring). rewrite mean_linear. ring.
Qed.
Lemma acer_out before s x l : runs D s (x :: l) -> acer_estimate c before v q rho root pl s (x :: l) =
  (ret_target s (x :: l), ((if use_Q_opc c then opc_target s (x :: l) else ret_target s (x :: l)) - v s)%Q, if l_discrete c then None else Some (Qmin 1 (rho s (took x)) * (ret_target s (x :: l) - q s (took x)) + v s)%Q).
Proof.
  intros H. destruct (at_ s x l H) as (E & _). unfold acer_estimate, compute_loss. fold (l_init (next_value v s (x :: l))). rewrite lrun_fold. cbn [snd map].
  destruct (lrun_out c (next_value v s (x :: l)) (before ++ acer_step v q rho root pl x :: conv l) (length before) (acer_step v q rho root pl x) (nth_pre _ _ _)) as (rest & N & ->).
  rewrite (nth_error_nth _ _ _ N). assert (Es : skipn (S (length before)) (before ++ acer_step v q rho root pl x :: conv l) = conv l). { clear. induction before as [|y b IH]; [reflexivity|exact IH]. }
  rewrite Es. unfold lbody. cbn [l_out hd acer_step l_r l_v l_q l_rho l_root]. rewrite E. unfold ret_target, opc_target. destruct (use_Q_opc c), (l_discrete c); reflexivity.
Qed.
End Acer.
(** Given the action taken, the expected target of its value is its value for [pi], and the expected advantage is what it is worth more than the state; for
    continuous actions the expected target of the state value, over the actions of [mu], is the value of the state for [pi]. *)
Theorem C137_acer D c mu pi stop v q rho root pi_loss T past before s : well_formed D -> random_policy D mu -> exact_action_values D (l_gamma c) pi v q -> s < states D ->
  (forall a, a <= last_action D ->
    (given_action D mu stop T past s a (fun l => fst (fst (acer_estimate c before v q rho root pi_loss s l))) == q s a)%Q /\
    (given_action D mu stop T past s a (fun l => snd (fst (acer_estimate c before v q rho root pi_loss s l))) == q s a - v s)%Q) /\
  (l_discrete c = false -> (mean (mu s) (fun a => given_action D mu stop T past s a (fun l => match snd (acer_estimate c before v q rho root pi_loss s l) with Some t => t | None => 0 end)) == v s)%Q).
Proof.
  intros W HM [_ HQ] Hs. split.
  - intros a Ha. split.
    + rewrite <- (ret_mean D W c mu HM stop v q rho root pi_loss HQ T past s a Hs Ha). apply (given_ext D W mu HM stop); [exact Hs|exact Ha|]. intros x l Hl _. rewrite (acer_out D c v q rho root pi_loss before s x l Hl). reflexivity.
    + destruct (use_Q_opc c) eqn:EO.
      * rewrite (given_ext D W mu HM stop T past s a _ (fun l => - v s + 1 * opc_target c v q rho root pi_loss s l)%Q Hs Ha).
        -- rewrite (given_linear D W mu HM stop T past s a (- v s) 1 (opc_target c v q rho root pi_loss s) Hs Ha), (opc_mean D W c mu HM stop v q rho root pi_loss HQ T past s a Hs Ha). ring.
        -- intros x l Hl _. rewrite (acer_out D c v q rho root pi_loss before s x l Hl), EO. cbn [fst snd]. ring.
      * rewrite (given_ext D W mu HM stop T past s a _ (fun l => - v s + 1 * ret_target c v q rho root pi_loss s l)%Q Hs Ha).
        -- rewrite (given_linear D W mu HM stop T past s a (- v s) 1 (ret_target c v q rho root pi_loss s) Hs Ha), (ret_mean D W c mu HM stop v q rho root pi_loss HQ T past s a Hs Ha). ring.
        -- intros x l Hl _. rewrite (acer_out D c v q rho root pi_loss before s x l Hl), EO. cbn [fst snd]. ring.
  - intros EC. destruct (HM s Hs) as [H1 HA]. rewrite (mean_ext (mu s) _ (fun a => v s + 0 * 0)%Q).
    + rewrite mean_linear, H1. ring.
    + revert HA. apply Forall_impl. intros [p a] Ha. cbn [snd] in *. rewrite (given_ext D W mu HM stop T past s a _ (fun l => (v s - Qmin 1 (rho s a) * q s a) + Qmin 1 (rho s a) * ret_target c v q rho root pi_loss s l)%Q Hs Ha).
      * rewrite (given_linear D W mu HM stop T past s a _ _ (ret_target c v q rho root pi_loss s) Hs Ha), (ret_mean D W c mu HM stop v q rho root pi_loss HQ T past s a Hs Ha). ring.
      * intros x l Hl Hx. rewrite (acer_out D c v q rho root pi_loss before s x l Hl), EC, Hx. cbn [snd]. ring.
Qed.

(** ** Episodes that are cut: A2C stores mask 0 for the last step, and then its returns are biased *)
(** One state, one action, reward 1, no end; with discount 1/2 the state is worth 2.  The episode is cut after one step. *)
Definition endless : problem := {| states := 1; last_action := 0; outcomes := fun _ _ => [(1%Q, (1%Q, 0, false))] |}.
Definition only (s : nat) : list (Q * nat) := [(1%Q, 0)].
Definition never (past : list step) : bool := false.
(** the window with mask 0 for the last step of [l] *)
Definition a2c_cut (gamma : Q) (v : nat -> Q) (nv : Q) (l : list step) : Q :=
  a2c_return false gamma 1 (map (cell_of v) (removelast l) ++ map (fun x => (earned x, true, v (at_state x))) (lastn 1 l)) nv 0.
Theorem C137_a2c_cut_is_biased : well_formed endless /\ random_policy endless only /\ exact_values endless (1 # 2) only (fun _ => 2%Q) /\
  (action_value endless (1 # 2) (fun _ => 2) 0 0 == 2)%Q /\
  (forall nv, given_action endless only never 0 [] 0 0 (a2c_cut (1 # 2) (fun _ => 2) nv) == 1)%Q /\
  (forall lambda before, given_action endless only never 0 [] 0 0 (fun l => snd (ppo_estimate (1 # 2) lambda before (fun _ => 2) l)) == 2)%Q.
Proof.
  assert (W : well_formed endless). { intros s a _ _. split; [reflexivity|]. repeat constructor. cbn. discriminate. }
  assert (P : random_policy endless only) by (intros s _; split; [reflexivity|repeat constructor]). assert (V : exact_values endless (1 # 2) only (fun _ => 2%Q)) by (intros s _; reflexivity).
  split; [exact W|]. split; [exact P|]. split; [exact V|]. split; [reflexivity|]. split.
  - intros nv. unfold given_action, given_step, a2c_cut, a2c_return, compute_returns, lastn. cbv zeta. cbn [endless outcomes mean expected map removelast lastn length Nat.sub skipn app rev combine fst snd earned mask_of plain_returns nth]. ring.
  - intros lambda before. rewrite (proj2 (C137_ppo endless (1 # 2) lambda only never (fun _ => 2%Q) 0 [] before 0 0 W P V (le_n 1) (le_n 0))). reflexivity.
Qed.

(** ** An example: a coin is tossed until the game is left; state 1 pays more.  The policy takes both actions. *)
Definition game : problem := {| states := 2; last_action := 1; outcomes := fun s a =>
  match s, a with
  | 0, 0 => [((1 # 2)%Q, (1%Q, 0, true)); ((1 # 2)%Q, (0%Q, 1, false))]
  | 0, _ => [(1%Q, (0%Q, 1, false))]
  | _, 0 => [(1%Q, (4%Q, 0, true))]
  | _, _ => [(1%Q, (0%Q, 0, false))]
  end |}.
Definition mixed (s : nat) : list (Q * nat) := [((1 # 2)%Q, 0); ((1 # 2)%Q, 1)].
Definition game_values (s : nat) : Q := match s with 0 => (32 # 29)%Q | _ => (66 # 29)%Q end.
Example C137_game_wf : well_formed game.
Proof. intros s a Hs Ha. cbn in Hs, Ha. destruct s as [|[|s]]; [| |lia]; (destruct a as [|[|a]]; [| |lia]); (split; [reflexivity|]); repeat constructor; cbn; try discriminate; lia. Qed.
Example C137_game_policy : random_policy game mixed.
Proof. intros s _. split; [reflexivity|]. repeat constructor. Qed.
Example C137_game_exact : exact_values game (1 # 2) mixed game_values.
Proof. intros s Hs. cbn in Hs. destruct s as [|[|s]]; [vm_compute; reflexivity|vm_compute; reflexivity|lia]. Qed.
(** Up to three more steps, stopping earlier once the rewards so far reach 1; single advantages differ from their mean. *)
Definition rich (past : list step) : bool := Qle_bool 1 (fold_right Qplus 0%Q (map earned past)).
Example C137_game_ppo : let f l := fst (ppo_estimate (1 # 2) (3 # 4) [] game_values l) in
  (given_action game mixed rich 3 [] 0 0 f == action_value game (1 # 2) game_values 0 0 - game_values 0)%Q /\
  map Qred [f [mkStep 0 0 1 0 true]; f [mkStep 0 0 0 1 false]; f [mkStep 0 0 0 1 false; mkStep 1 0 4 0 true]] = [- (3) # 29; 1 # 29; 79 # 116]%Q.
Proof. split; vm_compute; reflexivity. Qed.
(** an exact table of action values and a behaviour policy that takes the first action 3 times out of 4 *)
Definition game_q (s a : nat) : Q := action_value game (1 # 2) game_values s a.
Example C137_game_acer_hyp : exact_action_values game (1 # 2) mixed game_values game_q /\ random_policy game (fun _ => [((3 # 4)%Q, 0); ((1 # 4)%Q, 1)]).
Proof.
  split; [split; [|reflexivity]|intros s _; split; [reflexivity|repeat constructor]]. intros s Hs. exact (C137_game_exact s Hs).
Qed.
(** Leaving is certain in this one: complete episodes. *)
Definition short : problem := {| states := 2; last_action := 0; outcomes := fun s _ => match s with 0 => [((1 # 2)%Q, (1%Q, 0, true)); ((1 # 2)%Q, (2%Q, 1, false))] | _ => [(1%Q, (4%Q, 0, true))] end |}.
Example C137_short : well_formed short /\ random_policy short only /\ exact_values short 1 only (fun s => match s with 0 => (7 # 2)%Q | _ => 4%Q end) /\ always_ends short only never 2 [] 0 /\
  (given_action short only never 1 [] 0 0 (fun l => snd (ppo_estimate 1 1 [] (fun s => match s with O => 5 | _ => - (3) end) l)) == 7 # 2)%Q.
Proof.
  split; [|split; [intros s _; split; [reflexivity|repeat constructor]|split; [|split; [|vm_compute; reflexivity]]]].
  - intros s a Hs Ha. cbn in Hs, Ha. destruct s as [|[|s]]; [| |lia]; (split; [reflexivity|]); repeat constructor; cbn; try discriminate; lia.
  - intros s Hs. cbn in Hs. destruct s as [|[|s]]; [vm_compute; reflexivity|vm_compute; reflexivity|lia].
  - cbn. split; [reflexivity|]. constructor; [|constructor]. constructor; [left; reflexivity|]. constructor; [|constructor]. right. split; [reflexivity|]. constructor; [|constructor]. constructor; [left; reflexivity|constructor].
Qed.

Print Assumptions C137_ppo.
Print Assumptions C137_ppo_complete.
Print Assumptions C137_a2c.
Print Assumptions C137_a3c.
Print Assumptions C137_acer.
Print Assumptions C137_a2c_cut_is_biased.
