(** Proofs for C118 and C119. *)
From Coq Require Import QArith Permutation.
From Verif Require Import Base P_Base M_RandomAccessQueue M_ReplayBuffer S_ReplayBuffer P_ReplayBuffer M_OffPolicy S_OffPolicy P_OffPolicy M_Train M_VectorEnv M_VecLoop S_VecLoop P_VecLoop M_VecAgents S_VecAgents.
Close Scope Q_scope. Open Scope nat_scope.

(** ** Episodes of the calls of a replay buffer, one environment at a time *)
Section Filter.
Context {T : Type}.
Lemma episodes_filter e (ops : list (rb_op T)) : episodes e ops = episodes e (filter (fun o => env_of o =? e) ops).
Proof.
  unfold episodes. generalize (@nil (list (trans T)), @nil (trans T)). induction ops as [|o ops IH]; intros s; [reflexivity|]. cbn [fold_left filter]. rewrite IH.
  destruct (env_of o =? e) eqn:En; [reflexivity|]. f_equal. destruct s as [d c], o as [e' t|e']; cbn in *; now rewrite En.
Qed.
End Filter.

Section Off.
Context {O A : Type}.
Notation tr := (M_OffPolicy.transition O A Q).
Notation vs := (vstep O A).
(** What the replay buffer is told of one step. *)
Definition store_ops (i : nat) (x : vs) : list (rb_op tr) := RAppend i (off_transition x) :: (if s_done x || s_reset x then [RStop i] else []).
Lemma ended_eq (x : vs) : ended x = s_done x || s_reset x.
Proof. destruct x as [[[[[? ?] ?] ?] ?] ?]; reflexivity. Qed.
Lemma ongoing_steps i : forall (l : list vs) d c, Forall (fun y => ended y = false) l -> fold_left (ep_step i) (flat_map (store_ops i) l) (d, c) = (d, c ++ map off_transition l).
Proof.
  induction l as [|x l IH]; intros d c F; [now rewrite app_nil_r|]. apply Forall_cons_iff in F. destruct F as [Fx F]. rewrite ended_eq in Fx. cbn [flat_map]. unfold store_ops at 1. rewrite Fx. cbn [app fold_left ep_step].
  rewrite Nat.eqb_refl. apply orb_false_elim in Fx. destruct Fx as [Fd _]. unfold off_transition at 1. cbn [terminal]. rewrite Fd. rewrite IH by exact F. cbn [map]. rewrite <- app_assoc. reflexivity.
Qed.
Lemma last_step i (x : vs) d c : ended x = true -> fold_left (ep_step i) (store_ops i x) (d, c) = (d ++ [c ++ [off_transition x]], []).
Proof.
  intros E. rewrite ended_eq in E. unfold store_ops. rewrite E. cbn [fold_left ep_step]. rewrite Nat.eqb_refl. unfold off_transition at 1. cbn [terminal]. destruct (s_done x).
  - cbn [fold_left ep_step]. rewrite Nat.eqb_refl. reflexivity.
  - cbn [fold_left ep_step]. rewrite Nat.eqb_refl. destruct (c ++ [off_transition x]) eqn:N; [destruct c; discriminate|]. reflexivity.
Qed.
Lemma whole_steps ml i (p : vplay O A) d : whole ml p -> fold_left (ep_step i) (flat_map (store_ops i) (lived ml p)) (d, []) = (d ++ [map off_transition (lived ml p)], []).
Proof.
  intros (init & x & -> & E & F). rewrite flat_map_app, fold_left_app, ongoing_steps by exact F. cbn [flat_map app]. rewrite app_nil_r, last_step by exact E. now rewrite map_app.
Qed.
Lemma episodes_lived ml i (eps : list (vplay O A)) p : Forall (whole ml) eps -> whole ml p \/ ongoing ml p ->
  episodes i (flat_map (store_ops i) (flat_map (lived ml) (eps ++ [p]))) = (map (fun q => map off_transition (lived ml q)) eps, map off_transition (lived ml p)) /\ ongoing ml p \/
  episodes i (flat_map (store_ops i) (flat_map (lived ml) (eps ++ [p]))) = (map (fun q => map off_transition (lived ml q)) (eps ++ [p]), []) /\ whole ml p.
Proof.
  intros F Hp. assert (G : forall d, fold_left (ep_step i) (flat_map (store_ops i) (flat_map (lived ml) eps)) (d, []) = (d ++ map (fun q => map off_transition (lived ml q)) eps, [])).
  { induction F as [|q eps Hq F IH]; intros d; [now rewrite app_nil_r|]. cbn [flat_map]. rewrite flat_map_app, fold_left_app, (whole_steps ml i q d Hq), IH, <- app_assoc. reflexivity. }
  unfold episodes. rewrite flat_map_app. cbn [flat_map]. rewrite app_nil_r, flat_map_app, fold_left_app, G. cbn [app]. destruct Hp as [Hp|Hp].
  - right. split; [|exact Hp]. rewrite whole_steps by exact Hp. now rewrite map_app.
  - left. split; [|exact Hp]. now rewrite ongoing_steps by exact Hp.
Qed.

(** ** The bookkeeping of the agent *)
Definition as_call (c : acall O A) : M_OffPolicy.call O A Q :=
  match c with CAct obss actions => Act obss actions | CObserve obss rs ds es => Observe obss rs ds es end.
Lemma round_calls_eq (r : list vs) : map as_call (asked_and_told r) = round_calls r.
Proof. reflexivity. Qed.
Lemma rounds_calls (rounds : list (list vs)) : map as_call (flat_map asked_and_told rounds) = flat_map round_calls rounds.
Proof. induction rounds as [|r rounds IH]; [reflexivity|]. cbn [flat_map]. now rewrite map_app, IH, round_calls_eq. Qed.
Lemma in_training_rounds (rounds : list (list vs)) : in_training true (flat_map round_calls rounds) = flat_map (@round_calls O A Q) rounds.
Proof. induction rounds as [|r rounds IH]; [reflexivity|]. cbn [flat_map]. unfold round_calls at 1 3. cbn [app in_training]. now rewrite IH. Qed.
Lemma buffer_calls_app (a b : list (M_OffPolicy.event O A Q)) : buffer_calls (a ++ b) = buffer_calls a ++ buffer_calls b.
Proof. apply flat_map_app. Qed.
Lemma buffer_filter i (evs : list (M_OffPolicy.event O A Q)) : filter (fun o => env_of o =? i) (buffer_calls evs) = buffer_calls (filter (about i) evs).
Proof.
  induction evs as [|e evs IH]; [reflexivity|]. rewrite (buffer_calls_app [e] evs : buffer_calls (e :: evs) = _), filter_app, IH.
  destruct e as [|j x|j|t]; cbn [filter about]; [reflexivity| | |reflexivity]; destruct (j =? i) eqn:Ej; cbn [buffer_calls flat_map app filter env_of]; rewrite Ej; reflexivity.
Qed.
Lemma expected_column iv T i (rounds : list (list vs)) : buffer_calls (filter (about i) (expected iv T rounds)) = flat_map (store_ops i) (column i rounds).
Proof.
  rewrite about_expected. unfold column. induction rounds as [|r rounds IH]; [reflexivity|]. cbn [flat_map]. rewrite buffer_calls_app, flat_map_app, <- IH. f_equal.
  unfold S_OffPolicy.env_step, vstep in *. destruct (nth_error r i) as [[[[[[o a] q] o'] d] e]|]; [|reflexivity]. cbn. destruct (d || e); reflexivity.
Qed.

Lemma calls_snoc iv c : forall cs (s : M_OffPolicy.agent O A), calls iv s (cs ++ [c]) = (' (s1, e) <- calls iv s cs ;; ' (s2, e') <- M_OffPolicy.step iv s1 c ;; Ok (s2, e ++ e')) :> result (M_OffPolicy.agent O A * list (M_OffPolicy.event O A Q)).
Proof.
  induction cs as [|c0 cs IH]; intros s; cbn [app calls].
  - cbn [rbind]. destruct (M_OffPolicy.step iv s c) as [[s1 e]|]; cbn [rbind app]; [rewrite app_nil_r; reflexivity|reflexivity].
  - destruct (M_OffPolicy.step iv s c0) as [[s1 e]|]; cbn [rbind]; [|reflexivity]. rewrite IH. destruct (calls iv s1 cs) as [[s2 e2]|]; cbn [rbind]; [|reflexivity]. destruct (M_OffPolicy.step iv s2 c) as [[s3 e3]|]; cbn [rbind]; [|reflexivity]. now rewrite app_assoc.
Qed.
End Off.

Section OffRun.
Context {E O A Sd V Pl X : Type} (G : genv E O A (Q * bool * bool) Sd V) (iv : option nat).
Context (choose : list O -> Pl -> Pl * list A) (learn : list (M_OffPolicy.event O A Q) -> Pl -> Pl) (hooks : list (nat -> Pl -> Pl * result unit)) (evaluate : option (nat -> nat -> Pl * X -> (Pl * X) * result (option Q))) (best : X -> Q).
Definition off_run P envs last pl x :=
  vtrain G (plug_act choose off_ask) (plug_observe (off_tell iv) learn) off_set_t (map lift_hook hooks) (option_map lift_eval evaluate) best P envs last (off_new pl) x.
Lemma off_core_calls P envs last pl x w r : off_run P envs last pl x = (w, r) ->
  core (vw_agent w) = calls iv (set_t init (a_offset P)) (map as_call (vw_calls w)).
Proof.
  intros H. unfold off_run in H. eapply (vtrain_inv G _ _ _ _ _ _ _ _ _ _ _ w r (fun cs s => core s = calls iv (set_t init (a_offset P)) (map as_call cs))); [| | | | |exact H].
  - intros cs s obss s' r' I Ha. unfold plug_act in Ha. destruct (core s) as [c|e] eqn:Ec.
    + destruct (choose obss (policy s)) as [p actions] eqn:Ch. cbn [off_ask] in Ha. unfold off_ask in Ha. injection Ha as <- <-. cbn [core]. rewrite map_app. cbn [map as_call]. rewrite calls_snoc, <- I. destruct c as [a e]. cbn [rbind fst snd M_OffPolicy.step]. now rewrite app_nil_r.
    + injection Ha as <- <-. rewrite app_nil_r. now rewrite Ec.
  - intros cs s obss rs ds es s' r' I Ho. unfold plug_observe in Ho. rewrite map_app. cbn [map as_call]. rewrite calls_snoc, <- I. destruct (core s) as [[a e]|e] eqn:Ec.
    + unfold off_tell in Ho. cbn [fst snd] in Ho. cbn [rbind M_OffPolicy.step]. destruct (M_OffPolicy.batch_observe iv a obss rs ds es) as [[a' e']|y]; cbn [rbind] in *; injection Ho as <- <-; reflexivity.
    + injection Ho as <- <-. cbn [rbind]. exact Ec.
  - intros h t cs s s' r' Hh I Ha. apply in_map_iff in Hh. destruct Hh as (g & <- & _). unfold lift_hook in Ha. destruct (g t (policy s)). injection Ha as <- _. exact I.
  - intros f t k cs s y s' y' r' Hf I Ha. destruct evaluate as [g|]; [|discriminate]. injection Hf as <-. unfold lift_eval in Ha. cbn [fst snd] in Ha. destruct (g t k (policy s, y)) as [[p z] q]. injection Ha as <- _ _. exact I.
  - reflexivity.
Qed.

Context (same : forall obss pl pl' actions, choose obss pl = (pl', actions) -> length actions = length obss).
Lemma off_act_length obss s s' actions : plug_act choose (@off_ask O A) obss s = (s', Ok actions) -> length actions = length obss.
Proof. unfold plug_act. destruct (core s) as [c|]; [|discriminate]. destruct (choose obss (policy s)) as [p a] eqn:Ec. cbn [off_ask]. unfold off_ask. intros H. injection H as _ <-. exact (same _ _ _ _ Ec). Qed.

Lemma off_events P envs last pl x w r : iv <> Some 0 -> envs <> [] -> length last = length envs -> off_run P envs last pl x = (w, r) ->
  length (fst (vw_envs w)) = length envs /\
  exists rounds c, vw_calls w = flat_map asked_and_told rounds /\ Forall (fun r => length r = length envs) rounds /\
    core (vw_agent w) = Ok (c, expected iv (a_offset P) rounds) /\
    forall i v log, nth_error (fst (vw_envs w)) i = Some (v, log) -> column i rounds = flat_map (lived (a_max_episode_len P)) (vplays log) /\
      exists eps p, vplays log = eps ++ [p] /\ Forall (whole (a_max_episode_len P)) eps /\ (whole (a_max_episode_len P) p \/ ongoing (a_max_episode_len P) p).
Proof.
  intros Hiv He Hl H. destruct (vtrain_told G _ _ _ _ _ _ _ _ _ _ _ _ _ off_act_length He Hl H) as (L & rounds & Hc & Fr & Hi). split; [exact L|].
  pose proof (off_core_calls _ _ _ _ _ _ _ H) as Cc. rewrite Hc, rounds_calls in Cc.
  destruct (rounds_ok iv rounds (set_t init (a_offset P)) Hiv eq_refl) as (c & Ec & _). exists rounds, c. split; [exact Hc|]. split; [exact Fr|]. split; [rewrite Cc; exact Ec|]. exact Hi.
Qed.
End OffRun.

(** ** The contents of a replay buffer after the first calls *)
Section Log.
Context {T : Type}.
Lemma log_from_app n (a : list (rb_op T)) : forall past b, log_from n past (a ++ b) = log_from n past a ++ log_from n (past ++ a) b.
Proof. induction a as [|o a IH]; intros past b; cbn [app log_from]; [now rewrite app_nil_r|]. rewrite IH, <- !app_assoc. reflexivity. Qed.
Lemma log_app n (a b : list (rb_op T)) : log n (a ++ b) = log n a ++ log_from n a b.
Proof. unfold log. rewrite log_from_app. reflexivity. Qed.
Lemma stored_filter n e (ops : list (rb_op T)) : stored n e ops = stored n e (filter (fun o => env_of o =? e) ops).
Proof. unfold stored. now rewrite <- episodes_filter. Qed.
Lemma log_keys n N (ops : list (rb_op T)) : 0 < n -> (forall e, N <= e -> filter (fun o => env_of o =? e) ops = []) -> Forall (fun x => fst x < N) (log n ops).
Proof.
  intros Hn H. apply Forall_forall. intros [e w] Hin. cbn [fst]. destruct (Nat.lt_ge_cases e N) as [|Hge]; [assumption|]. exfalso.
  pose proof (log_env T n e ops Hn) as Le. rewrite stored_filter, (H e Hge) in Le. destruct n as [|n]; [lia|]. cbn in Le. apply map_eq_nil in Le.
  assert (I : In (e, w) (filter (fun p => fst p =? e) (log (S n) ops))) by (apply filter_In; split; [exact Hin|apply Nat.eqb_refl]). rewrite Le in I. destruct I.
Qed.
End Log.
Lemma column_over {O A} i N (rounds : list (list (vstep O A))) : Forall (fun r => length r = N) rounds -> N <= i -> column i rounds = [].
Proof. induction 1 as [|r rounds Hr F IH]; intros Hi; [reflexivity|]. unfold column. cbn [flat_map]. rewrite (proj2 (nth_error_None r i)) by lia. cbn [app]. apply IH, Hi. Qed.
Section OffBuffer.
Context {O A : Type}.
Lemma expected_stored iv T n i ml (rounds : list (list (vstep O A))) eps p : 0 < n -> column i rounds = flat_map (lived ml) (eps ++ [p]) -> Forall (whole ml) eps -> whole ml p \/ ongoing ml p ->
  (whole ml p /\ stored n i (buffer_calls (expected iv T rounds)) = flat_map (fun q => windows n (map off_transition (lived ml q))) (eps ++ [p])) \/
  (ongoing ml p /\ stored n i (buffer_calls (expected iv T rounds)) = flat_map (fun q => windows n (map off_transition (lived ml q))) eps ++ full_windows n (map off_transition (lived ml p))).
Proof.
  intros Hn Hc F Hp. rewrite stored_filter, buffer_filter, expected_column, Hc.
  assert (M : forall l : list (vplay O A), flat_map (windows n) (map (fun q => map off_transition (lived ml q)) l) = flat_map (fun q => windows n (map off_transition (lived ml q))) l).
  { induction l as [|q l IH]; [reflexivity|]. cbn [map flat_map]. now rewrite IH. }
  unfold stored. destruct (episodes_lived ml i eps p F Hp) as [[-> Ho]|[-> Hw]]; cbn [fst snd]; [right|left]; split; try assumption; rewrite M; [reflexivity|].
  destruct n as [|n]; [lia|]. unfold full_windows. cbn [length Nat.add]. change (1 - S n) with (0 - n). rewrite Nat.sub_0_l. cbn [seq map]. now rewrite app_nil_r.
Qed.
End OffBuffer.
