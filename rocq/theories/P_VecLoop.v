(** Proofs for C117. *)
From Coq Require Import QArith.
From Verif Require Import Base P_Base M_Wrappers M_Train M_VectorEnv P_Loop M_VecLoop S_VecLoop.
Close Scope Q_scope. Open Scope nat_scope.

Section Lists.
Lemma nth_error_ext {T} (l l' : list T) : length l = length l' -> (forall i x, nth_error l i = Some x -> nth_error l' i = Some x) -> l = l'.
Proof.
  revert l'. induction l as [|x l IH]; intros [|y l'] L H; try discriminate; [reflexivity|]. f_equal; [specialize (H 0 x eq_refl); cbn in H; congruence|].
  apply IH; [cbn in L; lia|]. intros i z. exact (H (S i) z).
Qed.
Lemma some_nth {T} (l : list T) i : i < length l -> exists x, nth_error l i = Some x.
Proof. intros H. destruct (nth_error l i) eqn:E; [eauto|]. apply nth_error_None in E. lia. Qed.
Lemma nth_lt {T} (l : list T) i x : nth_error l i = Some x -> i < length l.
Proof. intros H. apply nth_error_Some. congruence. Qed.
Lemma nth_combine {X Y} : forall (a : list X) (b : list Y) i x y, nth_error a i = Some x -> nth_error b i = Some y -> nth_error (combine a b) i = Some (x, y).
Proof. induction a as [|u a IH]; intros [|v b] [|i] x y H1 H2; cbn in *; try discriminate; [congruence|auto]. Qed.
Lemma to_last_app {T} (f : T -> T) l x : to_last f (l ++ [x]) = l ++ [f x].
Proof. induction l as [|y l IH]; [reflexivity|]. destruct l as [|z l]; [reflexivity|]. change (y :: to_last f ((z :: l) ++ [x]) = y :: (z :: l) ++ [f x]). now rewrite IH. Qed.
End Lists.

Section Vec.
Context {E Ob Ac Sd V S X : Type}.
Context (G : genv E Ob Ac (Q * bool * bool) Sd V).
Notation R := (recorded G).

Lemma rec_reset v log : g_reset R (v, log) = ((fst (g_reset G v), log ++ [LReset (snd (g_reset G v))]), snd (g_reset G v)).
Proof. cbn [recorded g_reset fst snd]. now destruct (g_reset G v). Qed.

(** ** The vector environment, one environment at a time *)
Lemma serial_step_ok : forall (ws : list (E * list (lcall Ob Ac))) actions ws' outs, length actions = length ws -> serial_step R ws actions = (ws', outs) ->
  length ws' = length ws /\ length outs = length ws /\
  forall i w a, nth_error ws i = Some w -> nth_error actions i = Some a -> nth_error ws' i = Some (fst (g_step R a w)) /\ nth_error outs i = Some (snd (g_step R a w)).
Proof.
  induction ws as [|w ws IH]; intros [|a actions] ws' outs L Es; cbn [length] in L; try discriminate; cbn [serial_step] in Es.
  - injection Es as <- <-. split; [reflexivity|]. split; [reflexivity|]. intros [|i]; discriminate.
  - destruct (g_step R a w) as [w1 r] eqn:E1. destruct (serial_step R ws actions) as [ws1 rs] eqn:E2. injection Es as <- <-. destruct (IH _ _ _ (eq_add_S _ _ L) E2) as (L1 & L2 & H). cbn [length].
    split; [lia|]. split; [lia|]. intros [|i] w0 a0 Hw Ha; cbn [nth_error] in *; [injection Hw as <-; injection Ha as <-; now rewrite E1|now apply H].
Qed.
Lemma serial_reset_ok : forall mask (ws : list (E * list (lcall Ob Ac))) last ws' obs, length mask = length ws -> length last = length ws -> serial_reset R mask ws last = (ws', obs) ->
  length ws' = length ws /\ length obs = length ws /\
  forall i m w o, nth_error mask i = Some m -> nth_error ws i = Some w -> nth_error last i = Some o ->
    if m : bool then nth_error ws' i = Some w /\ nth_error obs i = Some o else nth_error ws' i = Some (fst (g_reset R w)) /\ nth_error obs i = Some (Some (snd (g_reset R w))).
Proof.
  induction mask as [|m mask IH]; intros [|w ws] [|o last] ws' obs L1 L2 Es; cbn [length] in L1, L2; try discriminate; cbn [serial_reset] in Es.
  - injection Es as <- <-. split; [reflexivity|]. split; [reflexivity|]. intros [|i]; discriminate.
  - assert (Es' : exists ws1 os, serial_reset R mask ws last = (ws1, os) /\
      (ws', obs) = if m then (w :: ws1, o :: os) else (fst (g_reset R w) :: ws1, Some (snd (g_reset R w)) :: os)).
    { destruct m; [destruct (serial_reset R mask ws last) as [ws1 os]|destruct (g_reset R w) as [w1 ob]; destruct (serial_reset R mask ws last) as [ws1 os]]; exists ws1, os; split; auto. }
    destruct Es' as (ws1 & os & E1 & E2). destruct (IH ws last ws1 os ltac:(lia) ltac:(lia) E1) as (K1 & K2 & H).
    destruct m; injection E2 as -> ->; cbn [length]; (split; [lia|]; split; [lia|]); intros [|i] m0 w0 o0 Hm Hw Ho; cbn [nth_error] in *;
      try (injection Hm as <-; injection Hw as <-; injection Ho as <-; auto; fail); now apply (H i m0 w0 o0).
Qed.
Lemma all_some_ok (l : list (option Ob)) : (forall i, i < length l -> exists o, nth_error l i = Some (Some o)) ->
  exists os, all_some l = Ok os /\ length os = length l /\ forall i o, nth_error l i = Some (Some o) -> nth_error os i = Some o.
Proof.
  induction l as [|x l IH]; intros H; [exists []; repeat split; auto; intros [|i]; discriminate|].
  destruct (H 0) as [o Ho]; [cbn; lia|]. cbn in Ho. injection Ho as ->. destruct IH as (os & E1 & L & N); [intros i Hi; apply (H (Datatypes.S i)); cbn; lia|].
  exists (o :: os). cbn [all_some]. rewrite E1. split; [reflexivity|]. split; [cbn; lia|]. intros [|i] o'; cbn; [congruence|apply N].
Qed.

(** ** Episodes *)
Context (ml : option nat).
Definition last_ob (p : vplay Ob Ac) : Ob := match rev (snd p) with [] => fst p | (_, o, _) :: _ => o end.
Definition cut (len : nat) (needs : bool) : bool := match ml with Some m => len =? m | None => false end || needs.
Lemma lived_from_app k (o : Ob) (l : list (Ac * Ob * (Q * bool * bool))) a o' r d nd : lived_from ml k o (l ++ [(a, o', (r, d, nd))]) =
  lived_from ml k o l ++ [(match rev l with [] => o | (_, o1, _) :: _ => o1 end, a, r, o', d, cut (Datatypes.S (k + length l)) nd)].
Proof.
  revert k o. induction l as [|[[b o1] [[r1 d1] n1]] l IH]; intros k o; [cbn; now rewrite Nat.add_0_r|]. cbn [app lived_from]. rewrite IH. cbn [app length rev].
  replace (Datatypes.S k + length l) with (k + Datatypes.S (length l)) by lia. destruct (rev l) as [|[[? ?] ?] t]; reflexivity.
Qed.
Lemma lived_snoc (p : vplay Ob Ac) a o r d nd : lived ml (fst p, snd p ++ [(a, o, (r, d, nd))]) = lived ml p ++ [(last_ob p, a, r, o, d, cut (Datatypes.S (length (snd p))) nd)].
Proof. unfold lived. cbn [fst snd]. rewrite lived_from_app. reflexivity. Qed.
Lemma plays_app log (c : lcall Ob Ac) : vplays (log ++ [c]) = vrecord (vplays log) c.
Proof. unfold vplays. now rewrite fold_left_app. Qed.

(** What is known of the i-th environment between two steps: its record, its last observation, the length of its present episode, whether it has ended, what the agent was shown. *)
Definition at_env (log : list (lcall Ob Ac)) (obs : Ob) (len : nat) (over : bool) (seen : list (vstep Ob Ac)) : Prop :=
  exists eps p, vplays log = eps ++ [p] /\ Forall (whole ml) eps /\ (if over then whole ml p else ongoing ml p) /\ last_ob p = obs /\ length (snd p) = len /\ seen = flat_map (lived ml) (eps ++ [p]).
(** What remains true whatever happens. *)
Definition told (log : list (lcall Ob Ac)) (seen : list (vstep Ob Ac)) : Prop :=
  seen = flat_map (lived ml) (vplays log) /\ exists eps p, vplays log = eps ++ [p] /\ Forall (whole ml) eps /\ (whole ml p \/ ongoing ml p).
Lemma at_env_told log obs len over seen : at_env log obs len over seen -> told log seen.
Proof. intros (eps & p & H1 & H2 & H3 & _ & _ & H6). split; [now rewrite H1|]. exists eps, p. repeat split; auto. destruct over; auto. Qed.
Lemma at_env_first o : at_env [LReset o] o 0 false [].
Proof. exists [], (o, []). repeat split; constructor. Qed.
Lemma at_env_reset log obs len seen o : at_env log obs len true seen -> at_env (log ++ [LReset o]) o 0 false seen.
Proof.
  intros (eps & p & H1 & H2 & H3 & _ & _ & H6). exists (eps ++ [p]), (o, []). rewrite plays_app, H1. split; [reflexivity|]. split; [apply Forall_app; auto|]. split; [constructor|]. split; [reflexivity|].
  split; [reflexivity|]. rewrite (flat_map_app _ (eps ++ [p])). cbn. now rewrite app_nil_r.
Qed.
Lemma at_env_step log obs len seen a o r d nd : at_env log obs len false seen ->
  at_env (log ++ [LStep a o (r, d, nd)]) o (Datatypes.S len) (d || cut (Datatypes.S len) nd) (seen ++ [(obs, a, r, o, d, cut (Datatypes.S len) nd)]).
Proof.
  intros (eps & p & H1 & H2 & H3 & H4 & H5 & H6). exists eps, (fst p, snd p ++ [(a, o, (r, d, nd))]). rewrite plays_app, H1. cbn [vrecord]. rewrite to_last_app. split; [reflexivity|]. split; [exact H2|].
  pose proof (lived_snoc p a o r d nd) as L. rewrite H4, H5 in L. split.
  - destruct (d || cut _ nd) eqn:En.
    + exists (lived ml p), (obs, a, r, o, d, cut (Datatypes.S len) nd). split; [exact L|]. split; [exact En|exact H3].
    + unfold ongoing. rewrite L. apply Forall_app. split; [exact H3|]. constructor; [exact En|constructor].
  - split; [unfold last_ob; cbn [snd]; rewrite rev_app_distr; reflexivity|]. split; [cbn [snd]; rewrite app_length; cbn; lia|].
    rewrite H6, !flat_map_app. cbn [flat_map]. rewrite L, !app_nil_r. now rewrite app_assoc.
Qed.

(** ** The calls *)
Definition tell (i : nat) (c : acall Ob Ac) (st : option (Ob * Ac) * list (vstep Ob Ac)) : option (Ob * Ac) * list (vstep Ob Ac) :=
  match c with
  | CAct obss actions => (match nth_error obss i, nth_error actions i with Some o, Some a => Some (o, a) | _, _ => None end, snd st)
  | CObserve obss rs dones resets =>
      (None, match fst st, nth_error obss i, nth_error rs i, nth_error dones i, nth_error resets i with
             | Some (o, a), Some o', Some r, Some d, Some e => snd st ++ [(o, a, r, o', d, e)]
             | _, _, _, _, _ => snd st
             end)
  end.
Definition shown (i : nat) (calls : list (acall Ob Ac)) : list (vstep Ob Ac) := snd (fold_left (fun st c => tell i c st) calls (None, [])).

Definition pending (i : nat) (calls : list (acall Ob Ac)) : option (Ob * Ac) := fst (fold_left (fun st c => tell i c st) calls (None, [])).
Lemma tell_app i (calls : list (acall Ob Ac)) c : fold_left (fun st c => tell i c st) (calls ++ [c]) (None, []) = tell i c (pending i calls, shown i calls).
Proof. rewrite fold_left_app. cbn [fold_left]. unfold pending, shown. now destruct (fold_left (fun st c => tell i c st) calls (None, [])). Qed.
Lemma shown_act i (calls : list (acall Ob Ac)) obss actions : shown i (calls ++ [CAct obss actions]) = shown i calls.
Proof. unfold shown at 1. rewrite tell_app. reflexivity. Qed.
Lemma pending_act i (calls : list (acall Ob Ac)) obss actions o a : nth_error obss i = Some o -> nth_error actions i = Some a -> pending i (calls ++ [CAct obss actions]) = Some (o, a).
Proof. intros H1 H2. unfold pending at 1. rewrite tell_app. cbn. now rewrite H1, H2. Qed.
Lemma shown_observe i (calls : list (acall Ob Ac)) obss rs ds es o a o' r d e : pending i calls = Some (o, a) -> nth_error obss i = Some o' -> nth_error rs i = Some r -> nth_error ds i = Some d -> nth_error es i = Some e ->
  shown i (calls ++ [CObserve obss rs ds es]) = shown i calls ++ [(o, a, r, o', d, e)].
Proof. intros H H1 H2 H3 H4. unfold shown at 1. rewrite tell_app. cbn. now rewrite H, H1, H2, H3, H4. Qed.

Lemma shown_rounds i (rounds : list (list (vstep Ob Ac))) : shown i (flat_map asked_and_told rounds) = column i rounds.
Proof.
  induction rounds as [|r rounds IH] using rev_ind; [reflexivity|]. unfold column in *. rewrite !flat_map_app, <- IH. cbn [flat_map]. rewrite !app_nil_r. unfold asked_and_told at 2.
  change [CAct (map s_obs r) (map s_action r); CObserve (map s_next r) (map s_reward r) (map s_done r) (map s_reset r)] with
    ([CAct (map s_obs r) (map s_action r)] ++ [CObserve (map s_next r) (map s_reward r) (map s_done r) (map s_reset r)]). rewrite app_assoc.
  destruct (nth_error r i) as [[[[[[o a] q] o'] d] e]|] eqn:N.
  - erewrite shown_observe; [rewrite shown_act; reflexivity| | | | |]; [apply pending_act| | | |]; rewrite nth_error_map, N; reflexivity.
  - unfold shown at 1. rewrite tell_app. cbn [tell snd]. rewrite !nth_error_map, N. cbn [option_map]. rewrite shown_act, app_nil_r. destruct (pending _ _) as [[? ?]|]; reflexivity.
Qed.
(** Rounds from their columns. *)
Lemma make_round : forall n (obss : list Ob) (actions : list Ac) (outs : list (Ob * Q * bool * bool)) resets, length obss = n -> length actions = n -> length outs = n -> length resets = n ->
  exists r, length r = n /\ asked_and_told r = [CAct obss actions; CObserve (map (fun '(o, _, _, _) => o) outs) (map (fun '(_, r, _, _) => r) outs) (map (fun '(_, _, d, _) => d) outs) resets].
Proof.
  induction n as [|n IH]; intros [|o obss] [|a actions] [|[[[o' r] d] nd] outs] [|e resets] L1 L2 L3 L4; try discriminate; [exists []; split; reflexivity|].
  destruct (IH obss actions outs resets) as (l & Ll & El); try (cbn in *; lia). exists ((o, a, r, o', d, e) :: l). split; [cbn; lia|]. unfold asked_and_told in *. injection El as E1 E2 E3 E4 E5 E6. cbn [map s_obs s_action s_reward s_next s_done s_reset]. now rewrite E1, E2, E3, E4, E5, E6.
Qed.

(** ** The training loop *)
Context (act : list Ob -> S -> S * result (list Ac)) (observe : list Ob -> list Q -> list bool -> list bool -> S -> S * result unit).
Context (hooks : list (nat -> S -> S * result unit)) (evaluate : option (nat -> nat -> S * X -> (S * X) * result (option Q))) (best : X -> Q).
Context (n : nat).
Context (Hn : 0 < n) (act_length : forall obss s s' actions, act obss s = (s', Ok actions) -> length actions = length obss).
Notation W := (vworld E Ob Ac S X).
Notation user := (vuser G act observe hooks evaluate best n).

Definition logs (w : W) := map snd (fst (vw_envs w)).
(** The agent was called in rounds of [n] steps. *)
Definition in_rounds (calls : list (acall Ob Ac)) : Prop := exists rounds, calls = flat_map asked_and_told rounds /\ Forall (fun r => length r = n) rounds.
(** Between two passes: [ov] says which episodes have ended. *)
Definition between (ov : list bool) (obss : list Ob) (lens : list nat) (w : W) : Prop :=
  in_rounds (vw_calls w) /\ length (fst (vw_envs w)) = n /\ snd (vw_envs w) = map Some obss /\ length obss = n /\ length lens = n /\ length ov = n /\
  forall i v log o len b, nth_error (fst (vw_envs w)) i = Some (v, log) -> nth_error obss i = Some o -> nth_error lens i = Some len -> nth_error ov i = Some b ->
    at_env log o len b (shown i (vw_calls w)).
Definition all_told (w : W) : Prop := length (fst (vw_envs w)) = n /\ in_rounds (vw_calls w) /\ forall i v log, nth_error (fst (vw_envs w)) i = Some (v, log) -> told log (shown i (vw_calls w)).
Lemma between_told ov obss lens w : between ov obss lens w -> all_told w.
Proof.
  intros (Rs & L & _ & L1 & L2 & L3 & H). split; [exact L|]. split; [exact Rs|]. intros i v log N. pose proof (nth_lt _ _ _ N) as Hi. destruct (some_nth obss i ltac:(lia)) as [o Ho]. destruct (some_nth lens i ltac:(lia)) as [len Hl].
  destruct (some_nth ov i ltac:(lia)) as [b Hb]. exact (at_env_told _ _ _ _ _ (H _ _ _ _ _ _ N Ho Hl Hb)).
Qed.
Lemma between_same ov obss lens (w w' : W) : vw_envs w' = vw_envs w -> vw_calls w' = vw_calls w -> between ov obss lens w -> between ov obss lens w'.
Proof. intros E1 E2. unfold between. now rewrite E1, E2. Qed.

(** After batch_act. *)
Definition acted (obss : list Ob) (lens : list nat) (actions : list Ac) (w : W) : Prop :=
  length (fst (vw_envs w)) = n /\ snd (vw_envs w) = map Some obss /\ length obss = n /\ length lens = n /\ length actions = n /\
  (exists before, vw_calls w = before ++ [CAct obss actions] /\ in_rounds before) /\
  (forall i v log o len, nth_error (fst (vw_envs w)) i = Some (v, log) -> nth_error obss i = Some o -> nth_error lens i = Some len -> at_env log o len false (shown i (vw_calls w))) /\
  forall i o a, nth_error obss i = Some o -> nth_error actions i = Some a -> pending i (vw_calls w) = Some (o, a).
Lemma act_ok (ev : result (list Ac) -> bev) obss lens : hoare (between (repeat false n) obss lens) (pcall ev (batch_act user obss)) (fun actions w => acted obss lens actions w) all_told.
Proof.
  apply hoare_call. intros w H. unfold vuser. cbn [batch_act]. destruct (act obss (vw_agent w)) as [s [actions|x]] eqn:Ea; cbn [fst snd].
  - destruct H as (Rs & H1 & H2 & H3 & H4 & H5 & H6). unfold acted. cbn [vw_envs vw_calls]. rewrite (act_length _ _ _ _ Ea). repeat (split; [assumption|]). split; [exists (vw_calls w); auto|]. split.
    + intros i v log o len N1 N2 N3. rewrite shown_act. apply (H6 i v log o len false N1 N2 N3). apply nth_error_repeat. pose proof (nth_lt _ _ _ N1). lia.
    + intros i o a N1 N2. now apply pending_act.
  - rewrite app_nil_r. eapply between_told, between_same; [| |exact H]; reflexivity.
Qed.
(** After env.step: the steps have happened, the agent has not been told. *)
Definition stepping (obss : list Ob) (lens : list nat) (actions : list Ac) (outs : list (Ob * Q * bool * bool)) (w : W) : Prop :=
  (exists before, vw_calls w = before ++ [CAct obss actions] /\ in_rounds before) /\
  length (fst (vw_envs w)) = n /\ snd (vw_envs w) = map (fun u => Some (fst (fst (fst u)))) outs /\ length obss = n /\ length lens = n /\ length actions = n /\ length outs = n /\
  (forall i o a, nth_error obss i = Some o -> nth_error actions i = Some a -> pending i (vw_calls w) = Some (o, a)) /\
  forall i v log o len a o' r d nd, nth_error (fst (vw_envs w)) i = Some (v, log) -> nth_error obss i = Some o -> nth_error lens i = Some len -> nth_error actions i = Some a -> nth_error outs i = Some (o', r, d, nd) ->
    exists before, log = before ++ [LStep a o' (r, d, nd)] /\ at_env before o len false (shown i (vw_calls w)).
Lemma step_ok (ev : result (list (Ob * Q * bool * bool)) -> bev) obss lens actions : hoare (acted obss lens actions) (pcall ev (benv_step user actions)) (fun outs w => stepping obss lens actions outs w) all_told.
Proof.
  apply hoare_call. intros w (L & Hs & Lo & Ll & La & Rs & Hi & Hp). unfold vuser. cbn [benv_step]. destruct w as [[ws last] s calls x]. cbn [vw_envs fst snd] in *.
  unfold serial_do. destruct (serial_step R ws actions) as [ws' outs] eqn:Es. destruct (serial_step_ok ws actions ws' outs ltac:(lia) Es) as (K1 & K2 & Hstep).
  destruct outs as [|u outs]; cbn [fst snd rbind].
  - cbn in K2. lia.
  - unfold stepping, with_envs. cbn [vw_envs vw_calls fst snd]. rewrite !map_length. repeat (split; [assumption || lia|]). split; [rewrite map_map; apply map_ext; intros [? [[? ?] ?]]; reflexivity|].
    repeat (split; [assumption || lia|]). intros i v log o len a o' r d nd N1 N2 N3 N4 N5. destruct (some_nth ws i) as [[v0 log0] N0]; [pose proof (nth_lt _ _ _ N1); lia|].
    destruct (Hstep i (v0, log0) a N0 N4) as [R1 R2]. rewrite R1 in N1. rewrite nth_error_map, R2 in N5. cbn [recorded g_step fst snd option_map] in *. destruct (g_step G a v0) as [v1 [ob [[r1 d1] n1]]]. cbn in *.
    injection N1 as <- <-. injection N5 as <- <- <- <-. exists log0. split; [reflexivity|]. eapply Hi; eauto.
Qed.

Definition resets_of (lens : list nat) (outs : list (Ob * Q * bool * bool)) : list bool :=
  map (fun '(a, b) => a || b) (combine (match ml with None => repeat false n | Some m => map (fun k => k =? m) lens end) (map (fun '(_, _, _, nd) => nd) outs)).
Lemma resets_nth lens outs i len o r d nd : length lens = n -> length outs = n -> nth_error lens i = Some len -> nth_error outs i = Some (o, r, d, nd) -> nth_error (resets_of lens outs) i = Some (cut len nd).
Proof.
  intros L1 L2 N1 N2. unfold resets_of. rewrite nth_error_map. erewrite nth_combine with (x := match ml with Some m => len =? m | None => false end) (y := nd).
  - reflexivity.
  - destruct ml as [m|]; [now rewrite nth_error_map, N1|]. apply nth_error_repeat. pose proof (nth_lt _ _ _ N1). lia.
  - now rewrite nth_error_map, N2.
Qed.
Definition ends_of (resets dones : list bool) : list bool := map (fun '(a, b) => a || b) (combine resets dones).
Lemma observe_ok (ev : result unit -> bev) obss lens actions outs :
  let resets := resets_of (map Datatypes.S lens) outs in let dones := map (fun '(_, _, d, _) => d) outs in
  hoare (stepping obss lens actions outs) (pcall ev (batch_observe user (map (fun '(o, _, _, _) => o) outs) (map (fun '(_, r, _, _) => r) outs) dones resets))
    (fun _ w => between (ends_of resets dones) (map (fun '(o, _, _, _) => o) outs) (map Datatypes.S lens) w) all_told.
Proof.
  cbn zeta. apply hoare_call. intros w (Rs & L & Hs & Lo & Ll & La & Lu & Hp & H). unfold vuser. cbn [batch_observe].
  set (resets := resets_of (map Datatypes.S lens) outs). set (dones := map (fun '(_, _, d, _) => d) outs). set (os := map (fun '(o, _, _, _) => o) outs). set (rs := map (fun '(_, r, _, _) => r) outs).
  assert (Lr : length resets = n). { unfold resets, resets_of. rewrite map_length, combine_length, map_length. destruct ml; rewrite ?map_length, ?repeat_length; lia. }
  assert (Ld : length dones = n) by (unfold dones; now rewrite map_length).
  assert (B : forall s, between (ends_of resets dones) os (map Datatypes.S lens) (mkVW (vw_envs w) s (vw_calls w ++ [CObserve os rs dones resets]) (vw_eval w))).
  { intros s. unfold between. cbn [vw_envs vw_calls]. split.
    { destruct Rs as (before & -> & rounds & -> & Fr). destruct (make_round n obss actions outs resets Lo La Lu Lr) as (r & Lrr & Er). exists (rounds ++ [r]). rewrite flat_map_app. cbn [flat_map]. rewrite Er. split.
      - rewrite <- app_assoc. reflexivity.
      - apply Forall_app. auto. }
    split; [exact L|]. split; [rewrite Hs; unfold os; rewrite map_map; apply map_ext; intros [[[? ?] ?] ?]; reflexivity|].
    split; [unfold os; now rewrite map_length|]. split; [now rewrite map_length|]. split; [unfold ends_of; rewrite map_length, combine_length; lia|].
    intros i v log o len b N1 N2 N3 N4. pose proof (nth_lt _ _ _ N1) as Hi. destruct (some_nth outs i ltac:(lia)) as [[[[o' r] d] nd] Nu]. destruct (some_nth obss i ltac:(lia)) as [o0 No]. destruct (some_nth actions i ltac:(lia)) as [a Na].
    rewrite nth_error_map in N3. destruct (nth_error lens i) as [len0|] eqn:Nl; [|discriminate]. injection N3 as <-. destruct (H _ _ _ _ _ _ _ _ _ _ N1 No Nl Na Nu) as (before & -> & A).
    unfold os in N2. rewrite nth_error_map, Nu in N2. injection N2 as <-.
    assert (Nr : nth_error resets i = Some (cut (Datatypes.S len0) nd)) by (apply (resets_nth _ _ _ _ o' r d nd); [now rewrite map_length|exact Lu|now rewrite nth_error_map, Nl|exact Nu]).
    assert (Nd : nth_error dones i = Some d) by (unfold dones; now rewrite nth_error_map, Nu).
    unfold ends_of in N4. rewrite nth_error_map, (nth_combine _ _ _ _ _ Nr Nd) in N4. injection N4 as <-. rewrite orb_comm.
    erewrite shown_observe; [|exact (Hp i o0 a No Na)|unfold os; now rewrite nth_error_map, Nu|unfold rs; now rewrite nth_error_map, Nu|exact Nd|exact Nr]. now apply at_env_step. }
  destruct (observe os rs dones resets (vw_agent w)) as [s [u|x]]; cbn [fst snd]; [apply B|exact (between_told _ _ _ _ (B s))].
Qed.
Lemma reset_ok (ev : result (list Ob) -> bev) ends obss lens :
  hoare (between ends obss lens) (pcall ev (benv_reset user (Some (map negb ends))))
    (fun os w => between (repeat false n) os (map (fun '(k, e) => if e : bool then 0 else k) (combine lens ends)) w) all_told.
Proof.
  apply hoare_call. intros w (Rs & L & Hs & Lo & Ll & Le & H). unfold vuser. cbn [benv_reset]. destruct w as [[ws last] s calls x]. cbn [vw_envs fst snd] in *. subst last.
  unfold serial_do. destruct (serial_reset R (map negb ends) ws (map Some obss)) as [ws' obs] eqn:Es.
  destruct (serial_reset_ok (map negb ends) ws (map Some obss) ws' obs ltac:(rewrite map_length; lia) ltac:(rewrite map_length; lia) Es) as (K1 & K2 & Hr).
  assert (Hni : forall i, i < n -> exists b v log o, nth_error ends i = Some b /\ nth_error ws i = Some (v, log) /\ nth_error obss i = Some o /\
    nth_error ws' i = Some (if b then fst (g_reset R (v, log)) else (v, log)) /\ nth_error obs i = Some (Some (if b then snd (g_reset R (v, log)) else o))).
  { intros i Hi. destruct (some_nth ends i ltac:(lia)) as [b Nb]. destruct (some_nth ws i ltac:(lia)) as [[v log] Nw]. destruct (some_nth obss i ltac:(lia)) as [o No]. exists b, v, log, o.
    specialize (Hr i (negb b) (v, log) (Some o)). rewrite nth_error_map, Nb, Nw, nth_error_map, No in Hr. specialize (Hr eq_refl eq_refl eq_refl). destruct b; cbn [negb] in Hr; destruct Hr; auto. }
  destruct (all_some_ok obs) as (os & Eo & Lq & Ho). { intros i Hi. destruct (Hni i ltac:(lia)) as (b & v & log & o & _ & _ & _ & _ & N). eauto. }
  cbn [fst snd rbind]. rewrite Eo. unfold between, with_envs. cbn [vw_envs vw_calls fst snd].
  split; [exact Rs|]. split; [lia|]. split. { apply nth_error_ext; [rewrite map_length; lia|]. intros i y Ny. pose proof (nth_lt _ _ _ Ny). destruct (Hni i ltac:(lia)) as (b & v & log & o & _ & _ & _ & _ & N).
    rewrite nth_error_map, (Ho _ _ N), <- Ny. symmetry. exact N. }
  split; [lia|]. split; [rewrite map_length, combine_length; lia|]. split; [apply repeat_length|]. intros i v1 log1 o1 len1 b1 N1 N2 N3 N4. pose proof (nth_lt _ _ _ N1) as Hi.
  destruct (Hni i ltac:(lia)) as (b & v & log & o & Nb & Nw & No & Nw' & Nobs). rewrite (Ho _ _ Nobs) in N2. injection N2 as <-. rewrite Nw' in N1.
  destruct (some_nth lens i ltac:(lia)) as [len Nl]. rewrite nth_error_map, (nth_combine _ _ _ _ _ Nl Nb) in N3. injection N3 as <-. rewrite nth_error_repeat in N4 by lia. injection N4 as <-.
  specialize (H i v log o len b Nw No Nl Nb). destruct b.
  - rewrite rec_reset in N1; destruct (g_reset G v) as [v2 o2]. cbn [fst snd] in *. injection N1 as <- <-. exact (at_env_reset _ _ _ _ _ H).
  - injection N1 as <- <-. exact H.
Qed.
Lemma first_reset_ok (ev : result (list Ob) -> bev) :
  hoare (fun w => length (fst (vw_envs w)) = n /\ length (snd (vw_envs w)) = n /\ vw_calls w = [] /\ forall i v log, nth_error (fst (vw_envs w)) i = Some (v, log) -> log = [])
    (pcall ev (benv_reset user None)) (fun os w => between (repeat false n) os (repeat 0 n) w) all_told.
Proof.
  apply hoare_call. intros w (L & Hs & Hc & Hl). unfold vuser. cbn [benv_reset]. destruct w as [[ws last] s calls x]. cbn [vw_envs vw_calls fst snd] in *. subst calls.
  unfold serial_do. rewrite L. destruct (serial_reset R (repeat false n) ws last) as [ws' obs] eqn:Es.
  destruct (serial_reset_ok (repeat false n) ws last ws' obs ltac:(rewrite repeat_length; lia) ltac:(lia) Es) as (K1 & K2 & Hr).
  assert (Hni : forall i, i < n -> exists v, nth_error ws' i = Some (fst (g_reset R (v, []))) /\ nth_error obs i = Some (Some (snd (g_reset R (v, []))))).
  { intros i Hi. destruct (some_nth ws i ltac:(lia)) as [[v log] Nw]. destruct (some_nth last i ltac:(lia)) as [o No]. exists v. rewrite (Hl i v log Nw) in Nw.
    specialize (Hr i false (v, []) o). rewrite nth_error_repeat in Hr by lia. exact (Hr eq_refl Nw No). }
  destruct (all_some_ok obs) as (os & Eo & Lq & Ho). { intros i Hi. destruct (Hni i ltac:(lia)) as (v & _ & N). eauto. }
  cbn [fst snd rbind]. rewrite Eo. unfold between, with_envs. cbn [vw_envs vw_calls fst snd].
  split; [exists []; split; [reflexivity|constructor]|]. split; [lia|]. split. { apply nth_error_ext; [rewrite map_length; lia|]. intros i y Ny. pose proof (nth_lt _ _ _ Ny). destruct (Hni i ltac:(lia)) as (v & _ & N). rewrite nth_error_map, (Ho _ _ N), <- Ny. symmetry. exact N. }
  split; [lia|]. split; [apply repeat_length|]. split; [apply repeat_length|]. intros i v1 log1 o1 len1 b1 N1 N2 N3 N4. pose proof (nth_lt _ _ _ N1) as Hi.
  destruct (Hni i ltac:(lia)) as (v & Nw' & Nobs). rewrite (Ho _ _ Nobs) in N2. injection N2 as <-. rewrite Nw' in N1. rewrite nth_error_repeat in N3 by lia. injection N3 as <-. rewrite nth_error_repeat in N4 by lia. injection N4 as <-.
  rewrite rec_reset in N1; destruct (g_reset G v) as [v2 o2]. cbn [fst snd app] in *. injection N1 as <- <-. apply at_env_first.
Qed.
Lemma hooks_ok ov obss lens t : forall hs i, hoare (between ov obss lens)
  (brun_hooks i (map (fun (h : nat -> S -> S * result unit) t (w : W) => let (s, r) := h t (vw_agent w) in (mkVW (vw_envs w) s (vw_calls w) (vw_eval w), r)) hs) t) (fun _ w => between ov obss lens w) all_told.
Proof.
  induction hs as [|h hs IH]; intros i; [apply hoare_ret; auto|]. cbn [map brun_hooks]. eapply hoare_bind with (Q := fun _ w => between ov obss lens w); [|intros ?; apply IH]. apply hoare_call. intros w H.
  destruct (h t (vw_agent w)) as [s [y|x]]; cbn [fst snd]; [|eapply between_told]; (eapply between_same; [| |exact H]; reflexivity).
Qed.
Lemma tick_ok P ov obss lens : forall k, @hoare W bev unit (between ov obss lens) (tick_block user P k) (fun _ w => between ov obss lens w) all_told.
Proof.
  induction k as [|k IH]; [apply hoare_ret; auto|]. cbn [tick_block]. eapply hoare_bind; [apply hoare_get_t|]. intros t. eapply hoare_bind; [apply hoare_set_t|]. intros ?.
  eapply hoare_bind with (Q := fun _ w => between ov obss lens w); [destruct (checkpoint_due _ _); [apply hoare_emit|apply hoare_ret; auto]|]. intros ?. eapply hoare_bind; [apply hooks_ok|]. intros ?. apply IH.
Qed.
Lemma eval_ok P ov obss lens t idx hist : @hoare W bev _ (between ov obss lens) (beval_block user P t idx hist) (fun _ w => between ov obss lens w) all_told.
Proof.
  unfold beval_block. unfold vuser at 1. cbn [bevaluator]. destruct evaluate as [f|] eqn:Ev; [|apply hoare_ret; auto].
  eapply hoare_bind with (Q := fun _ w => between ov obss lens w).
  - apply hoare_call. intros w H. destruct (f t idx (vw_agent w, vw_eval w)) as [[s x] [r|y]]; cbn [fst snd]; [|eapply between_told]; (eapply between_same; [| |exact H]; reflexivity).
  - intros [sc|]; [|apply hoare_ret; auto]. eapply hoare_bind; [apply hoare_get_w|]. intros w. apply hoare_ret. auto.
Qed.
Lemma body_ok P l : a_max_episode_len P = ml ->
  hoare (between (repeat false n) (bl_obss l) (bl_len l)) (batch_body user P l) (fun r w => if fst r then all_told w else between (repeat false n) (bl_obss (snd r)) (bl_len (snd r)) w) all_told.
Proof.
  intros Hp. unfold batch_body. eapply hoare_bind; [apply act_ok|]. intros actions. eapply hoare_bind; [apply step_ok|]. intros outs. cbn zeta. rewrite Hp.
  eapply hoare_bind; [apply observe_ok|]. intros ?. eapply hoare_bind; [apply tick_ok|]. intros ?. eapply hoare_bind; [apply hoare_get_t|]. intros t. eapply hoare_bind; [apply eval_ok|]. intros [hist brk].
  destruct brk; [apply hoare_ret; cbn [fst]; intros w H; exact (between_told _ _ _ _ H)|]. destruct (a_steps P <=? t); [apply hoare_ret; cbn [fst]; intros w H; exact (between_told _ _ _ _ H)|].
  eapply hoare_bind; [apply reset_ok|]. intros os. apply hoare_ret. cbn [fst snd bl_obss bl_len]. intros w H. exact H.
Qed.
Lemma loop_ok P : a_max_episode_len P = ml -> forall fuel l, hoare (between (repeat false n) (bl_obss l) (bl_len l)) (batch_loop user P fuel l) (fun _ w => all_told w) all_told.
Proof.
  intros Hp. induction fuel as [|fuel IH]; intros l; cbn [batch_loop].
  - intros s s' tr r H Em. injection Em as <- <- <-. exact (between_told _ _ _ _ H).
  - eapply hoare_bind; [apply body_ok; exact Hp|]. intros [brk l']. cbn [fst snd]. destruct brk; [apply hoare_ret; auto|apply IH].
Qed.
Lemma train_ok P w w' t tr r : a_max_episode_len P = ml -> length (fst (vw_envs w)) = n -> length (snd (vw_envs w)) = n -> vw_calls w = [] ->
  (forall i v log, nth_error (fst (vw_envs w)) i = Some (v, log) -> log = []) -> train_agent_batch user P (w, t) = (w', tr, r) -> all_told (fst w').
Proof.
  intros Hp H1 H2 H3 H4 Et.
  assert (H : hoare (fun w => length (fst (vw_envs w)) = n /\ length (snd (vw_envs w)) = n /\ vw_calls w = [] /\ forall i v log, nth_error (fst (vw_envs w)) i = Some (v, log) -> log = [])
    (train_agent_batch user P) (fun _ w => all_told w) all_told).
  { unfold train_agent_batch. eapply hoare_bind; [apply first_reset_ok|]. intros obss. eapply hoare_bind; [apply hoare_set_t|]. intros ?. eapply hoare_bind with (Q := fun _ w => between (repeat false n) obss (repeat 0 n) w).
    - unfold vuser. cbn [bagent_has_t]. apply hoare_emit.
    - intros _ s0 s1 tr0 r0 H Em. destruct (batch_loop user P _ _ s0) as [[s2 l2] [h1|h2]] eqn:El; injection Em as <- <- <-;
        exact (loop_ok P Hp _ (mkBLoc obss (repeat 0 n) 0 []) _ _ _ _ H El). }
  specialize (H (w, t) _ _ _ (conj H1 (conj H2 (conj H3 H4))) Et). destruct r; exact H.
Qed.

(** What holds of the agent after the calls it got. *)
Section AgentInvariant.
Context (I : list (acall Ob Ac) -> S -> Prop).
Context (I_act : forall cs s obss s' r, I cs s -> act obss s = (s', r) -> I (cs ++ match r with Ok actions => [CAct obss actions] | Err _ => [] end) s').
Context (I_observe : forall cs s obss rs ds es s' r, I cs s -> observe obss rs ds es s = (s', r) -> I (cs ++ [CObserve obss rs ds es]) s').
Context (I_hooks : forall h t cs s s' r, In h hooks -> I cs s -> h t s = (s', r) -> I cs s').
Context (I_eval : forall f t k cs s x s' x' r, evaluate = Some f -> I cs s -> f t k (s, x) = ((s', x'), r) -> I cs s').
Definition inv (w : W) : Prop := I (vw_calls w) (vw_agent w).
Lemma inv_hooks t : forall hs i, incl hs hooks -> hoare inv
  (brun_hooks i (map (fun (h : nat -> S -> S * result unit) t (w : W) => let (s, r) := h t (vw_agent w) in (mkVW (vw_envs w) s (vw_calls w) (vw_eval w), r)) hs) t) (fun _ w => inv w) inv.
Proof.
  induction hs as [|h hs IH]; intros i Hi; [apply hoare_ret; auto|]. cbn [map brun_hooks]. eapply hoare_bind with (Q := fun _ w => inv w).
  - apply hoare_call. intros w H. destruct (h t (vw_agent w)) as [s r] eqn:Eh. assert (H' : I (vw_calls w) s) by (eapply I_hooks; [apply Hi; now left|exact H|exact Eh]). destruct r; exact H'.
  - intros ?. apply IH. intros y Hy. apply Hi. now right.
Qed.
Lemma inv_tick P : forall k, @hoare W bev unit inv (tick_block user P k) (fun _ w => inv w) inv.
Proof.
  induction k as [|k IH]; [apply hoare_ret; auto|]. cbn [tick_block]. eapply hoare_bind; [apply hoare_get_t|]. intros t. eapply hoare_bind; [apply hoare_set_t|]. intros ?.
  eapply hoare_bind with (Q := fun _ w => inv w); [destruct (checkpoint_due _ _); [apply hoare_emit|apply hoare_ret; auto]|]. intros ?. eapply hoare_bind; [apply inv_hooks; apply incl_refl|]. intros ?. apply IH.
Qed.
Lemma inv_evaluation P t idx hist : @hoare W bev _ inv (beval_block user P t idx hist) (fun _ w => inv w) inv.
Proof.
  unfold beval_block. unfold vuser at 1. cbn [bevaluator]. destruct evaluate as [f|] eqn:Ev; [|apply hoare_ret; auto].
  eapply hoare_bind with (Q := fun _ w => inv w).
  - apply hoare_call. intros w H. destruct (f t idx (vw_agent w, vw_eval w)) as [[s x] r] eqn:Ef. assert (H' : I (vw_calls w) s) by (eapply I_eval; [reflexivity|exact H|exact Ef]). destruct r; exact H'.
  - intros [sc|]; [|apply hoare_ret; auto]. eapply hoare_bind; [apply hoare_get_w|]. intros w. apply hoare_ret. auto.
Qed.
Lemma inv_env_reset (ev : result (list Ob) -> bev) mask : hoare inv (pcall ev (benv_reset user mask)) (fun _ w => inv w) inv.
Proof.
  apply hoare_call. intros w H. unfold vuser. cbn [benv_reset]. destruct (serial_do R (vw_envs w) (KReset mask)) as [v r]. cbn [fst snd]. set (x := rbind r _). destruct x; exact H.
Qed.
Lemma inv_body P l : hoare inv (batch_body user P l) (fun _ w => inv w) inv.
Proof.
  unfold batch_body. eapply hoare_bind with (Q := fun _ w => inv w).
  { apply hoare_call. intros w H. unfold vuser. cbn [batch_act]. destruct (act (bl_obss l) (vw_agent w)) as [s r] eqn:Ea. pose proof (I_act _ _ _ _ _ H Ea) as H'. destruct r; exact H'. }
  intros actions. eapply hoare_bind with (Q := fun _ w => inv w).
  { apply hoare_call. intros w H. unfold vuser. cbn [benv_step]. destruct (serial_do R (vw_envs w) (KStep actions)) as [v r]. cbn [fst snd]. set (x := rbind r _). destruct x; exact H. }
  intros outs. cbn zeta. eapply hoare_bind with (Q := fun _ w => inv w).
  { apply hoare_call. intros w H. unfold vuser. cbn [batch_observe]. destruct (observe _ _ _ _ (vw_agent w)) as [s r] eqn:Eo. pose proof (I_observe _ _ _ _ _ _ _ _ H Eo) as H'. destruct r; exact H'. }
  intros ?. eapply hoare_bind; [apply inv_tick|]. intros ?. eapply hoare_bind; [apply hoare_get_t|]. intros t. eapply hoare_bind; [apply inv_evaluation|]. intros [hist brk].
  destruct brk; [apply hoare_ret; auto|]. destruct (a_steps P <=? t); [apply hoare_ret; auto|]. eapply hoare_bind; [apply inv_env_reset|]. intros os. apply hoare_ret. auto.
Qed.
Lemma inv_loop P : forall fuel l, hoare inv (batch_loop user P fuel l) (fun _ w => inv w) inv.
Proof.
  induction fuel as [|fuel IH]; intros l; cbn [batch_loop].
  - intros s s' tr r H Em. injection Em as <- <- <-. exact H.
  - eapply hoare_bind; [apply inv_body|]. intros [brk l']. destruct brk; [apply hoare_ret; auto|apply IH].
Qed.
Lemma inv_train P w w' t tr r : inv w -> train_agent_batch user P (w, t) = (w', tr, r) -> inv (fst w').
Proof.
  intros Hi Et. assert (H : hoare inv (train_agent_batch user P) (fun _ w => inv w) inv).
  { unfold train_agent_batch. eapply hoare_bind; [apply inv_env_reset|]. intros obss. eapply hoare_bind; [apply hoare_set_t|]. intros ?. eapply hoare_bind with (Q := fun _ w => inv w).
    - unfold vuser. cbn [bagent_has_t]. apply hoare_emit.
    - intros _ s0 s1 tr0 r0 H Em. destruct (batch_loop user P _ _ s0) as [[s2 l2] [h1|h2]] eqn:El; injection Em as <- <- <-; exact (inv_loop P _ (mkBLoc obss (repeat 0 n) 0 []) _ _ _ _ H El). }
  specialize (H (w, t) _ _ _ Hi Et). destruct r; exact H.
Qed.
End AgentInvariant.

(** The same with more known about the calls made so far when the agent is asked to act. *)
Section AgentInvariantRounds.
Context (I : list (acall Ob Ac) -> S -> Prop).
Context (I_act : forall cs s obss s' r, in_rounds cs -> length obss = n -> I cs s -> act obss s = (s', r) -> I (cs ++ match r with Ok actions => [CAct obss actions] | Err _ => [] end) s').
Context (I_observe : forall cs s obss rs ds es s' r, I cs s -> observe obss rs ds es s = (s', r) -> I (cs ++ [CObserve obss rs ds es]) s').
Context (I_hooks : forall h t cs s s' r, In h hooks -> I cs s -> h t s = (s', r) -> I cs s').
Context (I_eval : forall f t k cs s x s' x' r, evaluate = Some f -> I cs s -> f t k (s, x) = ((s', x'), r) -> I cs s').
Lemma hoare_and {X0} I1 I2 (m : @prog W bev X0) Q1 Q2 F1 F2 : hoare I1 m Q1 F1 -> hoare I2 m Q2 F2 -> hoare (fun w => I1 w /\ I2 w) m (fun x w => Q1 x w /\ Q2 x w) (fun w => F1 w /\ F2 w).
Proof. intros H1 H2 s s' tr r [A B] E0. specialize (H1 s s' tr r A E0). specialize (H2 s s' tr r B E0). destruct r; auto. Qed.
Notation inv := (inv I).
Notation failed := (fun w => all_told w /\ inv w).
Lemma both_body P l : a_max_episode_len P = ml ->
  hoare (fun w => between (repeat false n) (bl_obss l) (bl_len l) w /\ inv w) (batch_body user P l)
    (fun r w => (if fst r then all_told w else between (repeat false n) (bl_obss (snd r)) (bl_len (snd r)) w) /\ inv w) failed.
Proof.
  intros Hp. unfold batch_body. eapply hoare_bind with (Q := fun actions w => acted (bl_obss l) (bl_len l) actions w /\ inv w).
  { intros s s' tr r [A B] E0. pose proof (act_ok (fun _ => BAct) (bl_obss l) (bl_len l) s s' tr r A) as K.
    assert (K' : hoare (fun w => between (repeat false n) (bl_obss l) (bl_len l) w /\ inv w) (pcall (fun _ => BAct) (batch_act user (bl_obss l))) (fun _ w => inv w) inv).
    { apply hoare_call. intros w [(Rs & _ & _ & Lo & _) H]. unfold vuser. cbn [batch_act]. destruct (act (bl_obss l) (vw_agent w)) as [s0 r0] eqn:Ea. pose proof (I_act _ _ _ _ _ Rs Lo H Ea) as H'. destruct r0; exact H'. }
    specialize (K' s s' tr r (conj A B)). destruct r; auto. }
  intros actions. eapply hoare_bind.
  { eapply hoare_and with (I2 := inv) (Q2 := fun _ w => inv w) (F2 := inv); [apply step_ok|]. apply hoare_call. intros w H. unfold vuser. cbn [benv_step]. destruct (serial_do R (vw_envs w) (KStep actions)) as [v r]. cbn [fst snd]. set (x := rbind r _). destruct x; exact H. }
  intros outs. cbn zeta. rewrite Hp. eapply hoare_bind.
  { eapply hoare_and with (I2 := inv) (Q2 := fun _ w => inv w) (F2 := inv); [apply observe_ok|]. apply hoare_call. intros w H. unfold vuser. cbn [batch_observe]. destruct (observe _ _ _ _ (vw_agent w)) as [s r] eqn:Eo. pose proof (I_observe _ _ _ _ _ _ _ _ H Eo) as H'. destruct r; exact H'. }
  intros ?. eapply hoare_bind; [eapply hoare_and with (I2 := inv) (Q2 := fun _ w => inv w) (F2 := inv); [apply tick_ok|apply inv_tick; exact I_hooks]|]. intros ?. eapply hoare_bind; [apply hoare_get_t|]. intros t.
  eapply hoare_bind; [eapply hoare_and with (I2 := inv) (Q2 := fun _ w => inv w) (F2 := inv); [apply eval_ok|apply inv_evaluation; exact I_eval]|]. intros [hist brk].
  destruct brk; [apply hoare_ret; cbn [fst]; intros w [H Hi]; split; [exact (between_told _ _ _ _ H)|exact Hi]|]. destruct (a_steps P <=? t); [apply hoare_ret; cbn [fst]; intros w [H Hi]; split; [exact (between_told _ _ _ _ H)|exact Hi]|].
  eapply hoare_bind; [eapply hoare_and with (I2 := inv) (Q2 := fun _ w => inv w) (F2 := inv); [apply reset_ok|apply inv_env_reset]|]. intros os. apply hoare_ret. cbn [fst snd bl_obss bl_len]. intros w H. exact H.
Qed.
Lemma both_loop P : a_max_episode_len P = ml -> forall fuel l, hoare (fun w => between (repeat false n) (bl_obss l) (bl_len l) w /\ inv w) (batch_loop user P fuel l) (fun _ w => all_told w /\ inv w) failed.
Proof.
  intros Hp. induction fuel as [|fuel IH]; intros l; cbn [batch_loop].
  - intros s s' tr r [H Hi] Em. injection Em as <- <- <-. split; [exact (between_told _ _ _ _ H)|exact Hi].
  - eapply hoare_bind; [apply both_body; exact Hp|]. intros [brk l']. cbn [fst snd]. destruct brk; [apply hoare_ret; auto|apply IH].
Qed.
Lemma both_train P w w' t tr r : a_max_episode_len P = ml -> length (fst (vw_envs w)) = n -> length (snd (vw_envs w)) = n -> vw_calls w = [] ->
  (forall i v log, nth_error (fst (vw_envs w)) i = Some (v, log) -> log = []) -> inv w -> train_agent_batch user P (w, t) = (w', tr, r) -> all_told (fst w') /\ inv (fst w').
Proof.
  intros Hp H1 H2 H3 H4 Hi Et.
  assert (H : hoare (fun w => (length (fst (vw_envs w)) = n /\ length (snd (vw_envs w)) = n /\ vw_calls w = [] /\ forall i v log, nth_error (fst (vw_envs w)) i = Some (v, log) -> log = []) /\ inv w)
    (train_agent_batch user P) (fun _ w => all_told w /\ inv w) failed).
  { unfold train_agent_batch. eapply hoare_bind; [eapply hoare_and with (I2 := inv) (Q2 := fun _ w => inv w) (F2 := inv); [apply first_reset_ok|apply inv_env_reset]|]. intros obss. eapply hoare_bind; [apply hoare_set_t|]. intros ?.
    eapply hoare_bind with (Q := fun _ w => between (repeat false n) obss (repeat 0 n) w /\ inv w).
    - unfold vuser. cbn [bagent_has_t]. apply hoare_emit.
    - intros _ s0 s1 tr0 r0 H Em. destruct (batch_loop user P _ _ s0) as [[s2 l2] [h1|h2]] eqn:El; injection Em as <- <- <-;
        exact (both_loop P Hp _ (mkBLoc obss (repeat 0 n) 0 []) _ _ _ _ H El). }
  specialize (H (w, t) _ _ _ (conj (conj H1 (conj H2 (conj H3 H4))) Hi) Et). destruct r; exact H.
Qed.
End AgentInvariantRounds.
End Vec.

(** The whole call. *)
Lemma vtrain_told {E Ob Ac Sd V S X : Type} (G : genv E Ob Ac (Q * bool * bool) Sd V) act observe (set_t : nat -> S -> S) hooks evaluate (best : X -> Q) P envs last s x w r :
  (forall obss s s' actions, act obss s = (s', Ok actions) -> length actions = length obss) -> envs <> [] -> length last = length envs ->
  vtrain G act observe set_t hooks evaluate best P envs last s x = (w, r) ->
  length (fst (vw_envs w)) = length envs /\ exists rounds, vw_calls w = flat_map asked_and_told rounds /\ Forall (fun r => length r = length envs) rounds /\
  forall i v log, nth_error (fst (vw_envs w)) i = Some (v, log) ->
    column i rounds = flat_map (lived (a_max_episode_len P)) (vplays log) /\
    exists eps p, vplays log = eps ++ [p] /\ Forall (whole (a_max_episode_len P)) eps /\ (whole (a_max_episode_len P) p \/ ongoing (a_max_episode_len P) p).
Proof.
  intros Ha He Hl Et. unfold vtrain in Et. destruct (train_agent_batch _ P _) as [[w1 tr] r1] eqn:Ev. injection Et as <- <-.
  assert (H : all_told (a_max_episode_len P) (length envs) (fst w1)).
  { eapply (train_ok G (a_max_episode_len P) act observe hooks evaluate best (length envs)); [destruct envs; [congruence|cbn; lia]|exact Ha|reflexivity| | | | |exact Ev]; cbn [vw_envs vw_calls fst snd]; auto.
    - apply map_length.
    - intros i v log N. rewrite nth_error_map in N. destruct (nth_error envs i); [|discriminate]. now injection N as _ <-. }
  destruct H as (L & (rounds & E1 & F) & H). split; [exact L|]. exists rounds. split; [exact E1|]. split; [exact F|]. intros i v log N. destruct (H i v log N) as [H1 H2]. split; [|exact H2].
  rewrite <- H1, E1. symmetry. apply shown_rounds.
Qed.
Lemma vtrain_inv {E Ob Ac Sd V S X : Type} (G : genv E Ob Ac (Q * bool * bool) Sd V) act observe (set_t : nat -> S -> S) hooks evaluate (best : X -> Q) P envs last s x w r (I : list (acall Ob Ac) -> S -> Prop) :
  (forall cs s obss s' r, I cs s -> act obss s = (s', r) -> I (cs ++ match r with Ok actions => [CAct obss actions] | Err _ => [] end) s') ->
  (forall cs s obss rs ds es s' r, I cs s -> observe obss rs ds es s = (s', r) -> I (cs ++ [CObserve obss rs ds es]) s') ->
  (forall h t cs s s' r, In h hooks -> I cs s -> h t s = (s', r) -> I cs s') ->
  (forall f t k cs s x s' x' r, evaluate = Some f -> I cs s -> f t k (s, x) = ((s', x'), r) -> I cs s') ->
  I [] (set_t (a_offset P) s) -> vtrain G act observe set_t hooks evaluate best P envs last s x = (w, r) -> I (vw_calls w) (vw_agent w).
Proof.
  intros H1 H2 H3 H4 H5 Et. unfold vtrain in Et. destruct (train_agent_batch _ P _) as [[w1 tr] r1] eqn:Ev. injection Et as <- <-.
  change (inv I (fst w1)). eapply inv_train; [exact H1|exact H2|exact H3|exact H4| |exact Ev]. exact H5.
Qed.

Lemma vtrain_inv_rounds {E Ob Ac Sd V S X : Type} (G : genv E Ob Ac (Q * bool * bool) Sd V) act observe (set_t : nat -> S -> S) hooks evaluate (best : X -> Q) P envs last s x w r (I : list (acall Ob Ac) -> S -> Prop) :
  (forall obss s s' actions, act obss s = (s', Ok actions) -> length actions = length obss) -> envs <> [] -> length last = length envs ->
  (forall rounds s obss s' r, Forall (fun r => length r = length envs) rounds -> length obss = length envs -> I (flat_map asked_and_told rounds) s -> act obss s = (s', r) ->
    I (flat_map asked_and_told rounds ++ match r with Ok actions => [CAct obss actions] | Err _ => [] end) s') ->
  (forall cs s obss rs ds es s' r, I cs s -> observe obss rs ds es s = (s', r) -> I (cs ++ [CObserve obss rs ds es]) s') ->
  (forall h t cs s s' r, In h hooks -> I cs s -> h t s = (s', r) -> I cs s') ->
  (forall f t k cs s x s' x' r, evaluate = Some f -> I cs s -> f t k (s, x) = ((s', x'), r) -> I cs s') ->
  I [] (set_t (a_offset P) s) -> vtrain G act observe set_t hooks evaluate best P envs last s x = (w, r) -> I (vw_calls w) (vw_agent w).
Proof.
  intros Ha He Hl H1 H2 H3 H4 H5 Et. unfold vtrain in Et. destruct (train_agent_batch _ P _) as [[w1 tr] r1] eqn:Ev. injection Et as <- <-.
  change (inv I (fst w1)). assert (Hn : 0 < length envs) by (destruct envs; [congruence|cbn; lia]).
  refine (proj2 (both_train G (a_max_episode_len P) act observe hooks evaluate best (length envs) Hn Ha I _ H2 H3 H4 P _ _ _ _ _ eq_refl _ _ _ _ _ Ev)); try exact H5; cbn [vw_envs vw_calls fst snd]; auto.
  - intros cs s0 obss s' r0 (rounds & -> & Fr) Lo. now apply H1.
  - apply map_length.
  - intros i v log N. rewrite nth_error_map in N. destruct (nth_error envs i); [|discriminate]. now injection N as _ <-.
Qed.
