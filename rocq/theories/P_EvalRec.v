From Coq Require Import QArith.
From Verif Require Import Base P_Base M_Batch M_Train M_Evaluator M_ReplayBuffer M_Episodic M_SampleNK M_RecDQN M_PPO M_PPOData M_PPOAgent M_EvalRec S_EvalRec.
Close Scope Q_scope. Open Scope nat_scope.

(** ** The same program run by two agents *)
Section Rel.
Context {W1 W2 E : Type}.
Definition rel {X} (I : W1 -> W2 -> Prop) (m1 : @prog W1 E X) (m2 : @prog W2 E X) (Q : X -> W1 -> W2 -> Prop) (F : W1 -> W2 -> Prop) : Prop :=
  forall w1 w2 t, I w1 w2 -> exists w1' w2' t' tr r, m1 (w1, t) = ((w1', t'), tr, r) /\ m2 (w2, t) = ((w2', t'), tr, r) /\ match r with Ok x => Q x w1' w2' | Err _ => F w1' w2' end.
Lemma rel_ret {X} (I : W1 -> W2 -> Prop) (x : X) (Q : X -> W1 -> W2 -> Prop) (F : W1 -> W2 -> Prop) : (forall w1 w2, I w1 w2 -> Q x w1 w2) -> rel I (pret x) (pret x) Q F.
Proof. intros H w1 w2 t Hi. exists w1, w2, t, [], (Ok x). repeat split. auto. Qed.
Lemma rel_bind {X Y} (I : W1 -> W2 -> Prop) (m1 : @prog W1 E X) m2 (k1 : X -> @prog W1 E Y) k2 Q R F : rel I m1 m2 Q F -> (forall x, rel (Q x) (k1 x) (k2 x) R F) -> rel I (pbind m1 k1) (pbind m2 k2) R F.
Proof.
  intros H1 H2 w1 w2 t Hi. destruct (H1 w1 w2 t Hi) as (w1' & w2' & t' & tr & r & E1 & E2 & Hq). unfold pbind. rewrite E1, E2. destruct r as [x|e].
  - destruct (H2 x w1' w2' t' Hq) as (a & b & t2 & tr2 & r2 & F1 & F2 & Hr). rewrite F1, F2. exists a, b, t2, (tr ++ tr2), r2. auto.
  - exists w1', w2', t', tr, (Err e). auto.
Qed.
Lemma rel_call {X} (I : W1 -> W2 -> Prop) ev (f1 : W1 -> W1 * result X) f2 (Q : X -> W1 -> W2 -> Prop) (F : W1 -> W2 -> Prop) :
  (forall w1 w2, I w1 w2 -> exists w1' w2' r, f1 w1 = (w1', r) /\ f2 w2 = (w2', r) /\ match r with Ok x => Q x w1' w2' | Err _ => F w1' w2' end) -> rel I (pcall ev f1) (pcall ev f2) Q F.
Proof. intros H w1 w2 t Hi. destruct (H w1 w2 Hi) as (w1' & w2' & r & E1 & E2 & Hq). unfold pcall. cbn [fst snd]. rewrite E1, E2. exists w1', w2', t, [ev r], r. auto. Qed.
Lemma rel_err {X} (I : W1 -> W2 -> Prop) e (Q : X -> W1 -> W2 -> Prop) (F : W1 -> W2 -> Prop) : (forall w1 w2, I w1 w2 -> F w1 w2) -> rel I (fun s => (s, [], Err e)) (fun s => (s, [], Err e)) Q F.
Proof. intros H w1 w2 t Hi. exists w1, w2, t, [], (Err e). repeat split. auto. Qed.
Lemma rel_weaken {X} (I I' : W1 -> W2 -> Prop) (m1 : @prog W1 E X) m2 Q F : (forall a b, I' a b -> I a b) -> rel I m1 m2 Q F -> rel I' m1 m2 Q F.
Proof. intros H R w1 w2 t Hi. exact (R w1 w2 t (H _ _ Hi)). Qed.
End Rel.

Section Sim.
Context {V S Ob Ac Y H Pm R : Type} (A : evagent S Ob Ac R) (cell : Pm -> Ob -> H -> Y * H) (zero : H) (pick : R -> nat -> Y -> Ac) (params : S -> Pm) (mem : S -> list H) (n : nat).
Definition outs (p : Pm) (obs : list Ob) (hs : list H) : list (Y * H) := map (fun '(o, h) => cell p o h) (combine obs hs).
(** What an agent does in evaluation mode. *)
Definition evaluable : Prop :=
  (forall b s, mem (ea_mode A b s) = mem s /\ params (ea_mode A b s) = params s /\ ea_training A (ea_mode A b s) = b) /\
  (forall c s obs, ea_training A s = false -> length obs = n -> length (mem s) = n -> exists s',
     ea_act A c s obs = Ok (s', map (fun '(i, y) => pick c i (fst y)) (combine (seq 0 (length (outs (params s) obs (mem s)))) (outs (params s) obs (mem s)))) /\
     mem s' = map snd (outs (params s) obs (mem s)) /\ params s' = params s /\ ea_training A s' = false) /\
  (forall s l, ea_training A s = false -> length l = n -> length (mem s) = n -> exists s',
     ea_observe A s l = Ok s' /\ mem s' = map (fun '(y, h) => if ends y then zero else h) (combine l (mem s)) /\ params s' = params s /\ ea_training A s' = false).
Context (HA : evaluable).
Definition clean (s : S) : Prop := mem s = repeat zero n.
Context (p : Pm).
Definition still (s : S) : Prop := params s = p /\ ea_training A s = false.

(** ** One environment *)
Definition waiting (w1 : V * S) (w2 : V * H) : Prop := fst w1 = fst w2 /\ still (snd w1) /\ mem (snd w1) = [zero].
Definition running (w1 : V * S) (w2 : V * H) : Prop := fst w1 = fst w2 /\ still (snd w1) /\ mem (snd w1) = [snd w2].
Definition stopped (w1 : V * S) (w2 : V * H) : Prop := fst w1 = fst w2 /\ still (snd w1).
Lemma waiting_stopped w1 w2 : waiting w1 w2 -> stopped w1 w2. Proof. intros (a & b & _). now split. Qed.
Lemma running_stopped w1 w2 : running w1 w2 -> stopped w1 w2. Proof. intros (a & b & _). now split. Qed.

Lemma single_sim (E : world1 V Ob Ac R) (M : mode) (ml : option nat) : n = 1 -> forall fuel cur ts sc,
  rel (match cur with None => waiting | Some _ => running end) (eval_loop (euser A E) M ml fuel cur ts sc) (eval_loop (ideal1 cell zero pick p E) M ml fuel cur ts sc)
      (fun _ w1 w2 => stopped w1 w2 /\ match M with NEpisodes k => length sc < k -> waiting w1 w2 | NSteps _ => True end) stopped.
Proof.
  destruct HA as (HM & HC & HO). intros N1. induction fuel as [|fuel IH]; intros cur ts sc.
  { cbn [eval_loop]. apply rel_err. destruct cur; [exact running_stopped|exact waiting_stopped]. }
  cbn [eval_loop]. eapply rel_bind with (Q := fun _ => running).
  { destruct cur as [c|]; [apply rel_ret; auto|]. eapply rel_bind with (Q := fun _ => running); [|intros x; apply rel_ret; auto].
    apply rel_call. intros [v1 s] [v2 h] (Ev & St & Em). cbn in Ev. subst v2. cbn. destruct (w_reset E v1) as [v' o]. exists (v', s), (v', zero), o. split; [reflexivity|]. split; [reflexivity|].
    destruct o; [split; [reflexivity|split; [exact St|exact Em]]|split; [reflexivity|exact St]]. }
  intros [[obs tr] len]. eapply rel_bind with (Q := fun _ => running).
  { apply rel_call. intros [v1 s] [v2 h] (Ev & St & Em). cbn in Ev, Em, St. subst v2. cbn. destruct St as [Ep Et].
    destruct (HC (w_chance E v1) s [obs] Et ltac:(cbn; lia) ltac:(rewrite Em; cbn; lia)) as (s' & Ea & Em' & Ep' & Et'). rewrite Ea. rewrite Em, Ep in Em' |- *. unfold outs in *. cbn in Em' |- *.
    destruct (cell p obs h) as [y h'] eqn:Ec. exists (v1, s'), (v1, h'), (Ok (pick (w_chance E v1) 0 y)). split; [reflexivity|]. split; [reflexivity|]. split; [reflexivity|]. split; [split; [cbn [snd]; congruence|exact Et']|exact Em']. }
  intros a. eapply rel_bind with (Q := fun _ => running).
  { apply rel_call. intros [v1 s] [v2 h] (Ev & St & Em). cbn in Ev. subst v2. cbn. destruct (w_step E a v1) as [v' y]. exists (v', s), (v', h), y. split; [reflexivity|]. split; [reflexivity|].
    destruct y; [split; [reflexivity|split; [exact St|exact Em]]|split; [reflexivity|exact St]]. }
  intros [[[o2 r] done] needs]. cbv zeta. set (reset := done || at_limit ml (Datatypes.S len) || needs).
  eapply rel_bind with (Q := fun _ => if reset then waiting else running).
  { apply rel_call. intros [v1 s] [v2 h] (Ev & St & Em). cbn in Ev, Em, St. subst v2. cbn. destruct St as [Ep Et].
    destruct (HO s [(o2, r, done, reset)] Et ltac:(cbn; lia) ltac:(rewrite Em; cbn; lia)) as (s' & Ea & Em' & Ep' & Et'). rewrite Ea. rewrite Em in Em'. cbn in Em'. exists (v1, s'), (v1, h), (Ok tt). split; [reflexivity|]. split; [reflexivity|].
    assert (Er : done || reset = reset) by (unfold reset; destruct done, needs, (at_limit ml (Datatypes.S len)); reflexivity). rewrite Er in Em'.
    assert (St' : still s') by (split; [cbn [snd]; congruence|exact Et']). destruct reset; (split; [reflexivity|split; [exact St'|exact Em']]). }
  intros _. destruct reset eqn:Er; cbv iota.
  - destruct M as [m|m]; [destruct (m <=? Datatypes.S ts)|destruct (m <=? length (sc ++ [(tr + r, Datatypes.S len)%Q])) eqn:El].
    + apply rel_ret. intros w1 w2 K. split; [now apply waiting_stopped|exact I].
    + apply (IH None).
    + apply rel_ret. intros w1 w2 K. split; [now apply waiting_stopped|auto].
    + intros w1 w2 t K. destruct (IH None (Datatypes.S ts) (sc ++ [(tr + r, Datatypes.S len)%Q]) w1 w2 t K) as (a1 & b1 & t1 & tr1 & r1 & F1 & F2 & F3). exists a1, b1, t1, tr1, r1. split; [exact F1|]. split; [exact F2|].
      destruct r1 as [x|]; [|exact F3]. destruct F3 as [F3 F4]. split; [exact F3|]. intros L. apply F4. apply Nat.leb_gt in El. exact El.
  - destruct M as [m|m]; [destruct (m <=? Datatypes.S ts)|destruct (m <=? length sc) eqn:El].
    + apply rel_ret. intros w1 w2 K. split; [now apply running_stopped|exact I].
    + apply (IH (Some (o2, (tr + r)%Q, Datatypes.S len))).
    + apply rel_ret. intros w1 w2 K. split; [now apply running_stopped|]. intros L. apply Nat.leb_le in El. lia.
    + apply (IH (Some (o2, (tr + r)%Q, Datatypes.S len))).
Qed.

(** ** Several environments *)
Definition nwaiting (w1 : V * S) (w2 : V * list H) : Prop := fst w1 = fst w2 /\ still (snd w1) /\ clean (snd w1).
Definition nrunning (w1 : V * S) (w2 : V * list H) : Prop := fst w1 = fst w2 /\ still (snd w1) /\ mem (snd w1) = snd w2 /\ length (snd w2) = n.
Definition nending (es : list bool) (w1 : V * S) (w2 : V * list H) : Prop :=
  fst w1 = fst w2 /\ still (snd w1) /\ mem (snd w1) = map (fun '(e, h) => if e : bool then zero else h) (combine es (snd w2)) /\ length (snd w2) = n.
Definition nstopped (w1 : V * S) (w2 : V * list H) : Prop := fst w1 = fst w2 /\ still (snd w1).

Lemma zip_ends (obss : list Ob) (rs : list Q) (dones resets : list bool) : length obss = n -> length rs = n -> length dones = n -> length resets = n ->
  length (zip_outcomes obss rs dones resets) = n /\ map ends (zip_outcomes obss rs dones resets) = map (fun '(d, e) => d || e) (combine dones resets).
Proof.
  intros L1 L2 L3 L4. unfold zip_outcomes. split; [rewrite map_length, !combine_length; lia|]. rewrite map_map.
  revert obss rs dones resets L1 L2 L3 L4. induction n as [|k IH]; intros [|o obss] [|r rs] [|d dones] [|e resets] L1 L2 L3 L4; cbn in *; try lia; [reflexivity|]. f_equal. apply IH; lia.
Qed.
Lemma zero_where_ends (l : list (outcome Ob)) (hs : list H) : map (fun '(y, h) => if ends y then zero else h) (combine l hs) = map (fun '(e, h) => if e : bool then zero else h) (combine (map ends l) hs).
Proof. revert hs. induction l as [|y l IH]; intros [|h hs]; cbn; [reflexivity..|]. now rewrite IH. Qed.
Lemma account_ok (U : buserland (V * S) Ob Ac) ml (l : eloc) (os : list (outcome Ob)) l' resets es : num_envs U = n -> length (el_len l) = n -> length os = n -> account U ml l os = (l', resets, es) ->
  length (el_len l') = n /\ length resets = n /\ length es = n /\ map (fun '(d, e) => d || e) (combine (map (fun '(_, _, d, _) => d) os) resets) = es.
Proof.
  intros Hn Ll Lo E. unfold account in E. destruct (close_episodes _ _ _ _ _ _) as [[ks d] nx]. injection E as <- <- <-. cbn [el_len]. unfold zero_where.
  set (r0 := match ml with None => repeat false (num_envs U) | Some m => map (fun k => k =? m) (map Datatypes.S (el_len l)) end).
  assert (L0 : length r0 = n) by (unfold r0; destruct ml; [now rewrite !map_length|now rewrite repeat_length]).
  clearbody r0. unfold outcome in *. repeat rewrite ?map_length, ?combine_length.
  split; [lia|]. split; [lia|]. split; [lia|].
  clear - L0 Lo. revert r0 os L0 Lo. induction n as [|k IH]; intros [|a r0] [|[[[o r] d] e] os] L0 Lo; cbn in *; try lia; [reflexivity|]. f_equal; [apply orb_comm|]. apply IH; lia.
Qed.
Lemma all_true (rs : list bool) (dones : list bool) (hs : list H) : length rs = n -> length dones = n -> length hs = n ->
  map (fun '(e, h) => if e : bool then zero else h) (combine (map (fun '(d, e) => d || e) (combine dones (map (fun _ => true) rs))) hs) = repeat zero n.
Proof. intros L1 L2 L3. revert rs dones hs L1 L2 L3. induction n as [|k IH]; intros [|r rs] [|d dones] [|h hs] L1 L2 L3; cbn in *; try lia; [reflexivity|]. rewrite orb_true_r. f_equal. apply IH; lia. Qed.
Lemma neg_mask (es : list bool) (hs : list H) : map (fun '(goes_on, h) => if goes_on : bool then h else zero) (combine (map negb es) hs) = map (fun '(e, h) => if e : bool then zero else h) (combine es hs).
Proof. revert hs. induction es as [|e es IH]; intros [|h hs]; cbn; [reflexivity..|]. rewrite IH. now destruct e. Qed.
Lemma account_same (U1 : buserland (V * S) Ob Ac) (U2 : buserland (V * list H) Ob Ac) ml l os : num_envs U1 = num_envs U2 -> account U1 ml l os = account U2 ml l os.
Proof. intros E. unfold account. now rewrite E. Qed.

Lemma vector_sim (E : worldn V Ob Ac R) (M : mode) (ml : option nat) : vector_of n E -> forall fuel obss l, length obss = n -> length (el_len l) = n ->
  rel nrunning (batch_eval_loop (ebuser A E) M ml fuel obss l) (batch_eval_loop (idealn cell zero pick p E) M ml fuel obss l) (fun _ => nwaiting) nstopped.
Proof.
  destruct HA as (HM & HC & HO). intros (N0 & N1 & N2). induction fuel as [|fuel IH]; intros obss l Lo Ll.
  { cbn [batch_eval_loop]. apply rel_err. intros w1 w2 (a & b & _). now split. }
  cbn [batch_eval_loop]. eapply rel_bind with (Q := fun _ => nrunning).
  { apply rel_call. intros [v1 s] [v2 hs] (Ev & [Ep Et] & Em & Lh). cbn in Ev, Em, Ep, Et, Lh. subst v2. cbn.
    destruct (HC (wn_chance E v1) s obss Et Lo ltac:(rewrite Em; exact Lh)) as (s' & Ea & Em' & Ep' & Et'). rewrite Ea. rewrite Em, Ep in Em' |- *. fold (outs p obss hs).
    eexists (v1, s'), (v1, _), _. split; [reflexivity|]. split; [reflexivity|]. split; [reflexivity|]. split; [split; [cbn [snd]; congruence|exact Et']|]. split; [exact Em'|]. cbn [snd]. unfold outs. rewrite !map_length, combine_length. lia. }
  intros a. eapply rel_bind with (Q := fun os w1 w2 => nrunning w1 w2 /\ length os = n).
  { apply rel_call. intros [v1 s] [v2 hs] (Ev & St & Em). cbn in Ev. subst v2. cbn. destruct (wn_step E a v1) as [v' y] eqn:Es. exists (v', s), (v', hs), y. split; [reflexivity|]. split; [reflexivity|].
    destruct y as [os|]; [split; [split; [reflexivity|split; [exact St|exact Em]]|exact (N2 _ _ _ _ Es)]|split; [reflexivity|exact St]]. }
  intros os. intros w1 w2 t (K & Los). revert w1 w2 t K. change (rel nrunning (let '(l0, resets, ends0) := account (ebuser A E) ml l os in
      '(terminate, vs) <-- plift (conclude M l0) ;;;
      _ <-- pcall (fun _ => BObserve (map (fun '(_, r, _, _) => r) os) (map (fun '(_, _, d, _) => d) os) (if terminate : bool then map (fun _ => true) resets else resets))
              (M_Train.batch_observe (ebuser A E) (map (fun '(o, _, _, _) => o) os) (map (fun '(_, r, _, _) => r) os) (map (fun '(_, _, d, _) => d) os) (if terminate : bool then map (fun _ => true) resets else resets)) ;;;
      if terminate : bool then pret vs else obss0 <-- pcall (fun _ => BReset (Some (map negb ends0))) (benv_reset (ebuser A E) (Some (map negb ends0))) ;;; batch_eval_loop (ebuser A E) M ml fuel obss0 l0)
    (let '(l0, resets, ends0) := account (idealn cell zero pick p E) ml l os in
      '(terminate, vs) <-- plift (conclude M l0) ;;;
      _ <-- pcall (fun _ => BObserve (map (fun '(_, r, _, _) => r) os) (map (fun '(_, _, d, _) => d) os) (if terminate : bool then map (fun _ => true) resets else resets))
              (M_Train.batch_observe (idealn cell zero pick p E) (map (fun '(o, _, _, _) => o) os) (map (fun '(_, r, _, _) => r) os) (map (fun '(_, _, d, _) => d) os) (if terminate : bool then map (fun _ => true) resets else resets)) ;;;
      if terminate : bool then pret vs else obss0 <-- pcall (fun _ => BReset (Some (map negb ends0))) (benv_reset (idealn cell zero pick p E) (Some (map negb ends0))) ;;; batch_eval_loop (idealn cell zero pick p E) M ml fuel obss0 l0) (fun _ => nwaiting) nstopped).
  rewrite <- (account_same (ebuser A E) (idealn cell zero pick p E) ml l os eq_refl).
  destruct (account (ebuser A E) ml l os) as [[l' resets] es] eqn:Eacc. destruct (account_ok (ebuser A E) ml l os l' resets es N0 Ll Los Eacc) as (Ll' & Lr & Le & Ees).
  eapply rel_bind with (Q := fun _ => nrunning).
  { intros w1 w2 t K. exists w1, w2, t, [], (conclude M l'). split; [reflexivity|]. split; [reflexivity|]. destruct (conclude M l') as [x|]; [exact K|]. destruct K as (a1 & b1 & _). now split. }
  intros [terminate vs].
  eapply rel_bind with (Q := fun _ => if terminate then nwaiting else nending es).
  { apply rel_call. intros [v1 s] [v2 hs] (Ev & [Ep Et] & Em & Lh). cbn in Ev, Em, Ep, Et, Lh. subst v2. cbn.
    set (rs2 := if terminate then map (fun _ : bool => true) resets else resets).
    assert (Lr2 : length rs2 = n) by (unfold rs2; destruct terminate; [now rewrite map_length|exact Lr]).
    assert (Ld : length (map (fun '(_, _, d, _) => d) os : list bool) = n) by now rewrite map_length.
    destruct (zip_ends (map (fun '(o, _, _, _) => o) os) (map (fun '(_, r, _, _) => r) os) (map (fun '(_, _, d, _) => d) os) rs2) as [Lz Ez]; [now rewrite map_length..|exact Lr2|].
    destruct (HO s _ Et Lz ltac:(rewrite Em; exact Lh)) as (s' & Ea & Em' & Ep' & Et'). rewrite Ea. exists (v1, s'), (v1, hs), (Ok tt). split; [reflexivity|]. split; [reflexivity|].
    rewrite zero_where_ends, Ez, Em in Em'. assert (St' : still s') by (split; [cbn [snd]; congruence|exact Et']). unfold rs2 in Em'. destruct terminate.
    - split; [reflexivity|]. split; [exact St'|]. unfold clean. cbn [snd]. rewrite Em'. now apply all_true.
    - split; [reflexivity|]. split; [exact St'|]. split; [|exact Lh]. cbn [snd]. now rewrite Em', Ees. }
  intros _. destruct terminate; [apply rel_ret; auto|]. eapply rel_bind with (Q := fun o w1 w2 => nrunning w1 w2 /\ length o = n).
  { apply rel_call. intros [v1 s] [v2 hs] (Ev & St & Em & Lh). cbn in Ev, Em, Lh. subst v2. cbn. destruct (wn_reset E (Some (map negb es)) v1) as [v' o] eqn:Er. eexists (v', s), (v', _), o. split; [reflexivity|]. split; [reflexivity|].
    destruct o as [o|]; [|split; [reflexivity|exact St]]. split; [|exact (N1 _ _ _ _ Er)]. split; [reflexivity|]. split; [exact St|]. cbn [snd]. rewrite neg_mask. split; [exact Em|]. rewrite map_length, combine_length. lia. }
  intros o w1 w2 t [K Lo']. exact (IH o l' Lo' Ll' w1 w2 t K).
Qed.
End Sim.

Section Lives.
Context {V S Ob Ac Y H Pm R : Type} (A : evagent S Ob Ac R) (cell : Pm -> Ob -> H -> Y * H) (zero : H) (pick : R -> nat -> Y -> Ac) (params : S -> Pm) (mem : S -> list H) (n : nat).
Context (HA : evaluable A cell zero pick params mem n).
Notation clean := (clean zero mem n).
Definition one_world (e : evaluation V Ob Ac R) : Prop := match e with Single _ _ _ _ _ => n = 1 | Vector E _ _ _ _ => vector_of n E end.
Lemma proper_world e : ends_properly n e -> one_world e. Proof. destruct e as [E [k|k] l fuel v|E M l fuel v]; cbn; [tauto|tauto|auto]. Qed.

Lemma evaluation_ok (e : evaluation V Ob Ac R) s v' s' r : clean s -> one_world e -> evaluate A e s = (v', s', r) ->
  ideal cell zero pick (params s) e = (v', r) /\ params s' = params s /\ ea_training A s' = ea_training A s /\ (ends_properly n e -> is_ok r = true -> clean s').
Proof.
  intros C W E. pose proof HA as (HM & _ & _). destruct (HM false s) as (M1 & M2 & M3). destruct e as [Ev M l fuel v|Ev M l fuel v]; cbn [evaluate ideal one_world] in *.
  - unfold run_evaluation, run_episodes in *. assert (K : waiting A zero params mem (params s) (v, ea_mode A false s) (v, zero)).
    { split; [reflexivity|]. split; [split; cbn [snd]; [exact M2|exact M3]|]. cbn [snd]. rewrite M1, C, W. reflexivity. }
    destruct (single_sim A cell zero pick params mem n HA (params s) Ev M l W fuel None 0 [] _ _ 0 K) as (w1 & w2 & t & tr & r0 & E1 & E2 & Q). rewrite E1 in E. injection E as <- <- <-. rewrite E2. cbn [fst snd].
    destruct (HM (ea_training A s) (snd w1)) as (N1 & N2 & N3).
    assert (G : stopped A params (params s) w1 w2) by (destruct r0; [apply Q|exact Q]). destruct G as (G1 & G2 & _). rewrite G1. split; [reflexivity|]. split; [rewrite N2; exact G2|]. split; [exact N3|].
    intros Pr O. destruct r0 as [x|]; [|discriminate]. destruct Q as [_ Q]. destruct M as [k|k]; cbn [ends_properly] in Pr; [tauto|]. destruct Pr as [_ Pr]. destruct (Q Pr) as (_ & _ & Q3). unfold P_EvalRec.clean. rewrite N1, Q3, W. reflexivity.
  - unfold batch_run_evaluation, batch_run_episodes in *.
    assert (K : rel (nwaiting A zero params mem n (params s)) (obss <-- pcall (fun _ => BReset None) (benv_reset (ebuser A Ev) None) ;;; batch_eval_loop (ebuser A Ev) M l fuel obss (mkELoc [] (seq 0 n) n (repeat 0%Q n) (repeat 0 n)))
      (obss <-- pcall (fun _ => BReset None) (benv_reset (idealn cell zero pick (params s) Ev) None) ;;; batch_eval_loop (idealn cell zero pick (params s) Ev) M l fuel obss (mkELoc [] (seq 0 n) n (repeat 0%Q n) (repeat 0 n)))
      (fun _ => nwaiting A zero params mem n (params s)) (nstopped A params (params s))).
    { pose proof W as (N0 & N1 & _). eapply rel_bind with (Q := fun o w1 w2 => nrunning A params mem n (params s) w1 w2 /\ length o = n).
      - apply rel_call. intros [v1 s1] [v2 hs] (Ev1 & St & Em). cbn in Ev1, Em. subst v2. cbn. destruct (wn_reset Ev None v1) as [v2 o] eqn:Er. eexists (v2, s1), (v2, _), o. split; [reflexivity|]. split; [reflexivity|].
        destruct o as [o|]; [|split; [reflexivity|exact St]]. split; [|exact (N1 _ _ _ _ Er)]. split; [reflexivity|]. split; [exact St|]. cbn [snd]. rewrite N0. split; [exact Em|apply repeat_length].
      - intros o w1 w2 t [K Lo]. apply (vector_sim A cell zero pick params mem n HA (params s) Ev M l W fuel o _ Lo); [apply repeat_length|exact K]. }
    pose proof W as (N0 & _). cbn [num_envs ebuser idealn] in *. rewrite N0 in *. destruct (K (v, ea_mode A false s) (v, []) 0) as (w1 & w2 & t & tr & r0 & E1 & E2 & Q).
    { split; [reflexivity|]. split; [split; cbn [snd]; [exact M2|exact M3]|]. unfold P_EvalRec.clean. cbn [snd]. now rewrite M1. }
    rewrite E1 in E. injection E as <- <- <-. rewrite E2. cbn [fst snd]. destruct (HM (ea_training A s) (snd w1)) as (L1 & L2 & L3).
    assert (G : nstopped A params (params s) w1 w2) by (destruct r0 as [x0|x0]; [destruct Q as (qa & qb & _); now split|exact Q]). destruct G as (G1 & G2 & _). rewrite G1. split; [reflexivity|]. split; [rewrite L2; exact G2|]. split; [exact L3|].
    intros _ O. destruct r0 as [x|]; [|discriminate]. destruct Q as (_ & _ & Q3). unfold P_EvalRec.clean. now rewrite L1.
Qed.

Context {X : Type} (train : X -> S -> result S).
Context (HT : forall x s s', ea_training A s = true -> train x s = Ok s' -> mem s' = mem s /\ ea_training A s' = true).
Lemma life_ok (ds : list (deed V Ob Ac R X)) : forall s s' l, Forall (fun d => match d with Evaluate e => ends_properly n e | Train _ => True end) ds -> clean s -> ea_training A s = true ->
  life A train params s ds = Ok (s', l) -> Forall (fun x => let '(p, e, v, scores) := x in ideal cell zero pick p e = (v, Ok scores)) l /\ clean s' /\ ea_training A s' = true.
Proof.
  induction ds as [|[x|e] ds IH]; intros s s' l F C T E; cbn [life] in E.
  - injection E as <- <-. auto.
  - apply Forall_cons_iff in F. destruct F as [_ F]. destruct (train x s) as [s1|] eqn:E1; [|discriminate]. cbn [rbind] in E. destruct (HT x s s1 T E1) as [T1 T2]. apply (IH s1 s' l F); auto. unfold P_EvalRec.clean. now rewrite T1.
  - apply Forall_cons_iff in F. destruct F as [Fe F]. destruct (evaluate A e s) as [[v s1] [sc|]] eqn:E1; [|discriminate]. cbn [rbind] in E. destruct (life A train params s1 ds) as [[s2 l2]|] eqn:E2; [|discriminate]. cbn in E. injection E as <- <-.
    destruct (evaluation_ok e s v s1 (Ok sc) C (proper_world e Fe) E1) as (A1 & A2 & A3 & A4). destruct (IH s1 s2 l2 F (A4 Fe eq_refl) ltac:(now rewrite A3) E2) as (B1 & B2). split; [constructor; [exact A1|exact B1]|exact B2].
Qed.
End Lives.

(** ** The agents *)
Definition memory_of {H} (zero : H) (n : nat) (hs : option (list H)) : list H := match hs with None => repeat zero n | Some l => l end.
Section Batched.
Context {Ob Y H Pm : Type} (cell : Pm -> Ob -> H -> Y * H) (zero : H) (n : nat).
Lemma combine_repeat {X} (l : list X) : combine l (repeat zero (length l)) = map (fun x => (x, zero)) l.
Proof. induction l as [|x l IH]; cbn; [reflexivity|]. now rewrite IH. Qed.
Lemma forward_total p obs hs : length obs = n -> length (memory_of zero n hs) = n ->
  forward cell zero p obs hs = Ok (map fst (outs cell p obs (memory_of zero n hs)), map snd (outs cell p obs (memory_of zero n hs))).
Proof.
  intros Lo Lm. unfold forward, unzip, outs. destruct hs as [l|]; cbn [memory_of] in *.
  - rewrite (proj2 (Nat.eqb_eq _ _)) by congruence. do 2 f_equal; rewrite !map_map; apply map_ext; intros [o h]; reflexivity.
  - rewrite <- Lo, combine_repeat, !map_map. reflexivity.
Qed.
Lemma nth_ended (es : list bool) i : existsb (Nat.eqb i) (ended_indices es) = nth i es false.
Proof.
  unfold ended_indices. destruct (existsb _ _) eqn:E.
  - apply existsb_exists in E. destruct E as (j & I & Q). apply Nat.eqb_eq in Q. subst j. apply filter_In in I. symmetry. apply I.
  - destruct (nth i es false) eqn:N; [|reflexivity]. assert (existsb (Nat.eqb i) (filter (fun i => nth i es false) (seq 0 (length es))) = true); [|congruence].
    apply existsb_exists. exists i. split; [|apply Nat.eqb_refl]. apply filter_In. split; [|exact N]. apply in_seq. split; [lia|]. destruct (le_lt_dec (length es) i) as [L|L]; [|lia]. rewrite nth_overflow in N by exact L. discriminate.
Qed.
Lemma reset_list (es : list bool) (hs : list H) : forall k, length es = length hs + k ->
  map (fun ih => if existsb (Nat.eqb (fst ih)) (ended_indices es) then zero else snd ih) (combine (seq k (length hs)) hs) = map (fun '(e, h) => if e : bool then zero else h) (combine (skipn k es) hs).
Proof.
  induction hs as [|h hs IH]; intros k L; cbn [length seq combine map] in *; [now destruct (skipn k es)|].
  rewrite IH by (cbn; lia). cbn [fst snd]. rewrite nth_ended. assert (Q : exists e es', skipn k es = e :: es' /\ skipn (S k) es = es' /\ nth k es false = e).
  { clear IH. revert k L. induction es as [|e es IH]; intros k L; [cbn in L; lia|]. destruct k as [|k]; [exists e, es; auto|]. cbn [skipn nth]. cbn in L. apply IH. lia. }
  destruct Q as (e & es' & -> & -> & ->). reflexivity.
Qed.
Lemma none_ended (es : list bool) : ended_indices es = [] -> Forall (fun e => e = false) es.
Proof.
  intros E. apply Forall_forall. intros e I. destruct e; [|reflexivity]. apply In_nth with (d := false) in I. destruct I as (i & L & N). rewrite <- nth_ended, E in N. discriminate N.
Qed.
Lemma reset_total (l : list (outcome Ob)) hs : length l = n -> length (memory_of zero n hs) = n ->
  exists hs', reset_states zero (map ends l) hs = Ok hs' /\ memory_of zero n hs' = map (fun '(y, h) => if ends y then zero else h) (combine l (memory_of zero n hs)).
Proof.
  intros Ll Lm. rewrite zero_where_ends. unfold reset_states. destruct (ended_indices (map ends l)) as [|i0 ix] eqn:Ei.
  - exists hs. split; [reflexivity|]. apply none_ended in Ei. set (m := memory_of zero n hs) in *. clearbody m. assert (L : length (map ends l) = length m) by (rewrite map_length; congruence). clear - Ei L.
    revert m L. induction Ei as [|e es He _ IH]; intros [|h m] L; cbn in *; try lia; [reflexivity|]. rewrite He. f_equal. apply IH. lia.
  - destruct hs as [hs|]; cbn [memory_of] in *.
    + rewrite <- Ei. replace (forallb (fun i => i <? length hs) (ended_indices (map ends l))) with true.
      * eexists. split; [reflexivity|]. cbn [memory_of]. exact (reset_list (map ends l) hs 0 ltac:(rewrite map_length; lia)).
      * symmetry. apply forallb_forall. intros i I. unfold ended_indices in I. apply filter_In in I. destruct I as [I _]. apply in_seq in I. rewrite map_length in I. apply Nat.ltb_lt. lia.
    + exists None. split; [reflexivity|]. cbn [memory_of]. clear Ei. clear Lm. assert (L : length (map ends l) = n) by now rewrite map_length. set (es := map ends l) in *. clearbody es. clear - L.
      revert es L. induction n as [|k IH]; intros [|e es] L; cbn in *; try lia; [reflexivity|]. rewrite <- IH by lia. now destruct e.
Qed.
End Batched.

Section DQN.
Context {Ob Ac AV H Pm Op R : Type}.
Context (cell : Pm -> Ob -> H -> AV * H) (zero : H) (greedy : AV -> Ac) (U : updater) (tui fuel : nat) (n : nat).
Context (learn : Pm -> Pm -> Op -> list (list (trans (rec Ob Ac H))) -> Pm * Op) (sync : Pm -> Pm -> Pm) (draws : nat -> oracle * (nat -> nat -> nat)).
Lemma map_enum {X Z} (f : X -> Z) (l : list X) : forall k, map (fun '(_, x) => f x) (combine (seq k (length l)) l) = map f l.
Proof. induction l as [|x l IH]; intros k; cbn [length seq combine map]; [reflexivity|]. now rewrite IH. Qed.
Lemma dqn_evaluable : evaluable (dqn_evagent (R := R) cell zero greedy U tui fuel learn sync draws) cell zero (fun _ _ av => greedy av) q_model (fun s => memory_of zero n (q_test s)) n.
Proof.
  split; [|split].
  - intros b s. cbn. auto.
  - intros c s obs T Lo Lm. cbn [dqn_evagent ea_act ea_training] in *. unfold M_RecDQN.batch_act. rewrite T, (forward_total cell zero n (q_model s) obs (q_test s) Lo Lm). cbn [rbind]. eexists. split; [do 2 f_equal|].
    + rewrite map_map. symmetry. exact (map_enum (fun y : AV * H => greedy (fst y)) _ 0).
    + cbn. auto.
  - intros s l T Ll Lm. cbn [dqn_evagent ea_observe ea_training] in *. unfold M_RecDQN.batch_observe. rewrite T. destruct (reset_total zero n l (q_test s) Ll Lm) as (hs & -> & E). cbn [rbind]. eexists. split; [reflexivity|]. cbn. auto.
Qed.
Lemma keeps_updating : forall times (s s' : rdqn Ob Ac H Pm Op) bs, update_loop (fun _ _ => Err TypeError) (sample_episodes fuel draws) (update_from_episodes learn) U times s = Ok (s', bs) ->
  q_test s' = q_test s /\ q_training s' = q_training s.
Proof.
  induction times as [|k IH]; intros s s' bs E; cbn [update_loop] in E; [injection E as <- <-; auto|].
  destruct (u_episodic U); [|discriminate]. unfold sample_episodes at 1 in E. destruct (draws (q_optim_t s)) as [o offs]. destruct (eb_sample_episodes _ _ _ _ _ _) as [eps|]; [|discriminate]. cbn [rbind] in E.
  unfold update_from_episodes at 1 in E. destruct (learn _ _ _ eps) as [p op]. cbn [rbind] in E.
  match type of E with context [update_loop _ _ _ _ k ?s2] => destruct (update_loop (fun _ _ => Err TypeError) (sample_episodes fuel draws) (update_from_episodes learn) U k s2) as [[s3 bs']|] eqn:UL; [|discriminate] end.
  cbn in E. injection E as <- <-. exact (IH _ _ _ UL).
Qed.
Lemma keeps_observing_one (s s' : rdqn Ob Ac H Pm Op) i obs r done reset bs : M_RecDQN.observe_one U tui fuel learn sync draws s i obs r done reset = Ok (s', bs) -> q_test s' = q_test s /\ q_training s' = q_training s.
Proof.
  unfold M_RecDQN.observe_one. intros E. match type of E with rbind ?m _ = _ => destruct m as [tgt|]; [|discriminate] end. cbn [rbind] in E. match type of E with rbind ?m _ = _ => destruct m as [l|]; [|discriminate] end. cbn [rbind] in E.
  match type of E with rbind ?m _ = _ => destruct m as [[buf last]|]; [|discriminate] end. cbn [rbind] in E. match type of E with rbind ?m _ = _ => destruct m as [[[b s2] batches]|] eqn:UP; [|discriminate] end. cbn in E. injection E as <- <-.
  unfold update_if_necessary in UP. destruct (_ <? _) in UP; [injection UP as <- <- <-; auto|]. destruct (u_episodic U && _) in UP; [injection UP as <- <- <-; auto|]. destruct (u_interval U =? 0); [discriminate|].
  destruct (negb _) in UP; [injection UP as <- <- <-; auto|]. destruct (update_loop _ _ _ _ _ _) as [[s3 bs3]|] eqn:UL; [|discriminate]. cbn in UP. injection UP as <- <- <-. exact (keeps_updating _ _ _ _ UL).
Qed.
Lemma keeps_observing : forall l (s s' : rdqn Ob Ac H Pm Op) i bs, observe_all U tui fuel learn sync draws s i l = Ok (s', bs) -> q_test s' = q_test s /\ q_training s' = q_training s.
Proof.
  induction l as [|[[[obs r] done] reset] l IH]; intros s s' i bs E; cbn [observe_all] in E; [injection E as <- <-; auto|].
  destruct (M_RecDQN.observe_one _ _ _ _ _ _ s i obs r done reset) as [[s1 b]|] eqn:E1; [|discriminate]. cbn [rbind] in E. destruct (observe_all _ _ _ _ _ _ s1 (S i) l) as [[s2 bs2]|] eqn:E2; [|discriminate]. cbn in E. injection E as <- <-.
  destruct (keeps_observing_one _ _ _ _ _ _ _ _ E1) as [A1 A2]. destruct (IH _ _ _ _ E2) as [B1 B2]. split; congruence.
Qed.
Lemma dqn_train_ok es (s s' : rdqn Ob Ac H Pm Op) : q_training s = true -> dqn_train cell zero greedy U tui fuel learn sync draws es s = Ok s' -> q_test s' = q_test s /\ q_training s' = true.
Proof.
  unfold dqn_train. intros T E. match type of E with rbind ?m _ = _ => destruct m as [[s1 tr]|] eqn:E1; [|discriminate] end. cbn in E. injection E as <-. revert s s1 tr T E1.
  induction es as [|e es IH]; intros s s1 tr T E1; cbn [map M_RecDQN.run] in E1; [injection E1 as <- <-; auto|].
  match type of E1 with rbind ?m _ = _ => destruct m as [[s2 x]|] eqn:E2; [|discriminate] end. cbn [rbind] in E1. match type of E1 with rbind ?m _ = _ => destruct m as [[s3 xs]|] eqn:E3; [|discriminate] end. cbn in E1. injection E1 as <- <-.
  assert (G : q_test s2 = q_test s /\ q_training s2 = true).
  { destruct e as [[obs ex]|l]; cbn [M_RecDQN.step] in E2.
    - unfold M_RecDQN.batch_act in E2. rewrite T in E2. destruct (forward _ _ _ _ _) as [[avs hs]|]; [|discriminate]. cbn [rbind] in E2. injection E2 as E2 _. subst s2. cbn. auto.
    - unfold M_RecDQN.batch_observe in E2. rewrite T in E2. destruct (observe_all _ _ _ _ _ _ s 0 l) as [[s4 bs]|] eqn:E4; [|discriminate]. cbn [rbind] in E2. destruct (reset_states _ _ _) as [hs|]; [|discriminate]. cbn [rbind] in E2. injection E2 as E2 _. subst s2. cbn.
      destruct (keeps_observing _ _ _ _ _ E4) as [A1 _]. auto. }
  destruct G as [G1 G2]. destruct (IH s2 s3 xs G2 E3) as [I1 I2]. split; [congruence|exact I2].
Qed.
End DQN.

Section PPO.
Context {Ob Act Dist HS Pm : Type}.
Context (cell : Pm -> Ob -> HS -> (Dist * Q) * HS) (zero : HS) (log_prob : Dist -> Act -> Q) (mode_ : Dist -> Act) (det : bool) (n : nat).
Context (max_len : option nat) (update_interval : nat) (gamma lambd : Q) (learn : Pm -> list (list (ptr Ob Act HS)) -> Pm).
Notation agent := (ppo_evagent cell zero log_prob mode_ det (Some max_len) update_interval gamma lambd learn).
Lemma ppo_evaluable : evaluable agent cell zero (fun (c : nat -> Dist -> Act) i y => if det then mode_ (fst y) else c i (fst y)) o_p (fun s => memory_of zero n (o_test s)) n.
Proof.
  split; [|split].
  - intros b s. cbn. auto.
  - intros c s obs T Lo Lm. cbn [ppo_evagent ea_act ea_training] in *. unfold M_PPOAgent.batch_act. rewrite T. unfold outputs. rewrite (forward_total cell zero n (o_p s) obs (o_test s) Lo Lm). cbn [rbind]. eexists. split; [do 2 f_equal|].
    + destruct det; [rewrite map_map; symmetry; exact (map_enum (fun y : Dist * Q * HS => mode_ (fst (fst y))) _ 0)|]. rewrite map_length. generalize (outs cell (o_p s) obs (memory_of zero n (o_test s))). intros l. generalize 0. induction l as [|y l IH]; intros k; cbn [length seq combine map]; [reflexivity|]. cbn [fst snd]. f_equal. apply IH.
    + cbn. auto.
  - intros s l T Ll Lm. cbn [ppo_evagent ea_observe ea_training] in *. unfold M_PPOAgent.batch_observe. rewrite T. destruct (reset_total zero n l (o_test s) Ll Lm) as (hs & -> & E). cbn [rbind]. eexists. split; [reflexivity|]. cbn. auto.
Qed.
Notation obs_one := (M_PPOAgent.observe_one (Some max_len)).
Lemma ppo_keeps_one (s s' : ppo Ob Act HS Pm) i row : obs_one s i row = Ok s' -> o_test s' = o_test s /\ o_training s' = o_training s.
Proof.
  unfold M_PPOAgent.observe_one. destruct row as [last [[[obs r] done] reset]]. intros E. match type of E with rbind ?m _ = _ => destruct m as [bl|]; [|discriminate] end. cbn [rbind] in E. match type of E with rbind ?m _ = _ => destruct m as [ep|]; [|discriminate] end. cbn [rbind] in E.
  match type of E with rbind ?m _ = _ => destruct m as [ep2|]; [|discriminate] end. cbn [rbind] in E. match type of E with rbind ?m _ = _ => destruct m as [[mem bl2]|]; [|discriminate] end. cbn in E. injection E as <-. cbn. auto.
Qed.
Lemma ppo_keeps_loop : forall rows (s s' : ppo Ob Act HS Pm) i, observe_loop (Some max_len) s i rows = Ok s' -> o_test s' = o_test s /\ o_training s' = o_training s.
Proof.
  induction rows as [|r rows IH]; intros s s' i E; cbn [observe_loop] in E; [injection E as <-; auto|]. destruct (obs_one s i r) as [s1|] eqn:E1; [|discriminate]. cbn [rbind] in E.
  destruct (ppo_keeps_one _ _ _ _ E1) as [A1 A2]. destruct (IH _ _ _ E) as [B1 B2]. split; congruence.
Qed.
Lemma ppo_train_ok es (s s' : ppo Ob Act HS Pm) : o_training s = true -> ppo_train cell zero log_prob mode_ det (Some max_len) update_interval gamma lambd learn es s = Ok s' -> o_test s' = o_test s /\ o_training s' = true.
Proof.
  unfold ppo_train. intros T E. match type of E with rbind ?m _ = _ => destruct m as [[s1 tr]|] eqn:E1; [|discriminate] end. cbn in E. injection E as <-. revert s s1 tr T E1.
  induction es as [|e es IH]; intros s s1 tr T E1; cbn [map M_PPOAgent.run] in E1; [injection E1 as <- <-; auto|].
  match type of E1 with rbind ?m _ = _ => destruct m as [[s2 x]|] eqn:E2; [|discriminate] end. cbn [rbind] in E1. match type of E1 with rbind ?m _ = _ => destruct m as [[s3 xs]|] eqn:E3; [|discriminate] end. cbn in E1. injection E1 as <- <-.
  assert (G : o_test s2 = o_test s /\ o_training s2 = true).
  { destruct e as [[obs ex]|l]; cbn [M_PPOAgent.step] in E2.
    - unfold M_PPOAgent.batch_act in E2. rewrite T in E2. repeat match type of E2 with context [passert ?b] => destruct b; cbn [passert rbind] in E2; [|discriminate] end.
      destruct (outputs _ _ _ _ _ _) as [[ys hs]|]; [|discriminate]. cbn [rbind] in E2. injection E2 as E2 _. subst s2. cbn. auto.
    - unfold M_PPOAgent.batch_observe in E2. rewrite T in E2. destruct (observe_loop _ s 0 _) as [s4|] eqn:E4; [|discriminate]. cbn [rbind] in E2. destruct (reset_states _ _ _) as [hs|]; [|discriminate]. cbn [rbind] in E2.
      destruct (ppo_keeps_loop _ _ _ _ E4) as [A1 A2]. unfold update_if_ready in E2. destruct (_ <=? _) in E2; [|cbn in E2; injection E2 as E2 _; subst s2; cbn; split; congruence].
      repeat (match type of E2 with rbind (rbind ?m _) _ = _ => destruct m; [|discriminate] end; cbn [rbind] in E2). injection E2 as E2 _. subst s2. cbn. split; congruence. }
  destruct G as [G1 G2]. destruct (IH s2 s3 xs G2 E3) as [I1 I2]. split; [congruence|exact I2].
Qed.
End PPO.

Section One.
Context {Ob Ac Y H Pm R : Type} (cell : Pm -> Ob -> H -> Y * H) (zero : H) (pick : R -> nat -> Y -> Ac).
Lemma one_evaluable : evaluable (one_evagent cell zero pick) cell zero pick i_p (fun s => [match i_test s with None => zero | Some h => h end]) 1.
Proof.
  split; [|split].
  - intros b s. cbn. auto.
  - intros c s [|o [|o2 obs]] T Lo Lm; try discriminate Lo. cbn. unfold outs. cbn. destruct (cell (i_p s) o _) as [y h]. eexists. split; [reflexivity|]. cbn. auto.
  - intros s [|[[[o r] d] e] [|y2 l]] T Ll Lm; try discriminate Ll. cbn. eexists. split; [reflexivity|]. cbn in T. destruct (d || e); cbn; auto.
Qed.
End One.
