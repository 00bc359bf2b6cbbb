From Verif Require Import Base P_Base M_Train M_Evaluator M_AsyncEval S_AsyncEval P_Async.
From Coq Require Import ZifyBool ZifyNat.
From Coq Require Import Lqa.
Open Scope nat_scope.

Lemma grants_app a b : grants (a ++ b) = grants a ++ grants b. Proof. apply flat_map_app. Qed.
Lemma row_writes_app a b : row_writes (a ++ b) = row_writes a ++ row_writes b. Proof. apply flat_map_app. Qed.
Lemma compared_app a b : compared (a ++ b) = compared a ++ compared b. Proof. apply flat_map_app. Qed.
Lemma header_writes_app a b : header_writes (a ++ b) = header_writes a + header_writes b.
Proof. unfold header_writes. now rewrite filter_app, app_length. Qed.

Lemma Forall_set {X} (R : X -> Prop) : forall l i x, Forall R l -> R x -> Forall R (list_set l i x).
Proof. induction l as [|h t IH]; intros [|i] x H Hx; cbn; auto; constructor; try assumption; try (apply (Forall_inv H)); try (apply (Forall_inv_tail H)). apply IH; auto. apply (Forall_inv_tail H). Qed.
Lemma Forall_nth_error {X} (R : X -> Prop) l i x : Forall R l -> nth_error l i = Some x -> R x.
Proof. intros H E. rewrite Forall_forall in H. apply H. eapply nth_error_In; eauto. Qed.

(** A property of every event together with what came before it. *)
Definition historic {X} (R : list X -> X -> Prop) (tr : list X) : Prop := forall tr1 x tr2, tr = tr1 ++ x :: tr2 -> R tr1 x.
Lemma historic_nil {X} (R : list X -> X -> Prop) : historic R [].
Proof. intros [|a l] x tr2 H; discriminate. Qed.
Lemma historic_snoc {X} (R : list X -> X -> Prop) tr x : historic R tr -> R tr x -> historic R (tr ++ [x]).
Proof.
  intros H Hx tr1 y tr2 E. destruct tr2 as [|z tr2] using rev_ind.
  - apply app_inj_tail in E. destruct E as [<- <-]. exact Hx.
  - rewrite app_comm_cons, app_assoc in E. apply app_inj_tail in E. destruct E as [E _]. eapply H. exact E.
Qed.

Section Proofs.
Context (round : Q -> Q) (P : evargs) (HI : 1 <= ev_interval P) (Hround : rounding round).
Notation I := (ev_interval P).
Definition prev0 := ev_offset P - ev_offset P mod I.

Definition event_ok (tr : list (nat * eev)) (x : nat * eev) : Prop :=
  match snd x with
  | GGrant t s => s = prev0 + length (grants tr) * I /\ s + I <= t
  | GSkip t => t < prev0 + S (length (grants tr)) * I
  | GHeader => header_writes tr = 0
  | GRow _ _ _ => header_writes tr = 1
  | GMax m best => best = true <-> Qlt float32_min m /\ forall m', In m' (compared tr) -> Qlt (round m') m
  | GRaise => True
  end.

Definition needs_header (p : epc) : bool :=
  match p with EScore _ _ | ERecord _ _ _ | EHooks _ _ _ | EMax _ _ _ => true | _ => false end.

Definition einv (s : estate) (tr : list (nat * eev)) : Prop :=
  let (g, ps) := s in
  historic event_ok tr /\
  ash_prev g = prev0 + length (grants tr) * I /\
  map snd (grants tr) = map (fun k => prev0 + k * I) (seq 0 (length (grants tr))) /\
  header_writes tr = (if ash_header g then 1 else 0) /\
  (ash_header g = true -> ash_file g = Header :: row_writes tr) /\
  (ash_header g = false -> row_writes tr = [] /\ Forall (fun p => needs_header p = false) ps) /\
  (ash_max g = float32_min \/ In (ash_max g) (map round (compared tr))) /\ Qle float32_min (ash_max g) /\
  (forall m, In m (compared tr) -> Qle (round m) (ash_max g)) /\
  Qeq (round (ash_max g)) (ash_max g).

Lemma einv_step s x s' es tr : estep round P s x = (s', es) -> einv s tr -> einv s' (tr ++ es).
Proof.
  destruct s as [g ps]. intros H (K1 & K2 & K3 & K4 & K5 & K6 & K7 & K8 & K9 & K10). destruct x as [i t ep|i out]; cbn [estep] in H.
  - assert (Hno : s' = (g, ps) -> es = [] -> einv s' (tr ++ es)) by (intros -> ->; rewrite app_nil_r; repeat (split; [assumption|]); assumption).
    destruct (nth_error ps i) as [p|] eqn:Ei; [|apply Hno; congruence].
    destruct p; try (apply Hno; congruence). injection H as <- <-. rewrite app_nil_r. repeat (split; [assumption|]). split; [|auto].
    intros Hh. destruct (K6 Hh) as [A B]. split; [exact A|]. apply Forall_set; [exact B|reflexivity].
  - destruct (nth_error ps i) as [p|] eqn:Ei.
    2:{ injection H as <- <-. rewrite app_nil_r. repeat (split; [assumption|]). assumption. }
    destruct (emove round P out g p) as [[g' p'] evs] eqn:Em. injection H as <- <-.
    assert (Hp : needs_header p = true -> ash_header g = true).
    { intros Hn. destruct (ash_header g) eqn:Eh; [reflexivity|]. destruct (K6 eq_refl) as [_ B]. pose proof (Forall_nth_error _ _ _ _ B Ei) as C. cbn beta in C. congruence. }
    (* silent moves *)
    assert (Hsil : g' = g -> evs = [] -> (ash_header g = false -> needs_header p' = false) -> einv (g', list_set ps i p') (tr ++ map (pair i) evs)).
    { intros -> -> Hn. cbn [map]. rewrite app_nil_r. repeat (split; [assumption|]). split; [|auto]. intros Hh. destruct (K6 Hh) as [A B]. split; [exact A|]. apply Forall_set; auto. }
    (* moves that record an event concerning neither grants, header, rows nor the maximum *)
    assert (Hraise : g' = g -> evs = [GRaise] -> p' = EIdle -> einv (g', list_set ps i p') (tr ++ map (pair i) evs)).
    { intros -> -> ->. cbn [map]. unfold einv. rewrite grants_app, row_writes_app, compared_app, header_writes_app. cbn [grants row_writes compared header_writes flat_map filter length app]. rewrite !app_nil_r, Nat.add_0_r.
      split; [apply historic_snoc; [exact K1|exact Logic.I]|]. repeat (split; [assumption|]). split; [|auto]. intros Hh. destruct (K6 Hh) as [A B]. split; [exact A|]. apply Forall_set; auto. }
    destruct p as [|t ep|t ep|t ep|t ep m|t ep m|t ep m]; cbn [emove] in Em; cbn [needs_header] in Hp.
    + injection Em as <- <- <-. apply Hsil; auto.
    + destruct (ash_prev g + I <=? t) eqn:Et; injection Em as <- <- <-; cbn [map]; unfold einv;
        rewrite grants_app, row_writes_app, compared_app, header_writes_app; cbn [grants row_writes compared header_writes flat_map filter length app ash_prev ash_max ash_header ash_file]; rewrite !app_nil_r, Nat.add_0_r.
      * split; [apply historic_snoc; [exact K1|cbn; rewrite K2 in *; lia]|]. rewrite app_length, map_app, K3. cbn [length map snd].
        split; [lia|]. split; [rewrite Nat.add_1_r, seq_S, map_app; cbn [map]; now rewrite K2|]. repeat (split; [assumption|]). split; [|auto].
        intros Hh. destruct (K6 Hh) as [A B]. split; [exact A|]. apply Forall_set; auto.
      * split; [apply historic_snoc; [exact K1|unfold event_ok; cbn [snd]; lia]|]. repeat (split; [assumption|]). split; [|auto].
        intros Hh. destruct (K6 Hh) as [A B]. split; [exact A|]. apply Forall_set; auto.
    + destruct (ash_header g) eqn:Eh; [injection Em as <- <- <-; apply Hsil; auto; congruence|].
      destruct (K6 eq_refl) as [A B]. destruct out as [m|e]; injection Em as <- <- <-; cbn [map]; unfold einv;
        rewrite grants_app, row_writes_app, compared_app, header_writes_app; cbn [grants row_writes compared header_writes flat_map filter length app ash_prev ash_max ash_header ash_file]; rewrite !app_nil_r, K4.
      * split; [apply historic_snoc; [exact K1|exact K4]|]. split; [exact K2|]. split; [exact K3|]. split; [reflexivity|]. split; [intros _; now rewrite A|]. split; [discriminate|auto].
      * split; [apply historic_snoc; [exact K1|exact Logic.I]|]. split; [exact K2|]. split; [exact K3|]. split; [reflexivity|]. split; [discriminate|]. split; [|auto]. intros _. split; [exact A|]. apply Forall_set; auto.
    + assert (Eh := Hp eq_refl). destruct out as [m|e]; injection Em as <- <- <-; [apply Hsil; auto; congruence|apply Hraise; auto].
    + assert (Eh := Hp eq_refl). rewrite Eh in K4. injection Em as <- <- <-. cbn [map]. unfold einv.
      rewrite grants_app, row_writes_app, compared_app, header_writes_app; cbn [grants row_writes compared header_writes flat_map filter length app ash_prev ash_max ash_header ash_file]; rewrite !app_nil_r, K4, Eh.
      split; [apply historic_snoc; [exact K1|exact K4]|]. split; [exact K2|]. split; [exact K3|]. split; [reflexivity|]. split; [intros _; now rewrite (K5 Eh)|]. split; [discriminate|auto].
    + assert (Eh := Hp eq_refl). destruct out as [m'|e]; injection Em as <- <- <-; [apply Hsil; auto; congruence|apply Hraise; auto].
    + assert (Eh := Hp eq_refl). rewrite Eh in K4. destruct Hround as (R1 & R2 & R3).
      assert (Hlt : forall b, negb (Qle_bool m (ash_max g)) = b -> event_ok tr (i, GMax m b)).
      { intros b <-. unfold event_ok. cbn [snd]. split.
        - intros Hb. assert (Qlt (ash_max g) m). { apply Qnot_le_lt. intros C. apply Qle_bool_iff in C. rewrite C in Hb. discriminate Hb. }
          split; [lra|]. intros m' Hm'. specialize (K9 m' Hm'). lra.
        - intros [Hf Hm]. destruct (Qle_bool m (ash_max g)) eqn:Eq; [|reflexivity]. apply Qle_bool_iff in Eq. exfalso.
          destruct K7 as [K7|K7]; [rewrite K7 in Eq; lra|]. apply in_map_iff in K7. destruct K7 as (m' & E' & Hm'). specialize (Hm m' Hm'). rewrite E' in Hm. lra. }
      destruct (negb (Qle_bool m (ash_max g))) eqn:Eq; injection Em as <- <- <-; cbn [map]; unfold einv;
        rewrite grants_app, row_writes_app, compared_app, header_writes_app; cbn [grants row_writes compared header_writes flat_map filter length app ash_prev ash_max ash_header ash_file]; rewrite !app_nil_r, K4, Eh.
      * assert (Hgt : Qlt (ash_max g) m). { apply Qnot_le_lt. intros C. apply Qle_bool_iff in C. rewrite C in Eq. discriminate Eq. }
        assert (Hmono : Qle (ash_max g) (round m)). { rewrite <- K10. apply R1. lra. }
        split; [apply historic_snoc; [exact K1|now apply Hlt]|]. split; [exact K2|]. split; [exact K3|]. split; [reflexivity|]. split; [intros _; exact (K5 Eh)|]. split; [discriminate|].
        split; [right; rewrite map_app; apply in_or_app; right; now left|]. split; [lra|]. split; [|apply R2].
        intros m' Hm'. apply in_app_or in Hm'. destruct Hm' as [Hm'|[<-|[]]]; [|lra]. specialize (K9 m' Hm'). lra.
      * assert (Hle : Qle m (ash_max g)). { apply Qle_bool_iff. destruct (Qle_bool m (ash_max g)); [reflexivity|discriminate]. }
        split; [apply historic_snoc; [exact K1|now apply Hlt]|]. split; [exact K2|]. split; [exact K3|]. split; [reflexivity|]. split; [intros _; exact (K5 Eh)|]. split; [discriminate|].
        split; [destruct K7 as [K7|K7]; [now left|right; rewrite map_app; apply in_or_app; now left]|]. split; [exact K8|]. split; [|exact K10].
        intros m' Hm'. apply in_app_or in Hm'. destruct Hm' as [Hm'|[<-|[]]]; [auto|]. rewrite <- K10. now apply R1.
Qed.

Lemma einv_run : forall xs s s' es tr, erun round P s xs = (s', es) -> einv s tr -> einv s' (tr ++ es).
Proof.
  induction xs as [|x xs IH]; intros s s' es tr H G; cbn [erun] in H.
  - injection H as <- <-. now rewrite app_nil_r.
  - destruct (estep round P s x) as [s1 t1] eqn:E1. destruct (erun round P s1 xs) as [s2 t2] eqn:E2. injection H as <- <-. rewrite app_assoc.
    eapply IH; [exact E2|]. eapply einv_step; eauto.
Qed.

Theorem async_eval_ok n file g0 xs g ps tr : async_init P file = Ok g0 -> erun round P (g0, repeat EIdle n) xs = ((g, ps), tr) -> einv (g, ps) tr.
Proof.
  intros H0 H. unfold async_init in H0. destruct (I =? 0) eqn:E0; [lia|]. injection H0 as <-.
  refine (einv_run _ _ _ _ [] H _). unfold einv. cbn [ash_prev ash_max ash_header ash_file]. split; [apply historic_nil|].
  split; [unfold prev0; cbn [grants flat_map length]; lia|]. split; [reflexivity|]. split; [reflexivity|]. split; [discriminate|]. split.
  { intros _. split; [reflexivity|]. apply Forall_forall. intros x Hx. apply repeat_spec in Hx. now subst x. }
  split; [now left|]. split; [lra|]. split; [intros m []|]. apply Hround.
Qed.
End Proofs.
