From Verif Require Import Base P_Base M_Train M_Evaluator S_Evaluator.
From Coq Require Import ZifyBool ZifyNat.
From Coq Require Import Lqa.
Open Scope nat_scope.

Lemma bucket_le I t0 t : 1 <= I -> (t0 - t0 mod I + I <= t <-> t0 / I < t / I).
Proof.
  intros HI. pose proof (Nat.div_mod t0 I ltac:(lia)) as E0. pose proof (Nat.div_mod t I ltac:(lia)) as E.
  pose proof (Nat.mod_upper_bound t0 I ltac:(lia)). pose proof (Nat.mod_upper_bound t I ltac:(lia)).
  set (a := t0 / I) in *. set (b := t / I) in *. split; intros Hh.
  - assert (I * a + I <= I * b + t mod I) by lia. nia.
  - assert (I * S a <= I * b) by nia. nia.
Qed.

Section Eval.
Context {W : Type} (U : evuser W) (P : evargs) (HI : 1 <= ev_interval P).
Notation I := (ev_interval P).

Definition due_inv (bs : list nat) (s : evstate) : Prop := forall t, es_prev s + I <= t <-> forall b, In b bs -> b / I < t / I.
Definition max_inv (ms : list Q) (s : evstate) : Prop :=
  (forall q, Qlt (es_max s) q <-> Qlt float32_min q /\ forall m, In m ms -> Qlt m q) /\
  (es_max s = float32_min \/ In (es_max s) ms) /\ Qle float32_min (es_max s) /\ forall m, In m ms -> Qle m (es_max s).

Lemma ev_hooks_ok t m : forall hs i (w w' : W) es r, ev_run_hooks i hs t m w = (w', es, r) ->
  rows es = [] /\ best_saves es = 0 /\ match r with Ok _ => ev_hook_calls es = map (fun j => (j, t, m)) (seq i (length hs)) | Err _ => True end.
Proof.
  induction hs as [|h hs IH]; intros i w w' es r H; cbn [ev_run_hooks] in H.
  - injection H as <- <- <-. auto.
  - destruct (h t m w) as [w1 [u|e]].
    + destruct (ev_run_hooks (S i) hs t m w1) as [[w2 es2] r2] eqn:E. injection H as <- <- <-. destruct (IH _ _ _ _ _ E) as (A1 & A2 & A3).
      split; [exact A1|]. split; [exact A2|]. destruct r2; [|auto]. cbn [length seq map]. rewrite <- A3. reflexivity.
    + injection H as <- <- <-. auto.
Qed.

Lemma evaluate_ok s w t ep s' w' es m bs ms : max_inv ms s -> due_inv bs s ->
  evaluate_and_update U P s w t ep = (s', w', es, Ok m) ->
  es_prev s' = es_prev s /\ max_inv (ms ++ [m]) s' /\ rows es = [(t, ep, m)] /\
  ev_hook_calls es = map (fun j => (j, t, m)) (seq 0 (length (ev_hooks U))) /\
  best_saves es = (if ev_save_best P && negb (Qle_bool m (es_max s)) then 1 else 0).
Proof.
  intros (M1 & M2 & M3 & M4) HD H. unfold evaluate_and_update in H. destruct (ev_scores U w) as [w1 [sc|e]]; [|discriminate].
  destruct (mean_of sc) as [m0|e]; [|discriminate]. destruct (ev_run_hooks 0 (ev_hooks U) t m0 w1) as [[w2 es2] [u|e]] eqn:Eh; [|discriminate].
  destruct (ev_hooks_ok _ _ _ _ _ _ _ _ Eh) as (A1 & A2 & A3).
  destruct (Qle_bool m0 (es_max s)) eqn:Eq; cbn [negb] in H; injection H as <- <- <- <-.
  - rewrite Eq. cbn [negb]. apply Qle_bool_iff in Eq. rewrite andb_false_r. split; [reflexivity|]. split; [|cbn [rows flat_map app]; split; [unfold rows in A1; cbn; now rewrite A1|split; [exact A3|exact A2]]].
    split; [|split; [|split; [exact M3|]]].
    + intros q. rewrite M1. split.
      * intros [Hf Hm]. split; [exact Hf|]. intros x Hx. apply in_app_or in Hx. destruct Hx as [Hx|[<-|[]]]; [auto|].
        assert (Qlt (es_max s) q) by (apply M1; auto). lra.
      * intros [Hf Hm]. split; [exact Hf|]. intros x Hx. apply Hm, in_or_app. now left.
    + destruct M2 as [M2|M2]; [now left|right; apply in_or_app; now left].
    + intros x Hx. apply in_app_or in Hx. destruct Hx as [Hx|[<-|[]]]; [auto|exact Eq].
  - assert (Eq' : Qlt (es_max s) m0). { apply Qnot_le_lt. intros C. apply Qle_bool_iff in C. congruence. }
    rewrite Eq. cbn [negb]. rewrite andb_true_r. split; [reflexivity|]. split.
    + destruct (proj1 (M1 m0) Eq') as [Hf Hall].
      split; [|split; [|split]]; cbn [es_max].
      * intros q. split.
        -- intros Hq. split; [lra|]. intros x Hx. apply in_app_or in Hx. destruct Hx as [Hx|[<-|[]]]; [|exact Hq]. specialize (Hall x Hx). lra.
        -- intros [_ Hm]. apply Hm, in_or_app. right. now left.
      * right. apply in_or_app. right. now left.
      * lra.
      * intros x Hx. apply in_app_or in Hx. destruct Hx as [Hx|[<-|[]]]; [|lra]. specialize (Hall x Hx). lra.
    + assert (R : forall l, rows (VRow t ep m0 :: es2 ++ l) = (t, ep, m0) :: rows es2 ++ rows l) by (intros l; unfold rows; cbn [flat_map app]; now rewrite flat_map_app).
      assert (R2 : forall l, ev_hook_calls (VRow t ep m0 :: es2 ++ l) = ev_hook_calls es2 ++ ev_hook_calls l) by (intros l; unfold ev_hook_calls; cbn [flat_map app]; now rewrite flat_map_app).
      assert (R3 : forall l, best_saves (VRow t ep m0 :: es2 ++ l) = best_saves es2 + best_saves l) by (intros l; unfold best_saves; cbn [filter]; now rewrite filter_app, app_length).
      rewrite R, R2, R3, A1, A2, A3. destruct (ev_save_best P); cbn [rows ev_hook_calls best_saves flat_map filter length app]; rewrite ?app_nil_r; auto.
Qed.

Definition call_ok (bs : list nat) (ms : list Q) (t ep : nat) (r : result (option Q)) (es : list evev) : Prop :=
  ((exists m, r = Ok (Some m)) <-> forall b, In b bs -> b / I < t / I) /\
  (r = Ok None -> es = []) /\
  forall m, r = Ok (Some m) -> rows es = [(t, ep, m)] /\ ev_hook_calls es = map (fun j => (j, t, m)) (seq 0 (length (ev_hooks U))) /\
    best_saves es <= 1 /\ (best_saves es = 1 <-> ev_save_best P = true /\ Qlt float32_min m /\ forall m', In m' ms -> Qlt m' m).

Lemma necessary_ok s w t ep s' w' es r bs ms : max_inv ms s -> due_inv bs s ->
  evaluate_if_necessary U P s w t ep = (s', w', es, Ok r) ->
  call_ok bs ms t ep (Ok r) es /\ due_inv (bs ++ [t]) s' /\ max_inv (ms ++ match r with Some m => [m] | None => [] end) s'.
Proof.
  intros HM HD H. unfold evaluate_if_necessary in H. destruct (es_prev s + I <=? t) eqn:Et.
  - destruct (evaluate_and_update U P s w t ep) as [[[s1 w1] es1] [m|e]] eqn:Ee; [|discriminate]. injection H as <- <- <- <-.
    destruct (evaluate_ok _ _ _ _ _ _ _ _ _ _ HM HD Ee) as (A1 & A2 & A3 & A4 & A5).
    assert (Hall : forall b, In b bs -> b / I < t / I) by (apply HD; lia).
    split; [|split].
    + split; [|split; [discriminate|]].
      * split; [auto|]. intros _. eauto.
      * intros m0 Hm0. injection Hm0 as <-. split; [exact A3|]. split; [exact A4|]. rewrite A5. destruct HM as (M1 & _). rewrite <- M1.
        destruct (ev_save_best P); cbn [andb]; [|split; [lia|split; [lia|intros [C _]; discriminate]]].
        destruct (Qle_bool m (es_max s)) eqn:Eq; cbn [negb]; (split; [lia|]).
        -- apply Qle_bool_iff in Eq. split; [lia|]. intros [_ C]. lra.
        -- split; [|auto]. intros _. split; [reflexivity|]. apply Qnot_le_lt. intros C. apply Qle_bool_iff in C. congruence.
    + intros t'. cbn [es_prev]. rewrite bucket_le by exact HI. split.
      * intros Hl b Hb. apply in_app_or in Hb. destruct Hb as [Hb|[<-|[]]]; [|exact Hl]. specialize (Hall b Hb). lia.
      * intros Hl. apply Hl, in_or_app. right. now left.
    + exact A2.
  - injection H as <- <- <- <-. rewrite app_nil_r. split; [|split; [|exact HM]].
    + split; [|split; [auto|discriminate]]. split; [intros (m & C); discriminate|]. intros Hc. apply HD in Hc. lia.
    + intros t'. split.
      * intros Hl b Hb. apply in_app_or in Hb. destruct Hb as [Hb|[<-|[]]]; [now apply HD|].
        destruct (le_lt_dec (t' / I) (t / I)) as [Hle|Hlt]; [|exact Hlt]. exfalso.
        assert (es_prev s + I <= t); [|lia]. apply HD. intros b Hb. assert (b / I < t' / I) by (now apply HD). lia.
      * intros Hl. apply HD. intros b Hb. apply Hl, in_or_app. now left.
Qed.

Lemma calls_ok : forall cs s w s' outs bs ms, max_inv ms s -> due_inv bs s ->
  ev_calls U P s w cs = (s', outs) -> Forall (fun o => is_ok (fst o) = true) outs ->
  max_inv (ms ++ means outs) s' /\ length outs = length cs /\
  forall i t ep f r es, nth_error cs i = Some (t, ep, f) -> nth_error outs i = Some (r, es) ->
    call_ok (bs ++ map call_time (firstn i cs)) (ms ++ means (firstn i outs)) t ep r es.
Proof.
  induction cs as [|[[t ep] f] cs IH]; intros s w s' outs bs ms HM HD H HF; cbn [ev_calls] in H.
  - injection H as <- <-. cbn [means flat_map]. rewrite app_nil_r. split; [exact HM|]. split; [reflexivity|]. intros [|i]; discriminate.
  - destruct (evaluate_if_necessary U P s (f w) t ep) as [[[s1 w1] es1] r1] eqn:E1. destruct (ev_calls U P s1 w1 cs) as [s2 outs2] eqn:E2. injection H as <- <-.
    assert (Hr1 := Forall_inv HF). cbn [fst] in Hr1. destruct r1 as [r1|]; [|discriminate]. assert (HF2 := Forall_inv_tail HF).
    destruct (necessary_ok _ _ _ _ _ _ _ _ _ _ HM HD E1) as (A1 & A2 & A3).
    destruct (IH _ _ _ _ _ _ A3 A2 E2 HF2) as (B1 & B2 & B3).
    assert (Hm : means ((Ok r1, es1) :: outs2) = match r1 with Some m => [m] | None => [] end ++ means outs2) by reflexivity.
    split; [rewrite Hm, app_assoc; exact B1|]. split; [cbn; lia|].
    intros [|i] t' ep' f' r' es' H1 H2; cbn [nth_error firstn] in *.
    + injection H1 as <- <- <-. injection H2 as <- <-. cbn. rewrite !app_nil_r. exact A1.
    + specialize (B3 i t' ep' f' r' es' H1 H2). cbn [map]. change (call_time (t, ep, f)) with t.
      replace (means ((Ok r1, es1) :: firstn i outs2)) with (match r1 with Some m => [m] | None => [] end ++ means (firstn i outs2)) by reflexivity.
      change (t :: map call_time (firstn i cs)) with ([t] ++ map call_time (firstn i cs)). rewrite !app_assoc. exact B3.
Qed.

Theorem evaluator_ok s0 w cs s' outs : evaluator_init P = Ok s0 ->
  ev_calls U P s0 w cs = (s', outs) -> Forall (fun o => is_ok (fst o) = true) outs ->
  max_inv (means outs) s' /\ length outs = length cs /\
  forall i t ep f r es, nth_error cs i = Some (t, ep, f) -> nth_error outs i = Some (r, es) ->
    call_ok (ev_offset P :: map call_time (firstn i cs)) (means (firstn i outs)) t ep r es.
Proof.
  intros H0 H HF. unfold evaluator_init in H0. destruct (I =? 0) eqn:E; [lia|]. injection H0 as <-.
  refine (calls_ok cs _ w s' outs [ev_offset P] [] _ _ H HF).
  - split; [|split; [now left|split; [cbn [es_max]; lra|intros m []]]]. intros q. cbn [es_max]. split; [intros Hq; split; [exact Hq|intros m []]|tauto].
  - intros t. cbn [es_prev]. rewrite bucket_le by exact HI. split; [intros Hb b [<-|[]]; exact Hb|]. intros Hb. apply Hb. now left.
Qed.
End Eval.
