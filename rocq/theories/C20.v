(** C20: Evaluator. *)
From Verif Require Import Base M_Train M_Evaluator S_Evaluator P_Evaluator.

(** For any sequence of calls evaluate_if_necessary(t, episodes) none of which raises (times in any order, the user doing
    anything in between): call i evaluates exactly when t lies in a later bucket t / eval_interval than the step offset and all
    earlier calls; an evaluation writes exactly one row with t, the episode count and the mean, and calls every hook once, in order, with t and
    the mean; the
    best agent is saved exactly when (saving is enabled and) the mean is strictly larger than all earlier means; finally
    max_score is the largest mean (or the initial minimum). *)
Theorem C20_evaluator {W} (U : evuser W) (P : evargs) s0 w cs s' outs :
  1 <= ev_interval P -> evaluator_init P = Ok s0 ->
  ev_calls U P s0 w cs = (s', outs) -> Forall (fun o => is_ok (fst o) = true) outs ->
  length outs = length cs /\
  (forall i t ep f r es, nth_error cs i = Some (t, ep, f) -> nth_error outs i = Some (r, es) ->
    ((exists m, r = Ok (Some m)) <->
     forall b, In b (ev_offset P :: map call_time (firstn i cs)) -> b / ev_interval P < t / ev_interval P) /\
    (r = Ok None -> es = []) /\
    (forall m, r = Ok (Some m) ->
       rows es = [(t, ep, m)] /\ ev_hook_calls es = map (fun j => (j, t, m)) (seq 0 (length (ev_hooks U))) /\
       best_saves es <= 1 /\
       (best_saves es = 1 <-> ev_save_best P = true /\ Qlt float32_min m /\ forall m', In m' (means (firstn i outs)) -> Qlt m' m))) /\
  (es_max s' = float32_min \/ In (es_max s') (means outs)) /\ Qle float32_min (es_max s') /\
  (forall m, In m (means outs) -> Qle m (es_max s')).
Proof.
  intros HI H0 H HF. destruct (evaluator_ok U P HI s0 w cs s' outs H0 H HF) as ((_ & M2 & M3 & M4) & HL & HC).
  split; [exact HL|]. split; [exact HC|]. split; [exact M2|]. split; [exact M3|exact M4].
Qed.

(** The value written, returned and compared is the mean of the scores that the evaluation episodes of this call gave. *)
Fixpoint score_sum (l : list Q) : Q := match l with [] => 0%Q | x :: l => Qplus x (score_sum l) end.
Lemma mean_eq (q n : Q) : ~ Qeq n 0%Q -> Qeq (Qmult (Qdiv (Qplus 0%Q q) n) n) q.
Proof. intros H. rewrite Qplus_0_l, Qmult_comm. now apply Qmult_div_r. Qed.
Theorem C20_mean {W} (U : evuser W) (P : evargs) cs : forall s0 w s' outs i m es,
  ev_calls U P s0 w cs = (s', outs) -> nth_error outs i = Some (Ok (Some m), es) ->
  exists wi wi' scores, ev_scores U wi = (wi', Ok scores) /\ scores <> [] /\ Qeq (Qmult m (inject_Z (Z.of_nat (length scores)))) (score_sum scores).
Proof.
  assert (FS : forall l a, Qeq (fold_left Qplus l a) (Qplus a (score_sum l))).
  { induction l as [|x l IH]; intros a; cbn [fold_left score_sum]; [ring|]. rewrite IH. ring. }
  induction cs as [|((t, ep), f) cs IH]; intros s0 w s' outs i m es H N; cbn [ev_calls] in H.
  - injection H as _ <-. destruct i; discriminate.
  - destruct (evaluate_if_necessary U P s0 (f w) t ep) as (((s1, w1), es1), r1) eqn:E. destruct (ev_calls U P s1 w1 cs) as (s2, outs2) eqn:E2. injection H as _ <-.
    destruct i as [|i]; [|exact (IH _ _ _ _ _ _ _ E2 N)]. injection N as -> ->. unfold evaluate_if_necessary in E.
    destruct (_ <=? t) in E; [|discriminate]. destruct (evaluate_and_update U P s0 (f w) t ep) as (((s3, w3), es3), r3) eqn:E3.
    destruct r3 as [m3|e]; [|discriminate]. injection E as _ _ _ ->. unfold evaluate_and_update in E3. destruct (ev_scores U (f w)) as (w4, [scores|e]) eqn:ES; [|discriminate].
    exists (f w), w4, scores. split; [exact ES|]. destruct (mean_of scores) as [m4|e] eqn:M; [|discriminate].
    assert (m4 = m).
    { destruct (ev_run_hooks 0 (ev_hooks U) t m4 w4) as ((w5, es5), [u|e]); [|discriminate]. destruct (negb _) in E3; injection E3 as _ _ _ ->; reflexivity. }
    subst m4. unfold mean_of in M. destruct scores as [|x scores]; [discriminate|]. split; [discriminate|]. injection M as <-.
    unfold qsum. rewrite FS. generalize (score_sum (x :: scores)). intros q. apply mean_eq. unfold Qeq. cbn. lia.
Qed.

(** Interval 10, offset 25: the calls at 29, 30, 34, 45, 41, 60 evaluate at 30, 45 and 60. *)
Definition C20_U : evuser nat := mkEv (fun w => (S w, Ok [inject_Z (Z.of_nat ((w * w) mod 5)); 2%Q])) [fun _ _ w => (w, Ok tt)].
Definition C20_P := mkEvArgs 10 25 true.
Definition C20_calls : list (nat * nat * (nat -> nat)) := [(29, 1, S); (30, 2, fun w => w); (34, 3, S); (45, 4, fun w => w); (41, 5, fun w => w); (60, 6, fun w => w)].
Example C20_ex :
  (s0 <- evaluator_init C20_P ;; let (s, outs) := ev_calls C20_U C20_P s0 0 C20_calls in Ok (es_max s, es_prev s, outs)) =
  Ok (6#2, 60%nat, [(Ok None, []); (Ok (Some (3#2)), [VRow 30 2 (3#2); VHook 0 30 (3#2); VBest]); (Ok None, []);
     (Ok (Some (6#2)), [VRow 45 4 (6#2); VHook 0 45 (6#2); VBest]); (Ok None, []); (Ok (Some (3#2)), [VRow 60 6 (3#2); VHook 0 60 (3#2)])])%Q.
Proof. vm_compute. reflexivity. Qed.
Print Assumptions C20_evaluator.
Print Assumptions C20_mean.
