(** C21: AsyncEvaluator under every schedule. *)
From Verif Require Import Base M_Train M_Evaluator M_AsyncEval S_AsyncEval P_AsyncEval.
From Coq Require Import Qround.

(** For every schedule of every number of processes making calls evaluate_if_necessary at any times, whatever user code does:
    - the evaluations occupy consecutive, hence distinct, interval slots: the k-th one has the slot
      [p0 + k * interval, p0 + (k+1) * interval) and its call time is not before the end of the slot; a call that does not
      evaluate came before the end of the next free slot;
    - the header is written at most once and every row after it, so scores.txt is the header followed by the rows;
    - the shared maximum is the largest of the (rounded) means compared so far, and the best agent is saved exactly when the mean
      exceeds all (rounded) earlier ones. *)
Theorem C21_async_evaluator (round : Q -> Q) (P : evargs) processes file g0 xs g ps tr :
  1 <= ev_interval P -> rounding round ->
  async_init P file = Ok g0 -> erun round P (g0, repeat EIdle processes) xs = ((g, ps), tr) ->
  let I := ev_interval P in
  let p0 := ev_offset P - ev_offset P mod I in
  (map snd (grants tr) = map (fun k => p0 + k * I) (seq 0 (length (grants tr))) /\
   (forall tr1 i t s tr2, tr = tr1 ++ (i, GGrant t s) :: tr2 -> s + I <= t) /\
   (forall tr1 i t tr2, tr = tr1 ++ (i, GSkip t) :: tr2 -> t < p0 + (length (grants tr1) + 1) * I)) /\
  (header_writes tr <= 1 /\
   (forall tr1 i t ep m tr2, tr = tr1 ++ (i, GRow t ep m) :: tr2 -> header_writes tr1 = 1) /\
   (header_writes tr = 1 -> ash_file g = Header :: row_writes tr)) /\
  ((ash_max g = float32_min \/ In (ash_max g) (map round (compared tr))) /\
   (forall m, In m (compared tr) -> Qle (round m) (ash_max g)) /\
   (forall tr1 i m best tr2, tr = tr1 ++ (i, GMax m best) :: tr2 ->
      best = true <-> Qlt float32_min m /\ forall m', In m' (compared tr1) -> Qlt (round m') m)).
Proof.
  intros HI HR H0 H I p0. destruct (async_eval_ok round P HI HR processes file g0 xs g ps tr H0 H) as (K1 & K2 & K3 & K4 & K5 & K6 & K7 & K8 & K9 & K10).
  split; [split; [exact K3|split]|split; [split; [|split]|split; [exact K7|split; [exact K9|]]]].
  - intros tr1 i t s tr2 E. exact (proj2 (K1 _ _ _ E)).
  - intros tr1 i t tr2 E. pose proof (K1 _ _ _ E) as X. unfold event_ok, prev0 in X. cbn [snd] in X. rewrite Nat.add_1_r. exact X.
  - rewrite K4. destruct (ash_header g); lia.
  - intros tr1 i t ep m tr2 E. exact (K1 _ _ _ E).
  - intros Hh. apply K5. destruct (ash_header g); [reflexivity|congruence].
  - intros tr1 i m best tr2 E. exact (K1 _ _ _ E).
Qed.

(** Rounding down to integers is a rounding. *)
Definition C21_round (q : Q) : Q := inject_Z (Qfloor q).
Example C21_rounding : rounding C21_round.
Proof.
  split; [|split].
  - intros x y H. unfold C21_round. rewrite <- Zle_Qle. now apply Qfloor_resp_le.
  - intros x. unfold C21_round. now rewrite Qfloor_Z.
  - vm_compute. reflexivity.
Qed.
(** Two processes call at 25 and 27 with interval 10: both evaluate, concurrently, for different slots; a third call is skipped. *)
Definition C21_P := mkEvArgs 10 0 true.
Definition C21_xs :=
  [XCall 0 25 1; XCall 1 27 1; XMove 1 (Ok 0%Q); XMove 0 (Ok 0%Q); XMove 0 (Ok 0%Q); XMove 1 (Ok 0%Q); XMove 1 (Ok (7#2)%Q); XMove 0 (Ok 5%Q);
   XMove 1 (Ok 0%Q); XMove 0 (Ok 0%Q); XMove 0 (Ok 0%Q); XMove 1 (Ok 0%Q); XMove 1 (Ok 0%Q); XMove 0 (Ok 0%Q); XCall 1 29 2; XMove 1 (Ok 0%Q)].
Example C21_ex :
  (g0 <- async_init C21_P [Row 1 1 1%Q] ;;
   let '((g, ps), tr) := erun C21_round C21_P (g0, repeat EIdle 2) C21_xs in Ok (ash_max g, ash_file g, grants tr, tr)) =
  Ok (5%Q, [Header; Row 27 1 (7#2); Row 25 1 5%Q], [(27, 0); (25, 10)],
      [(1, GGrant 27 0); (0, GGrant 25 10); (0, GHeader); (1, GRow 27 1 (7#2)); (0, GRow 25 1 5%Q); (1, GMax (7#2) true); (0, GMax 5%Q true); (1, GSkip 29)]).
Proof. vm_compute. reflexivity. Qed.
Print Assumptions C21_async_evaluator.
