(** C124: learning from a prioritized replay buffer as a whole. *)
From Coq Require Import QArith Qminmax ZifyBool ZifyNat Lqa.
From Verif Require Import Base P_Base M_RandomAccessQueue M_Prioritized S_Prioritized P_PriorityTree P_Prioritized P_PrioritizedProps
  M_ReplayBuffer S_ReplayBuffer P_ReplayBuffer P_ActorLearner M_PriorityWeights M_PrioUpdate S_PrioUpdate P_PrioUpdate.
Open Scope nat_scope.

(** After any run (observations of any number of environments, cut episodes, updates): the buffer holds the latest [cap] n-step
    experiences, and the priority of each of them is that of the error when it was learned from last, or, if it was not learned from yet, the
    highest priority that had been given when it was stored.  The next draw uses exactly these priorities. *)
Theorem C124_priorities pow cap n w0 ops : pow_ok pow -> config_ok w0 -> 0 < n -> cap <> Some 0 -> Forall pop_ok ops ->
  exists st0, pl_init cap n w0 = Ok st0 /\ forall st lessons, pl_run pow st0 ops = Ok (st, lessons) ->
    let mem := memory (pl_rb st) in
    data mem = trunc cap (map snd (log n (observed 0 ops))) /\ NoDup (map name (data mem)) /\
    map (fun x => priority (priority_of_error pow w0) (history n ops lessons) (name x)) (data mem) = map Some (priorities mem) /\
    weights mem = priorities mem /\
    qbeta (pl_w st) = Nat.iter (updates ops) (fun b => Qmin 1 (b + qbeta_add w0)) (qbeta w0).
Proof.
  intros Hpow Hcfg Hn Hcap Hok. destruct (inv_init pow w0 cap n Hn Hcap) as (st0 & s0 & E0 & HI0 & N0 & W0).
  exists st0. split; [exact E0|]. intros st lessons E mem.
  destruct (run_inv pow w0 cap n Hpow Hcfg Hn Hcap ops [] [] st0 s0 st lessons HI0 Hok E) as (s & HI & Hbeta). rewrite N0 in HI. cbn [app] in HI. rewrite W0 in Hbeta.
  destruct HI as (HR & (Gc & Gw & Gf & Gs & Gm & Gm0 & Gp & Gv & Gnd & Gne) & HB & Hns & HV & HP & HC). fold mem in HR.
  rewrite (priorities_rel mem s HR), (weights_rel mem s HR). assert (Hd : data mem = s_vals s) by apply HR. rewrite Hd. splits; auto.
Qed.

(** An update, after any run: it draws different experiences, each by the priorities that the history gives to all of them; each experience
    enters the loss with its own error and with its own weight, the power of its probability relative to the baseline; and it does not fail
    if enough experiences are stored. *)
Theorem C124_update pow cap n w0 ops k o err : pow_ok pow -> config_ok w0 -> 0 < n -> cap <> Some 0 -> Forall pop_ok ops -> pop_ok (PlUpdate k o err) ->
  exists st0, pl_init cap n w0 = Ok st0 /\ forall st lessons, pl_run pow st0 ops = Ok (st, lessons) ->
    let stored := data (memory (pl_rb st)) in
    k <= length stored ->
    exists st' lesson ps ixs base, pl_step pow st (PlUpdate k o err) = Ok (st', lesson) /\
      map (fun x => priority (priority_of_error pow w0) (history n ops lessons) (name x)) stored = map Some ps /\
      draws ps (so_fracs o) = Some ixs /\ length ixs = k /\ NoDup ixs /\
      let prob i := (nth i ps 0 / Qsum ps)%Q in
      baseline (qnorm w0) (map prob ixs) (map (fun p => p / Qsum ps)%Q ps) base /\
      Forall2 (fun i x => nth_error stored i = Some (fst (fst x)) /\ snd x = err (fst (fst x)) /\
        (snd (fst x) == pow (prob i / base) (- qbeta (pl_w st)))%Q) ixs lesson.
Proof.
  intros Hpow Hcfg Hn Hcap Hok Hop. destruct (inv_init pow w0 cap n Hn Hcap) as (st0 & s0 & E0 & HI0 & N0 & W0).
  exists st0. split; [exact E0|]. intros st lessons E stored Hk.
  destruct (run_inv pow w0 cap n Hpow Hcfg Hn Hcap ops [] [] st0 s0 st lessons HI0 Hok E) as (s & HI & Hbeta). rewrite N0 in HI. cbn [app] in HI.
  pose proof HI as (HR & (Gc & Gw & Gf & Gs & Gm & Gm0 & Gp & Gv & Gnd & Gne) & HB & Hns & HV & HP & HC).
  assert (Hd : stored = s_vals s) by apply HR.
  destruct (inv_update pow w0 cap n Hpow Hcfg _ _ st s k o err HI Hop ltac:(rewrite <- Hd; exact Hk)) as (ds & ws & st' & s' & Es & Ed & El & Hnd & Hb & Hl & _ & _ & _ & base & Hbase & F).
  exists st'. eexists. exists (s_ps s), ds, base. split; [exact Es|]. split; [rewrite Hd; exact Gv|]. split; [exact Ed|]. split; [exact El|]. split; [exact Hnd|]. split; [exact Hbase|].
  rewrite Hd. pose proof (at_ixs_Forall2 (s_vals s) ds Hb) as Fx. revert F Fx. generalize (at_ixs (s_vals s) ds). clear.
  intros xs F. revert xs. induction F as [|i w ds ws Ew F IH]; intros xs Fx; inversion Fx as [|? x ? xs' Ex Fx']; subst; cbn; constructor; cbn; auto.
Qed.

(** Observing a transition and cutting an episode never fail. *)
Theorem C124_observe pow cap n w0 ops e : pow_ok pow -> config_ok w0 -> 0 < n -> cap <> Some 0 -> Forall pop_ok ops ->
  exists st0, pl_init cap n w0 = Ok st0 /\ forall st lessons, pl_run pow st0 ops = Ok (st, lessons) ->
    (forall term, exists st', pl_step pow st (PlAct e term) = Ok (st', [])) /\ exists st', pl_step pow st (PlStop e) = Ok (st', []).
Proof.
  intros Hpow Hcfg Hn Hcap Hok. destruct (inv_init pow w0 cap n Hn Hcap) as (st0 & s0 & E0 & HI0 & N0 & W0).
  exists st0. split; [exact E0|]. intros st lessons E.
  destruct (run_inv pow w0 cap n Hpow Hcfg Hn Hcap ops [] [] st0 s0 st lessons HI0 Hok E) as (s & HI & Hbeta).
  pose proof HI as (_ & _ & _ & _ & _ & HP & _). split.
  - intros term. destruct (inv_observe pow w0 cap n Hn Hcap _ _ st s (RAppend e (mkTrans (pl_next st) term)) (S (pl_next st)) HI) as (b & s' & Eb & _).
    { rewrite payloads_snoc, HP. cbn [payload]. now rewrite seq_S. }
    cbn [rb_step] in Eb. cbn [pl_step]. rewrite Eb. cbn [rbind]. eauto.
  - destruct (inv_observe pow w0 cap n Hn Hcap _ _ st s (RStop e) (pl_next st) HI) as (b & s' & Eb & _).
    { rewrite payloads_snoc, HP. now rewrite app_nil_r. }
    cbn [rb_step] in Eb. cbn [pl_step]. rewrite Eb. cbn [rbind]. eauto.
Qed.

(** *** A concrete case: 2-step windows, capacity 3.  The "power" x ** y is taken as x if y > 0 and 1 / x if y < 0 (alpha = 1, beta = 1). *)
Definition ex_pow (x y : Q) : Q := if Qlt_le_dec y 0 then (1 / x)%Q else x.
Definition ex_w : qpwe := mkQw 1 1 0 (1#2) NormBatch (Some 0%Q) (Some 4%Q).
Definition ex_err (x : nwindow) : Q := match name x with 0 => 7%Q | 1 => 1%Q | 2 => (3#2) | _ => 0%Q end.
Definition ex_ops : list pop :=
  [PlAct 0 false; PlAct 0 false; PlAct 0 true; PlUpdate 2 (mkSo [] [0%Q; (1#2)]) ex_err; PlAct 1 false; PlStop 1; PlUpdate 2 (mkSo [] [(1#2); (1#3)]) ex_err].

Example C124_ex_pow : pow_ok ex_pow /\ config_ok ex_w /\ Forall pop_ok ex_ops.
Proof.
  split; [|split].
  - split.
    + intros x y Hx. unfold ex_pow. destruct (Qlt_le_dec y 0); [|exact Hx]. apply Qlt_shift_div_l; lra.
    + intros x x' y y' E E'. unfold ex_pow. destruct (Qlt_le_dec y 0), (Qlt_le_dec y' 0); try (exfalso; rewrite E' in *; lra); [now rewrite E|exact E].
  - split; cbn; lra.
  - repeat constructor; cbn; try (intros x; unfold ex_err; destruct (name x) as [|[|[|]]]); cbv; congruence.
Qed.
(** What was learned: (first transition, weight, error) for both updates.  In the second one experience 2, learned from before with
    error 3/2, has priority 2, and experience 3, stored with the highest priority given so far, has 4 + 1/2 (the clipped error of experience
    0): hence the weight (9/2 / 2) ** -1.  Experience 1 was never learned from and keeps its initial priority. *)
Example C124_ex_run : match pl_init (Some 3) 2 ex_w with
  | Ok st0 => match pl_run ex_pow st0 ex_ops with
              | Ok (st, lessons) => (map (map (fun x => (name (fst (fst x)), Qred (snd (fst x)), snd x))) lessons, map name (data (memory (pl_rb st))), priorities (memory (pl_rb st)))
              | Err _ => ([], [], []) end
  | Err _ => ([], [], []) end =
  ([[]; []; []; [(0%nat, 1, 7); (2%nat, 1, 3#2)]; []; []; [(3%nat, (4#9), 0); (2%nat, 1, 3#2)]], [1%nat; 2%nat; 3%nat], [1; (8#4); (1#2)])%Q.
Proof. vm_compute. reflexivity. Qed.

Print Assumptions C124_priorities.
Print Assumptions C124_update.
Print Assumptions C124_observe.
