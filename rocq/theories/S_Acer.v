(** Specification of an ACER worker, in terms of the calls made and what they let out. *)
From Coq Require Import QArith.
From Verif Require Import Base M_RandomAccessQueue M_SampleNK S_SampleNK M_ReplayBuffer S_ReplayBuffer M_Episodic S_Episodic M_A3C M_Acer.
Open Scope nat_scope.

Section Spec.
  Context {Ob Act P RS : Type}.
  Notation net := (net Ob P RS).
  Notation ctx := (ctx Ob P RS).
  Notation btr := (btr Ob Act P RS).
  Notation aupd := (aupd Ob Act P RS).
  Notation aout := (aout Ob Act P RS).
  Notation aev := (aev Ob Act P).

  (** A step: what the action was sampled from, the action, the output of the average network, the reward. *)
  Record astep := { as_from : ctx; as_act : Act; as_avg : ctx; as_reward : Q }.

  (** The update from a segment of the worker's own steps: on-policy (no behaviour distribution). *)
  Definition online (seg : list astep) (R : Q) : aupd :=
    {| u_R := R; u_acts := map as_act seg; u_rewards := map as_reward seg; u_values := map as_from seg; u_action_values := map as_from seg;
       u_distribs := map as_from seg; u_mus := None; u_avgs := map as_avg seg |}.

  (** The recurrent state after the observations [obs] of an episode read from its beginning. *)
  Definition rs_after (N : net) (c : acfg) (p : P) (obs : list Ob) : option RS :=
    if a_recurrent c then fold_left (fun rs o => Some (advance N p rs o)) obs None else None.
  (** The network read along [obs]. *)
  Definition along (N : net) (c : acfg) (p : P) (obs : list Ob) (outs : list ctx) : Prop :=
    length outs = length obs /\
    forall i o, nth_error obs i = Some o -> nth_error outs i = Some {| x_params := p; x_rs := rs_after N c p (firstn i obs); x_obs := o |}.

  (** The update from a piece [x] of a stored episode. *)
  Definition off_policy (N : net) (c : acfg) (model average : P) (x : list (trans btr)) (u : aupd) : Prop :=
    let obs := map (fun y => b_state (payload y)) x in
    u_acts u = map (fun y => b_action (payload y)) x /\ u_rewards u = map (fun y => b_reward (payload y)) x /\
    u_mus u = Some (map (fun y => b_mu (payload y)) x) /\
    along N c model obs (u_values u) /\ along N c model obs (u_action_values u) /\ along N c model obs (u_distribs u) /\
    along N c average obs (u_avgs u) /\
    exists x0 y, x = x0 ++ [y] /\ u_R u = if terminal y then 0%Q else value N model (rs_after N c model obs) (b_next (payload y)).

  (** A sequence of updates from replayed pieces, each of at most t_max steps of one stored episode, each made with the parameters left by the
      previous one. *)
  Fixpoint replayed (N : net) (opt : P -> aupd -> P) (soft : P -> P -> P) (c : acfg) (kept : list (list (trans btr)))
      (ps : P * P * P) (us : list aupd) (ps' : P * P * P) : Prop :=
    match us with
    | [] => ps' = ps
    | u :: us =>
      let '(model, shared, average) := ps in
      (exists ep x, In ep kept /\ block x ep /\ x <> [] /\ length x = Nat.min (a_t_max c) (length ep) /\ off_policy N c model average x u) /\
      replayed N opt soft c kept (opt shared u, opt shared u, soft average (opt shared u)) us ps'
    end.

  Record aview := { w_training : bool; w_chosen : option (ctx * Act * ctx); w_seg : list astep; w_ps : P * P * P;
                    w_rs : option RS; w_avg_rs : option RS; w_test_rs : option RS; w_ops : list (rb_op btr) }.
  Definition aview0 (p : P) : aview :=
    {| w_training := true; w_chosen := None; w_seg := []; w_ps := (p, p, p); w_rs := None; w_avg_rs := None; w_test_rs := None; w_ops := [] |}.

  (** [buf]: None without a replay buffer, Some capacity otherwise. *)
  Fixpoint a_explained (N : net) (opt : P -> aupd -> P) (soft : P -> P -> P) (c : acfg) (buf : option (option nat)) (v : aview) (es : list aev) (os : list aout) : Prop :=
    match es, os with
    | [], [] => True
    | ASetTraining b :: es, o :: os => o = ANothing /\
      a_explained N opt soft c buf {| w_training := b; w_chosen := w_chosen v; w_seg := w_seg v; w_ps := w_ps v; w_rs := w_rs v; w_avg_rs := w_avg_rs v; w_test_rs := w_test_rs v; w_ops := w_ops v |} es os
    | AOthers sh av :: es, o :: os => o = ANothing /\
      a_explained N opt soft c buf {| w_training := w_training v; w_chosen := w_chosen v; w_seg := w_seg v; w_ps := (fst (fst (w_ps v)), sh, av);
                                      w_rs := w_rs v; w_avg_rs := w_avg_rs v; w_test_rs := w_test_rs v; w_ops := w_ops v |} es os
    | ALoad p :: es, o :: os => o = ANothing /\
      a_explained N opt soft c buf {| w_training := w_training v; w_chosen := w_chosen v; w_seg := w_seg v; w_ps := (p, p, snd (w_ps v));
                                      w_rs := w_rs v; w_avg_rs := w_avg_rs v; w_test_rs := w_test_rs v; w_ops := w_ops v |} es os
    | AAct ob a :: es, o :: os =>
      let '(model, _, average) := w_ps v in
      if w_training v then
        let x := {| x_params := model; x_rs := w_rs v; x_obs := ob |} in
        let avg := {| x_params := average; x_rs := w_avg_rs v; x_obs := ob |} in
        o = AChose x /\
        a_explained N opt soft c buf {| w_training := true; w_chosen := Some (x, a, avg); w_seg := w_seg v; w_ps := w_ps v;
          w_rs := if a_recurrent c then Some (advance N model (w_rs v) ob) else None;
          w_avg_rs := if a_recurrent c then Some (advance N average (w_avg_rs v) ob) else None; w_test_rs := w_test_rs v; w_ops := w_ops v |} es os
      else
        o = AChose {| x_params := model; x_rs := w_test_rs v; x_obs := ob |} /\
        a_explained N opt soft c buf {| w_training := false; w_chosen := w_chosen v; w_seg := w_seg v; w_ps := w_ps v; w_rs := w_rs v; w_avg_rs := w_avg_rs v;
          w_test_rs := if a_recurrent c then Some (advance N model (w_test_rs v) ob) else None; w_ops := w_ops v |} es os
    | AObserve ob r done reset _ :: es, o :: os =>
      let '(model, shared, average) := w_ps v in
      if w_training v then
        exists x a avg, w_chosen v = Some (x, a, avg) /\
        let seg := w_seg v ++ [{| as_from := x; as_act := a; as_avg := avg; as_reward := r |}] in
        let ended := done || reset in
        let rs := if ended then None else w_rs v in
        let avg_rs := if ended then None else w_avg_rs v in
        let tr := mkTrans {| b_state := x_obs x; b_action := a; b_reward := r; b_next := ob; b_mu := x |} done in
        let ops := w_ops v ++ RAppend 0 tr :: (if ended then [RStop 0] else []) in
        if (length seg =? a_t_max c) || ended then
          exists u us ps1 ps2, o = AObserved u us /\
            (* the online update *)
            (let R := if done then 0%Q else value N model (w_rs v) ob in
             if disable_online_update c then u = None /\ ps1 = w_ps v
             else u = Some (online seg R) /\ ps1 = (opt shared (online seg R), opt shared (online seg R), soft average (opt shared (online seg R)))) /\
            (* then the updates from the replay buffer *)
            match buf with
            | None => us = [] /\ ps2 = ps1
            | Some cap => exists kept, kept_within cap (finished ops) kept /\
                length us = (if replay_start_size c <=? total kept then n_times_replay c else 0) /\
                replayed N opt soft c kept ps1 us ps2
            end /\
            a_explained N opt soft c buf {| w_training := true; w_chosen := None; w_seg := []; w_ps := ps2; w_rs := rs; w_avg_rs := avg_rs; w_test_rs := w_test_rs v; w_ops := ops |} es os
        else o = AObserved None [] /\
          a_explained N opt soft c buf {| w_training := true; w_chosen := None; w_seg := seg; w_ps := w_ps v; w_rs := rs; w_avg_rs := avg_rs; w_test_rs := w_test_rs v; w_ops := ops |} es os
      else o = ANothing /\
        a_explained N opt soft c buf {| w_training := false; w_chosen := w_chosen v; w_seg := w_seg v; w_ps := w_ps v; w_rs := w_rs v; w_avg_rs := w_avg_rs v;
          w_test_rs := if done || reset then None else w_test_rs v; w_ops := w_ops v |} es os
    | _, _ => False
    end.

  (** Training calls alternate; every observe brings the random choices of n_times_replay replays, within numpy's contracts. *)
  Definition draws_ok (c : acfg) (draws : list ((nat -> oracle) * (nat -> nat -> nat))) : Prop :=
    length draws = n_times_replay c /\
    Forall (fun d => (forall n, 1 <= n -> numpy_contract n 1 (fst d n)) /\ (forall j, randint_ok (snd d j))) draws.
  Fixpoint a_alternating (c : acfg) (training acted : bool) (es : list aev) : Prop :=
    match es with
    | [] => True
    | ASetTraining b :: es => a_alternating c b acted es
    | AOthers _ _ :: es => a_alternating c training acted es
    | ALoad _ :: es => a_alternating c training acted es
    | AAct _ _ :: es => if training then acted = false /\ a_alternating c training true es else a_alternating c training acted es
    | AObserve _ _ _ _ draws :: es => draws_ok c draws /\ if training then acted = true /\ a_alternating c training false es else a_alternating c training acted es
    end.
End Spec.
Arguments astep : clear implicits.
Arguments aview : clear implicits.
