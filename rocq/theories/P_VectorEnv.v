From Verif Require Import Base P_Base P_Wrappers M_VectorEnv S_VectorEnv.
Open Scope nat_scope.

Lemma list_set_len {T} (l : list T) i x : length (list_set l i x) = length l.
Proof. revert i. induction l as [|y l IH]; intros [|i]; cbn; auto. Qed.
Lemma list_set_map {T U} (f : T -> U) (l : list T) i x : map f (list_set l i x) = list_set (map f l) i (f x).
Proof. revert i. induction l as [|y l IH]; intros [|i]; cbn; [reflexivity..|]. now rewrite IH. Qed.
Lemma list_set_same {T} (l : list T) i x : nth_error l i = Some x -> list_set l i x = l.
Proof. revert i. induction l as [|y l IH]; intros [|i] H; cbn in *; try discriminate; [congruence|]. now rewrite IH. Qed.
Lemma list_set_app {T} (pre : list T) x l y i : length pre = i -> list_set (pre ++ x :: l) i y = (pre ++ [y]) ++ l.
Proof. intros <-. rewrite <- app_assoc. induction pre as [|z pre IH]; cbn; [reflexivity|]. now rewrite IH. Qed.
Lemma nth_error_mid {T} (pre : list T) x l i : length pre = i -> nth_error (pre ++ x :: l) i = Some x.
Proof. intros <-. rewrite nth_error_app2, Nat.sub_diag by lia. reflexivity. Qed.

Section VE.
Context {W Ob A X S V : Type} (G : genv W Ob A X S V).
Notation rep := (@rep Ob X V). Notation msg := (@msg A S). Notation worker := (@worker W Ob A X S V). Notation mop := (@mop A S).
Notation main := (@main Ob A X S V). Notation system := (@system W Ob A X S V).

(** A worker after it has dealt with everything in its inbox. *)
Definition nw := (W * list rep * bool)%type.
Fixpoint drain (w : W) (o : bool) (ms : list msg) : nw :=
  match ms with
  | [] => (w, [], o)
  | m :: ms => if o then let '(w1, rs, o1) := handle G m w in let '(w2, rs2, o2) := drain w1 o1 ms in (w2, rs ++ rs2, o2) else (w, [], o)
  end.
Definition norm (k : worker) : nw := let '(w, rs, o) := drain (wk_env k) (wk_open k) (wk_in k) in (w, wk_out k ++ rs, o).
Definition nsend (m : msg) (s : nw) : nw :=
  let '(w, out, o) := s in if o : bool then let '(w1, rs, o1) := handle G m w in (w1, out ++ rs, o1) else s.
Lemma drain_false w ms : drain w false ms = (w, [], false).
Proof. destruct ms; reflexivity. Qed.
Lemma drain_snoc m : forall ms w o, drain w o (ms ++ [m]) = nsend m (drain w o ms).
Proof.
  induction ms as [|x ms IH]; intros w o; cbn [app drain].
  - unfold nsend. destruct o; [|reflexivity]. destruct (handle G m w) as [[w1 rs] o1]. rewrite app_nil_r. reflexivity.
  - destruct o; [|reflexivity]. destruct (handle G x w) as [[w1 rs] o1]. rewrite IH. destruct (drain w1 o1 ms) as [[w2 rs2] o2]. unfold nsend.
    destruct o2; [|reflexivity]. destruct (handle G m w2) as [[w3 rs3] o3]. now rewrite app_assoc.
Qed.
Lemma norm_send k m : norm (mkWorker (wk_env k) (wk_in k ++ [m]) (wk_out k) (wk_open k)) = nsend m (norm k).
Proof.
  unfold norm. cbn [wk_env wk_in wk_out wk_open]. rewrite drain_snoc. destruct (drain (wk_env k) (wk_open k) (wk_in k)) as [[w rs] o]. unfold nsend.
  destruct o; [|reflexivity]. destruct (handle G m w) as [[w1 rs1] o1]. now rewrite app_assoc.
Qed.
Lemma norm_worker k k' : worker_step G k = Some k' -> norm k' = norm k.
Proof.
  unfold worker_step. destruct k as [w ins outs o]. cbn [wk_open wk_in wk_env wk_out]. destruct o; [|discriminate]. destruct ins as [|m ins]; [discriminate|].
  intros H. unfold norm. cbn [wk_env wk_in wk_out wk_open drain]. destruct (handle G m w) as [[w1 rs] o1]. injection H as <-. cbn [wk_env wk_in wk_out wk_open].
  destruct (drain w1 o1 ins) as [[w2 rs2] o2]. now rewrite app_assoc.
Qed.
Definition nrecv (s : nw) : option (rep * nw) := let '(w, out, o) := s in match out with r :: t => Some (r, (w, t, o)) | [] => None end.
Definition nopen (s : nw) : bool := snd s.

Fixpoint run_ops (ops : list mop) (ns : list nw) (got : list rep) : option (list nw * list rep) :=
  match ops with
  | [] => Some (ns, got)
  | Send i m :: ops => match nth_error ns i with Some s => run_ops ops (list_set ns i (nsend m s)) got | None => None end
  | Recv i :: ops =>
      match nth_error ns i with
      | Some s => match nrecv s with Some (r, s) => run_ops ops (list_set ns i s) (got ++ [r]) | None => None end
      | None => None
      end
  | Join i :: ops => match nth_error ns i with Some s => if nopen s then None else run_ops ops ns got | None => None end
  end.
Fixpoint run_todo (n : nat) (todo : list (call A S)) (last : list (option Ob)) (closed : bool) (results : list (result (answer Ob X V))) (ns : list nw)
  : option (list (result (answer Ob X V)) * list nw) :=
  match todo with
  | [] => Some (results, ns)
  | c :: todo =>
      if closed then run_todo n todo last true (results ++ [Err AssertionError]) ns
      else
        match compile n (length last) c with
        | Err x => run_todo n todo last false (results ++ [Err x]) ns
        | Ok ops =>
            match run_ops ops ns [] with
            | None => None
            | Some (ns, got) => let (last, r) := finish n last c got in run_todo n todo last (match c with KClose => true | _ => false end) (results ++ [r]) ns
            end
        end
  end.
(** What the system will arrive at, whatever the schedule. *)
Definition complete (n : nat) (m : main) (ns : list nw) : option (list (result (answer Ob X V)) * list nw) :=
  match mn_cur m with
  | None => run_todo n (mn_todo m) (mn_last m) (mn_closed m) (mn_results m) ns
  | Some (c, ops, got) =>
      match run_ops ops ns got with
      | None => None
      | Some (ns, got) => let (last, r) := finish n (mn_last m) c got in run_todo n (mn_todo m) last (mn_closed m) (mn_results m ++ [r]) ns
      end
  end.

Lemma nth_norm ks i k : nth_error ks i = Some k -> nth_error (map norm ks) i = Some (norm k).
Proof. intros H. rewrite nth_error_map, H. reflexivity. Qed.
Lemma step_complete s p s' : sys_step G s p = Some s' ->
  length (snd s') = length (snd s) /\ complete (length (snd s)) (fst s') (map norm (snd s')) = complete (length (snd s)) (fst s) (map norm (snd s)).
Proof.
  destruct s as [m ks]. destruct p as [|i]; cbn [sys_step fst snd].
  - unfold main_step. destruct (mn_cur m) as [[[c ops] got]|] eqn:Ec.
    + destruct ops as [|[i x|i|i] ops].
      * destruct (finish (length ks) (mn_last m) c got) as [last r] eqn:Ef. intros H. injection H as <-. cbn [fst snd]. split; [reflexivity|].
        unfold complete. cbn [mn_cur mn_todo mn_last mn_closed mn_results]. rewrite Ec. cbn [run_ops]. rewrite Ef. reflexivity.
      * destruct (nth_error ks i) as [k|] eqn:Ek; [|discriminate]. intros H. injection H as <-. cbn [fst snd]. rewrite list_set_len. split; [reflexivity|].
        unfold complete. cbn [mn_cur mn_todo mn_last mn_closed mn_results]. rewrite Ec. cbn [run_ops]. rewrite (nth_norm _ _ _ Ek), list_set_map, norm_send. reflexivity.
      * destruct (nth_error ks i) as [k|] eqn:Ek; [|discriminate]. destruct (wk_out k) as [|r rest] eqn:Eo; [discriminate|]. intros H. injection H as <-. cbn [fst snd]. rewrite list_set_len. split; [reflexivity|].
        unfold complete. cbn [mn_cur mn_todo mn_last mn_closed mn_results]. rewrite Ec. cbn [run_ops]. rewrite (nth_norm _ _ _ Ek), list_set_map.
        destruct (drain (wk_env k) (wk_open k) (wk_in k)) as [[w rs] o] eqn:Ed.
        assert (E1 : norm k = (w, r :: (rest ++ rs), o)) by (unfold norm; rewrite Ed, Eo; reflexivity).
        assert (E2 : norm (mkWorker (wk_env k) (wk_in k) rest (wk_open k)) = (w, rest ++ rs, o)) by (unfold norm; cbn [wk_env wk_in wk_out wk_open]; rewrite Ed; reflexivity).
        rewrite E1, E2. reflexivity.
      * destruct (nth_error ks i) as [k|] eqn:Ek; [|discriminate]. destruct (wk_open k) eqn:Eo; [discriminate|]. intros H. injection H as <-. cbn [fst snd]. split; [reflexivity|].
        unfold complete. cbn [mn_cur mn_todo mn_last mn_closed mn_results]. rewrite Ec. cbn [run_ops]. rewrite (nth_norm _ _ _ Ek).
        assert (E : nopen (norm k) = false) by (unfold norm; rewrite Eo, drain_false; reflexivity). rewrite E. reflexivity.
    + destruct (mn_todo m) as [|c todo] eqn:Et; [discriminate|]. intros H. injection H as <-. cbn [fst snd]. split; [reflexivity|].
      unfold complete, begin_call. rewrite Ec, Et. cbn [run_todo]. destruct (mn_closed m); [reflexivity|].
      destruct (compile (length ks) (length (mn_last m)) c) as [ops|x]; [|reflexivity]. cbn [mn_cur mn_todo mn_last mn_closed mn_results]. reflexivity.
  - destruct (nth_error ks i) as [k|] eqn:Ek; [|discriminate]. destruct (worker_step G k) as [k'|] eqn:Ew; [|discriminate]. intros H. injection H as <-. cbn [fst snd].
    rewrite list_set_len. split; [reflexivity|]. rewrite list_set_map, (norm_worker _ _ Ew), (list_set_same _ _ _ (nth_norm _ _ _ Ek)). reflexivity.
Qed.
Lemma execute_complete : forall sched s s', execute G s sched = Some s' ->
  length (snd s') = length (snd s) /\ complete (length (snd s)) (fst s') (map norm (snd s')) = complete (length (snd s)) (fst s) (map norm (snd s)).
Proof.
  induction sched as [|p sched IH]; intros s s' H; cbn [execute] in H; [injection H as <-; auto|]. destruct (sys_step G s p) as [s1|] eqn:E; [|discriminate].
  destruct (step_complete s p s1 E) as [L1 C1]. destruct (IH s1 s' H) as [L2 C2]. rewrite L1 in *. split; [lia|]. rewrite C2. exact C1.
Qed.

(** Progress. *)
Lemma progress s : complete (length (snd s)) (fst s) (map norm (snd s)) <> None -> finished s \/ exists p s', sys_step G s p = Some s'.
Proof.
  destruct s as [m ks]. cbn [fst snd]. intros H.
  assert (GW : forall i k, nth_error ks i = Some k -> wk_open k = true -> wk_in k <> [] -> exists p s', sys_step G (m, ks) p = Some s').
  { intros i k Hi Ho Hn. exists (Work i). cbn [sys_step fst snd]. rewrite Hi. unfold worker_step. rewrite Ho. destruct (wk_in k) as [|x l]; [congruence|].
    destruct (handle G x (wk_env k)) as [[w rs] o]. eexists. reflexivity. }
  unfold complete in H. destruct (mn_cur m) as [[[c ops] got]|] eqn:Ec.
  - right. destruct ops as [|[i x|i|i] ops]; cbn [run_ops] in H.
    + exists Main. cbn [sys_step]. unfold main_step. rewrite Ec. destruct (finish (length ks) (mn_last m) c got). eexists. reflexivity.
    + exists Main. cbn [sys_step]. unfold main_step. rewrite Ec. rewrite nth_error_map in H. destruct (nth_error ks i) as [k|]; [|cbn in H; congruence]. eexists. reflexivity.
    + rewrite nth_error_map in H. destruct (nth_error ks i) as [k|] eqn:Ek; [|cbn in H; congruence]. cbn [option_map] in H. destruct (wk_out k) as [|r rest] eqn:Eo.
      * unfold norm in H. rewrite Eo in H. destruct (wk_open k) eqn:Ew; [|rewrite drain_false in H; cbn in H; congruence].
        destruct (wk_in k) as [|y l] eqn:Ei; [cbn in H; congruence|]. apply (GW i k Ek Ew). congruence.
      * exists Main. cbn [sys_step]. unfold main_step. rewrite Ec, Ek, Eo. eexists. reflexivity.
    + rewrite nth_error_map in H. destruct (nth_error ks i) as [k|] eqn:Ek; [|cbn in H; congruence]. cbn [option_map] in H. destruct (wk_open k) eqn:Ew.
      * destruct (wk_in k) as [|y l] eqn:Ei; [|apply (GW i k Ek Ew); congruence]. unfold norm in H. rewrite Ew, Ei in H. cbn in H. congruence.
      * exists Main. cbn [sys_step]. unfold main_step. rewrite Ec, Ek, Ew. eexists. reflexivity.
  - destruct (mn_todo m) as [|c todo] eqn:Et; [left; split; assumption|]. right. exists Main. cbn [sys_step]. unfold main_step. rewrite Ec, Et. eexists. reflexivity.
Qed.

(** Termination. *)
Definition cost_call (n : nat) : nat := 2 * (n + n) + 2.
Definition measure (s : system) : nat :=
  (match mn_cur (fst s) with None => 0 | Some (_, ops, _) => 2 * length ops + 1 end) + length (mn_todo (fst s)) * cost_call (length (snd s)) + list_sum (map (fun k => length (wk_in k)) (snd s)).
Lemma compile_len n nl c ops : compile (A:=A) (S:=S) n nl c = Ok ops -> length ops <= n + n.
Proof.
  assert (F : forall {T} (f : T -> bool) l, length (filter f l) <= length l) by (intros T f l; induction l as [|x l IH]; cbn; [lia|destruct (f x); cbn; lia]).
  destruct c as [actions|mask|s|]; cbn [compile]; intros H.
  - injection H as <-. rewrite app_length, !map_length, combine_length, seq_length. lia.
  - injection H as <-. rewrite app_length, !map_length.
    pose proof (F _ (fun '(m, _) => negb m) (combine (full_mask n mask) (seq 0 n))) as F1. pose proof (F _ (fun '(m, _) => negb m) (combine (full_mask n mask) (seq 0 (Nat.min n nl)))) as F2.
    rewrite combine_length, seq_length in F1, F2. lia.
  - destruct (expand_seeds n s) as [l|x]; [|discriminate]. injection H as <-. rewrite app_length, !map_length, combine_length, seq_length. lia.
  - injection H as <-. rewrite app_length, !map_length, seq_length. lia.
Qed.
Lemma sum_set f (ks : list worker) i k k' : nth_error ks i = Some k -> list_sum (map f (list_set ks i k')) + f k = list_sum (map f ks) + f k'.
Proof. revert i. induction ks as [|x ks IH]; intros [|i] H; try discriminate; unfold list_sum in *; cbn [list_set map fold_right nth_error] in *; [injection H as ->; lia|]. specialize (IH i H). lia. Qed.
Lemma step_measure s p s' : sys_step G s p = Some s' -> measure s' < measure s.
Proof.
  intros H. pose proof (proj1 (step_complete s p s' H)) as L. destruct s as [m ks]. destruct p as [|i]; cbn [sys_step fst snd] in H.
  - unfold main_step in H. destruct (mn_cur m) as [[[c ops] got]|] eqn:Ec.
    + destruct ops as [|[i x|i|i] ops].
      * destruct (finish (length ks) (mn_last m) c got) as [last r]. injection H as <-. unfold measure. cbn [fst snd mn_cur mn_todo length]. rewrite Ec. cbn [length]. lia.
      * destruct (nth_error ks i) as [k|] eqn:Ek; [|discriminate]. injection H as <-. unfold measure. cbn [fst snd mn_cur mn_todo length] in *. rewrite Ec, L.
        pose proof (sum_set (fun k => length (wk_in k)) ks i k (mkWorker (wk_env k) (wk_in k ++ [x]) (wk_out k) (wk_open k)) Ek) as E. cbn [wk_in] in E. rewrite app_length in E. cbn [length] in *. lia.
      * destruct (nth_error ks i) as [k|] eqn:Ek; [|discriminate]. destruct (wk_out k) as [|r rest]; [discriminate|]. injection H as <-. unfold measure. cbn [fst snd mn_cur mn_todo length] in *. rewrite Ec, L.
        pose proof (sum_set (fun k => length (wk_in k)) ks i k (mkWorker (wk_env k) (wk_in k) rest (wk_open k)) Ek) as E. cbn [wk_in] in E. cbn [length] in *. lia.
      * destruct (nth_error ks i) as [k|] eqn:Ek; [|discriminate]. destruct (wk_open k); [discriminate|]. injection H as <-. unfold measure. cbn [fst snd mn_cur mn_todo length]. rewrite Ec. cbn [length]. lia.
    + destruct (mn_todo m) as [|c todo] eqn:Et; [discriminate|]. injection H as <-. unfold measure, begin_call. cbn [fst snd]. rewrite Ec, Et.
      destruct (mn_closed m); [cbn [mn_cur mn_todo length]; unfold cost_call; lia|]. destruct (compile (length ks) (length (mn_last m)) c) as [ops|x] eqn:Eo; cbn [mn_cur mn_todo length]; [|unfold cost_call; lia].
      apply compile_len in Eo. unfold cost_call. lia.
  - destruct (nth_error ks i) as [k|] eqn:Ek; [|discriminate]. destruct (worker_step G k) as [k'|] eqn:Ew; [|discriminate]. injection H as <-. unfold measure. cbn [fst snd] in *. rewrite L.
    pose proof (sum_set (fun k => length (wk_in k)) ks i k k' Ek) as E. unfold worker_step in Ew. destruct (wk_open k); [|discriminate]. destruct (wk_in k) as [|x l] eqn:Ei; [discriminate|].
    destruct (handle G x (wk_env k)) as [[w rs] o]. injection Ew as <-. cbn beta in E. rewrite Ei in E. cbn [wk_in length] in E. lia.
Qed.
Lemma execute_measure : forall sched s s', execute G s sched = Some s' -> length sched + measure s' <= measure s.
Proof.
  induction sched as [|p sched IH]; intros s s' H; cbn [execute] in H; [injection H as <-; cbn; lia|]. destruct (sys_step G s p) as [s1|] eqn:E; [|discriminate].
  pose proof (step_measure _ _ _ E). specialize (IH _ _ H). cbn [length]. lia.
Qed.

(** The deterministic run equals the serial environment. *)
Fixpoint sends (k : nat) (ms : list (option msg)) : list mop :=
  match ms with [] => [] | Some m :: ms => Send k m :: sends (Datatypes.S k) ms | None :: ms => sends (Datatypes.S k) ms end.
Fixpoint recvs (k : nat) (ms : list (option msg)) : list mop :=
  match ms with [] => [] | Some m :: ms => Recv k :: recvs (Datatypes.S k) ms | None :: ms => recvs (Datatypes.S k) ms end.
Definition idle (w : W) : nw := (w, [], true).
(** worker after an optional message *)
Definition served (om : option msg) (w : W) : nw := match om with None => idle w | Some m => let '(w1, rs, o) := handle G m w in (w1, rs, o) end.
Lemma run_sends : forall ms ws k pre ops got, length ms = length ws -> length pre = k ->
  run_ops (sends k ms ++ ops) (pre ++ map idle ws) got = run_ops ops (pre ++ map (fun '(om, w) => served om w) (combine ms ws)) got.
Proof.
  induction ms as [|om ms IH]; intros [|w ws] k pre ops got H1 H2; cbn [length] in H1; try lia; [reflexivity|]. injection H1 as H1. cbn [sends map combine].
  destruct om as [m|].
  - cbn [app run_ops]. rewrite nth_error_mid, list_set_app by assumption. rewrite IH by (auto; rewrite app_length; cbn; lia). rewrite <- app_assoc. reflexivity.
  - replace (pre ++ idle w :: map idle ws) with ((pre ++ [idle w]) ++ map idle ws) by (rewrite <- app_assoc; reflexivity). rewrite IH by (auto; rewrite app_length; cbn; lia). rewrite <- app_assoc. reflexivity.
Qed.
Definition reply_of (om : option msg) (w : W) : list rep := snd (fst (served om w)).
Definition env_of (om : option msg) (w : W) : W := fst (fst (served om w)).
Definition no_close (om : option msg) : Prop := om <> Some MClose.
Lemma run_recvs : forall ms ws k pre ops got, length ms = length ws -> length pre = k -> Forall no_close ms ->
  run_ops (recvs k ms ++ ops) (pre ++ map (fun '(om, w) => served om w) (combine ms ws)) got =
  run_ops ops (pre ++ map idle (map (fun '(om, w) => env_of om w) (combine ms ws))) (got ++ concat (map (fun '(om, w) => reply_of om w) (combine ms ws))).
Proof.
  induction ms as [|om ms IH]; intros [|w ws] k pre ops got H1 H2 H3; cbn [length] in H1; try lia; [cbn; now rewrite !app_nil_r|]. injection H1 as H1. inversion H3 as [|? ? N1 N2]; subst.
  cbn [recvs map combine concat]. destruct om as [m|].
  - cbn [app run_ops]. rewrite nth_error_mid by reflexivity. assert (E : exists r, served (Some m) w = (env_of (Some m) w, [r], true) /\ reply_of (Some m) w = [r]).
    { unfold env_of, reply_of, served. destruct m as [a| |s|]; cbn [handle]; [destruct (g_step G a w) as [w1 r1]|destruct (g_reset G w) as [w1 r1]|destruct (g_seed G s w) as [w1 r1]|exfalso; apply N1; reflexivity]; eexists; split; reflexivity. }
    destruct E as (r & E1 & E2). rewrite E1. cbn [nrecv]. rewrite list_set_app by reflexivity. rewrite IH by (auto; rewrite app_length; cbn; lia). rewrite E2, <- !app_assoc. reflexivity.
  - replace (pre ++ served None w :: map (fun '(om, w) => served om w) (combine ms ws)) with ((pre ++ [idle w]) ++ map (fun '(om, w) => served om w) (combine ms ws)) by (rewrite <- app_assoc; reflexivity).
    rewrite IH by (auto; rewrite app_length; cbn; lia). rewrite <- app_assoc. reflexivity.
Qed.
Lemma run_both ms ws : length ms = length ws -> Forall no_close ms -> run_ops (sends 0 ms ++ recvs 0 ms) (map idle ws) [] =
  Some (map idle (map (fun '(om, w) => env_of om w) (combine ms ws)), concat (map (fun '(om, w) => reply_of om w) (combine ms ws))).
Proof.
  intros H1 H2. pose proof (run_sends ms ws 0 [] (recvs 0 ms) [] H1 eq_refl) as E. cbn [app] in E. rewrite E.
  pose proof (run_recvs ms ws 0 [] [] [] H1 eq_refl H2) as E2. cbn [app] in E2. rewrite app_nil_r in E2. rewrite E2. reflexivity.
Qed.
(** compile in terms of sends and recvs *)
Lemma sends_all {T} (f : T -> msg) : forall l k, sends k (map (fun x => Some (f x)) l) = map (fun '(i, x) => Send i (f x)) (combine (seq k (length l)) l).
Proof. induction l as [|x l IH]; intros k; cbn; [reflexivity|]. now rewrite IH. Qed.
Lemma recvs_all {T} (f : T -> msg) : forall l k, recvs k (map (fun x => Some (f x)) l) = map Recv (seq k (length l)).
Proof. induction l as [|x l IH]; intros k; cbn; [reflexivity|]. now rewrite IH. Qed.
Definition mask_msg (m : bool) : option msg := if m then None else Some MReset.
Lemma sends_mask : forall l k, sends k (map mask_msg l) = map (fun '(_, i) => Send i MReset) (filter (fun '(m, _) => negb m) (combine l (seq k (length l)))).
Proof. induction l as [|x l IH]; intros k; cbn; [reflexivity|]. destruct x; cbn; now rewrite IH. Qed.
Lemma recvs_mask : forall l k, recvs k (map mask_msg l) = map (fun '(_, i) => Recv i) (filter (fun '(m, _) => negb m) (combine l (seq k (length l)))).
Proof. induction l as [|x l IH]; intros k; cbn; [reflexivity|]. destruct x; cbn; now rewrite IH. Qed.

Lemma step_serial : forall ws actions, length actions = length ws ->
  let ms := map (fun a => Some (MStep a)) actions in
  serial_step G ws actions = (map (fun '(om, w) => env_of om w) (combine ms ws), snd (serial_step G ws actions)) /\
  got_outs (concat (map (fun '(om, w) => reply_of om w) (combine ms ws))) = Some (snd (serial_step G ws actions)) /\ length (snd (serial_step G ws actions)) = length ws.
Proof.
  induction ws as [|w ws IH]; intros [|a actions] H; cbn [length] in H; try lia; [cbn; auto|]. injection H as H. destruct (IH actions H) as (I1 & I2 & I3). cbn zeta in *. cbn [serial_step map combine concat].
  unfold env_of, reply_of in *. cbn [served handle]. destruct (g_step G a w) as [w1 r1]. destruct (serial_step G ws actions) as [ws' rs]. cbn [fst snd app] in *. split; [|split].
  - f_equal. f_equal. now injection I1.
  - cbn [got_outs]. rewrite I2. reflexivity.
  - cbn. lia.
Qed.
Lemma reset_serial : forall mask ws last, length mask = length ws -> length last = length ws ->
  let ms := map mask_msg mask in
  serial_reset G mask ws last = (map (fun '(om, w) => env_of om w) (combine ms ws), snd (serial_reset G mask ws last)) /\
  got_obs mask (length ws) last (concat (map (fun '(om, w) => reply_of om w) (combine ms ws))) = Some (snd (serial_reset G mask ws last)) /\ length (snd (serial_reset G mask ws last)) = length ws.
Proof.
  induction mask as [|m mask IH]; intros [|w ws] [|o last] H1 H2; cbn [length] in H1, H2; try lia; [cbn; auto|]. injection H1 as H1. injection H2 as H2.
  destruct (IH ws last H1 H2) as (I1 & I2 & I3). cbn zeta in *. cbn [serial_reset map combine concat]. unfold env_of, reply_of in *. destruct m; cbn [mask_msg served handle].
  - destruct (serial_reset G mask ws last) as [ws' rs]. cbn [fst snd app] in *. split; [|split].
    + f_equal. f_equal. now injection I1.
    + cbn [got_obs length]. cbn [idle fst snd app]. rewrite I2. reflexivity.
    + cbn. lia.
  - destruct (g_reset G w) as [w1 r1]. destruct (serial_reset G mask ws last) as [ws' rs]. cbn [fst snd app] in *. split; [|split].
    + f_equal. f_equal. now injection I1.
    + cbn [got_obs length]. rewrite I2. reflexivity.
    + cbn. lia.
Qed.
Lemma seed_serial : forall ws l, length l = length ws -> let ms := map (fun s => Some (MSeed s)) l in
  serial_seed G ws l = map (fun '(om, w) => env_of om w) (combine ms ws) /\ exists vs, got_vals (concat (map (fun '(om, w) => reply_of om w) (combine ms ws))) = Some vs.
Proof.
  induction ws as [|w ws IH]; intros [|s l] H; cbn [length] in H; try lia; [cbn; eauto|]. injection H as H. destruct (IH l H) as (I1 & vs & I2). cbn zeta in *. cbn [serial_seed map combine concat].
  unfold env_of, reply_of in *. cbn [served handle]. destruct (g_seed G s w) as [w1 v1]. cbn [fst snd app]. split; [now rewrite I1|]. cbn [got_vals]. rewrite I2. eexists. reflexivity.
Qed.
Lemma close_run ws : run_ops (map (fun i => Send i (@MClose A S)) (seq 0 (length ws)) ++ map Join (seq 0 (length ws))) (map idle ws) [] = Some (map (fun w => (g_close G w, [], false)) ws, []).
Proof.
  pose (ms := map (fun _ : W => Some (@MClose A S)) ws). assert (Hl : length ms = length ws) by (unfold ms; now rewrite map_length).
  assert (E1 : map (fun i => Send i (@MClose A S)) (seq 0 (length ws)) = sends 0 ms).
  { unfold ms. generalize 0. induction ws as [|w l IH]; intros k; cbn; [reflexivity|]. rewrite <- IH; [reflexivity|]. cbn in Hl. rewrite map_length. reflexivity. }
  rewrite E1. pose proof (run_sends ms ws 0 [] (map Join (seq 0 (length ws))) [] Hl eq_refl) as E. cbn [app] in E. rewrite E.
  assert (E2 : map (fun '(om, w) => served om w) (combine ms ws) = map (fun w => (g_close G w, [], false)) ws).
  { unfold ms. clear. induction ws as [|w l IH]; cbn; [reflexivity|]. now rewrite IH. }
  rewrite E2. clear. set (ns := map (fun w => (g_close G w, [], false)) ws : list nw). assert (H : forall k m, k + m <= length ws -> run_ops (map Join (seq k m)) ns [] = Some (ns, [])).
  { intros k m. revert k. induction m as [|m IH]; intros k H; cbn; [reflexivity|]. unfold ns at 1. rewrite nth_error_map. destruct (nth_error ws k) eqn:E; [cbn|apply nth_error_None in E; lia]. apply IH. lia. }
  apply H. lia.
Qed.

(** One call. *)
Lemma call_serial n ws last c : n = length ws -> 1 <= n -> length last = n -> call_ok n c -> is_close c = false ->
  let '((ws', last'), sr) := serial_do G (ws, last) (as_serial n c) in
  exists ops got r, compile n (length last) c = Ok ops /\ run_ops ops (map idle ws) [] = Some (map idle ws', got) /\ finish n last c got = (last', r) /\
    ignoring_seed_values r = sr /\ length ws' = n /\ length last' = n.
Proof.
  intros Hn H1 Hl Hok Hc. assert (KS : forall l, length l = n -> c = KSeed (SList l) \/ (exists s, c = KSeed s /\ expand_seeds n s = Ok l) ->
    exists ops got r, compile n (length last) c = Ok ops /\ run_ops ops (map idle ws) [] = Some (map idle (serial_seed G ws l), got) /\ finish n last c got = (last, r) /\
    ignoring_seed_values r = Ok ANone /\ length (serial_seed G ws l) = n /\ length last = n).
  { intros l Hll Hs. assert (exists s, c = KSeed s /\ expand_seeds n s = Ok l) as (s & -> & Ee). { destruct Hs as [->|Hs]; [|exact Hs]. exists (SList l). split; [reflexivity|]. cbn. rewrite Hll, Nat.eqb_refl. reflexivity. }
    destruct (seed_serial ws l ltac:(lia)) as (I1 & vs & I2). cbn zeta in *. set (ms := map (fun s => Some (MSeed s)) l) in *. assert (Hms : length ms = length ws) by (unfold ms; rewrite map_length; lia).
    exists (sends 0 ms ++ recvs 0 ms). do 2 eexists. split; [|split; [|split]].
    - cbn [compile]. rewrite Ee. cbn [rbind]. unfold ms. rewrite (sends_all (fun s => MSeed s)), (recvs_all (fun s => MSeed s)), Hll. reflexivity.
    - rewrite run_both; [rewrite I1; reflexivity|assumption|]. unfold ms. apply Forall_map, Forall_forall. intros x _. discriminate.
    - cbn [finish]. rewrite I2. reflexivity.
    - split; [reflexivity|]. split; [|exact Hl]. rewrite I1, map_length, combine_length. lia. }
  destruct c as [actions|mask|s|]; cbn [as_serial serial_do].
  - cbn in Hok. destruct (step_serial ws actions ltac:(lia)) as (I1 & I2 & I3). cbn zeta in *. set (ms := map (fun a => Some (MStep a)) actions) in *.
    destruct (serial_step G ws actions) as [ws' outs]. cbn [snd] in *. injection I1 as I1. destruct outs as [|o outs]; [cbn in I3; lia|].
    assert (Hms : length ms = length ws) by (unfold ms; rewrite map_length; lia).
    exists (sends 0 ms ++ recvs 0 ms). do 2 eexists. split; [|split; [|split]].
    + cbn [compile]. unfold ms. rewrite (sends_all (fun a => MStep a)), (recvs_all (fun a => MStep a)), Hok. reflexivity.
    + rewrite run_both; [rewrite <- I1; reflexivity|assumption|]. unfold ms. apply Forall_map, Forall_forall. intros x _. discriminate.
    + cbn [finish]. rewrite I2. reflexivity.
    + split; [reflexivity|]. rewrite map_length. split; [rewrite I1, map_length, combine_length; lia|lia].
  - set (mk := match mask with None => repeat false (length ws) | Some m => m end). assert (Hmk : length mk = length ws) by (unfold mk; destruct mask as [m|]; [cbn in Hok; lia|apply repeat_length]).
    destruct (reset_serial mk ws last Hmk ltac:(lia)) as (I1 & I2 & I3). cbn zeta in *. set (ms := map mask_msg mk) in *. destruct (serial_reset G mk ws last) as [ws' obs]. cbn [snd] in *. injection I1 as I1.
    assert (Hms : length ms = length ws) by (unfold ms; rewrite map_length; lia). assert (Hf : full_mask n mask = mk) by (unfold full_mask, mk; rewrite Hn; reflexivity).
    exists (sends 0 ms ++ recvs 0 ms). do 2 eexists. split; [|split; [|split]].
    + cbn [compile]. unfold ms. rewrite sends_mask, recvs_mask, Hmk, Hf. replace (Nat.min n (length last)) with (length ws) by lia. rewrite Hn. reflexivity.
    + rewrite run_both; [rewrite <- I1; reflexivity|assumption|]. unfold ms. apply Forall_map, Forall_forall. intros [|] _; discriminate.
    + cbn [finish]. rewrite Hf, Hn, I2. reflexivity.
    + split; [reflexivity|]. split; [rewrite I1, map_length, combine_length; lia|lia].
  - destruct s as [|s|l]; cbn [as_serial serial_do].
    + apply (KS (repeat None n)); [apply repeat_length|]. right. eexists. split; reflexivity.
    + apply (KS (repeat (Some s) n)); [apply repeat_length|]. right. eexists. split; reflexivity.
    + apply KS; [exact Hok|]. left. reflexivity.
  - discriminate.
Qed.
Lemma calls_serial n : 1 <= n -> forall calls ws last results more, n = length ws -> length last = n -> Forall (call_ok n) calls -> Forall (fun c => is_close c = false) calls ->
  let '((ws', last'), srs) := run (serial_do G) (ws, last) (map (as_serial n) calls) in
  exists rs, run_todo n (calls ++ more) last false results (map idle ws) = run_todo n more last' false (results ++ rs) (map idle ws') /\ map ignoring_seed_values rs = srs /\ length ws' = n /\ length last' = n.
Proof.
  intros H1. induction calls as [|c calls IH]; intros ws last results more Hn Hl Hok Hc; cbn [map run].
  - exists []. rewrite app_nil_r. auto.
  - inversion Hok; subst. inversion Hc; subst. pose proof (call_serial (length ws) ws last c eq_refl H1 Hl ltac:(assumption) ltac:(assumption)) as C.
    destruct (serial_do G (ws, last) (as_serial (length ws) c)) as [[ws1 last1] sr]. destruct C as (ops & got & r & C1 & C2 & C3 & C4 & C5 & C6).
    specialize (IH ws1 last1 (results ++ [r]) more). rewrite <- C5 in IH at 1. rewrite C5 in IH. specialize (IH eq_refl C6 ltac:(assumption) ltac:(assumption)).
    destruct (run (serial_do G) (ws1, last1) (map (as_serial (length ws)) calls)) as [[ws2 last2] srs]. destruct IH as (rs & I1 & I2 & I3 & I4).
    exists (r :: rs). split; [|split; [cbn [map]; now rewrite C4, I2|auto]]. cbn [app run_todo]. rewrite C1, C2, C3. destruct c; try discriminate; rewrite I1, <- app_assoc; reflexivity.
Qed.

Lemma run_closed n : forall todo last results ns, run_todo n todo last true results ns = Some (results ++ repeat (Err AssertionError) (length todo), ns).
Proof. induction todo as [|c todo IH]; intros last results ns; cbn [run_todo length repeat]; [now rewrite app_nil_r|]. rewrite IH, <- app_assoc. reflexivity. Qed.

Lemma init_complete ws calls : complete (length (snd (multi_init (Ob:=Ob) (X:=X) (V:=V) ws calls))) (fst (multi_init ws calls)) (map norm (snd (multi_init ws calls))) =
  run_todo (length ws) calls (repeat None (length ws)) false [] (map idle ws).
Proof. unfold multi_init. cbn [fst snd]. rewrite map_length. unfold complete. cbn [mn_cur mn_todo mn_last mn_closed mn_results]. f_equal. rewrite map_map. reflexivity. Qed.
Lemma final_complete n (s : system) : finished s -> complete n (fst s) (map norm (snd s)) = Some (mn_results (fst s), map norm (snd s)).
Proof. intros [H1 H2]. unfold complete. rewrite H1, H2. reflexivity. Qed.

Lemma open_ok ws calls : 1 <= length ws -> Forall (call_ok (length ws)) calls -> Forall (fun c => is_close c = false) calls ->
  let '((ws', _), srs) := run (serial_do G) (serial_init ws) (map (as_serial (length ws)) calls) in
  exists rs, run_todo (length ws) calls (repeat None (length ws)) false [] (map idle ws) = Some (rs, map idle ws') /\ map ignoring_seed_values rs = srs.
Proof.
  intros H1 H2 H3. pose proof (calls_serial (length ws) H1 calls ws (repeat None (length ws)) [] [] eq_refl (repeat_length _ _) H2 H3) as C. unfold serial_init.
  destruct (run (serial_do G) (ws, repeat None (length ws)) (map (as_serial (length ws)) calls)) as [[ws' last'] srs]. destruct C as (rs & C1 & C2 & _).
  rewrite app_nil_r in C1. cbn [run_todo app] in C1. eauto.
Qed.
Lemma run_serial_app st l c : snd (run (serial_do G) st (l ++ [c])) = snd (run (serial_do G) st l) ++ [snd (serial_do G (fst (run (serial_do G) st l)) c)].
Proof. rewrite run_snoc. destruct (run (serial_do G) st l) as [s1 rs]. cbn [fst snd]. destruct (serial_do G s1 c). reflexivity. Qed.
Lemma closed_ok ws calls post : 1 <= length ws -> Forall (call_ok (length ws)) calls -> Forall (fun c => is_close c = false) calls ->
  exists rs ns, run_todo (length ws) (calls ++ KClose :: post) (repeat None (length ws)) false [] (map idle ws) = Some (rs, ns) /\
    map ignoring_seed_values rs = snd (run (serial_do G) (serial_init ws) (map (as_serial (length ws)) (calls ++ [KClose]))) ++ repeat (Err AssertionError) (length post).
Proof.
  intros H1 H2 H3. pose proof (calls_serial (length ws) H1 calls ws (repeat None (length ws)) [] (KClose :: post) eq_refl (repeat_length _ _) H2 H3) as C. unfold serial_init.
  rewrite map_app. cbn [map as_serial]. rewrite run_serial_app.
  destruct (run (serial_do G) (ws, repeat None (length ws)) (map (as_serial (length ws)) calls)) as [[ws' last'] srs]. destruct C as (rs & C1 & C2 & C3 & C4).
  rewrite C1. cbn [run_todo compile]. rewrite <- C3. rewrite close_run. cbn [finish]. rewrite run_closed. do 2 eexists. split; [reflexivity|].
  cbn [app fst snd serial_do]. rewrite !map_app, C2. cbn [map ignoring_seed_values]. f_equal. induction (length post) as [|m IH]; cbn; [reflexivity|]. now rewrite IH.
Qed.
Lemma norm_idle k w : norm k = idle w -> wk_env k = w /\ wk_in k = [] /\ wk_out k = [].
Proof.
  unfold norm, idle. destruct k as [e ins outs o]. cbn [wk_env wk_in wk_out wk_open]. destruct ins as [|m ins].
  - cbn [drain]. intros H. injection H as -> H _. rewrite app_nil_r in H. auto.
  - cbn [drain]. destruct o; [|intros H; discriminate H]. destruct m; cbn [handle]; [destruct (g_step G a e) as [w1 r1]|destruct (g_reset G e) as [w1 r1]|destruct (g_seed G s e) as [w1 r1]|].
    1-3: destruct (drain w1 true ins) as [[w2 rs2] o2]; intros H; injection H as _ H _; apply app_eq_nil in H; destruct H as [_ H]; discriminate.
    rewrite drain_false. intros H. discriminate H.
Qed.
End VE.
