(** C24: MultiprocessVectorEnv against SerialVectorEnv.  A schedule [sched] says at every moment whether the main process or one
    of the workers makes its next step (one send, one receive, one method of an environment). *)
From Verif Require Import Base P_Base M_VectorEnv S_VectorEnv P_VectorEnv.
Open Scope nat_scope.

Section C24.
Context {W Ob A X S V : Type} (G : genv W Ob A X S V).

(** Whatever the schedule: when all calls have returned, the answers (but for the values of seed()) and the states of the
    environments are those of the serial environment, and nothing is left in the pipes. *)
Theorem C24_results (ws : list W) (calls : list (call A S)) sched s :
  1 <= length ws -> Forall (call_ok (length ws)) calls -> Forall (fun c => is_close c = false) calls ->
  execute G (multi_init ws calls) sched = Some s -> finished s ->
  let '((ws', _), rs) := run (serial_do G) (serial_init ws) (map (as_serial (length ws)) calls) in
  map ignoring_seed_values (mn_results (fst s)) = rs /\ map wk_env (snd s) = ws' /\ Forall (fun k => wk_in k = [] /\ wk_out k = []) (snd s).
Proof.
  intros H1 H2 H3 He Hf. pose proof (open_ok G ws calls H1 H2 H3) as C. destruct (execute_complete G _ _ _ He) as [_ E]. rewrite init_complete, (final_complete G) in E by exact Hf.
  destruct (run (serial_do G) (serial_init ws) (map (as_serial (length ws)) calls)) as [[ws' last'] srs]. destruct C as (rs & C1 & C2). rewrite C1 in E. injection E as E1 E2.
  split; [now rewrite E1|]. clear - E2. revert ws' E2. induction (snd s) as [|k ks IH]; intros [|w ws'] E; cbn [map] in *; try discriminate; [auto|]. injection E as E1 E2.
  destruct (norm_idle G k w E1) as (N1 & N2 & N3). destruct (IH ws' E2) as [I1 I2]. split; [now rewrite N1, I1|]. constructor; auto.
Qed.

(** With close(): the same up to close(); every later call is rejected. *)
Theorem C24_results_close (ws : list W) (calls after : list (call A S)) sched s :
  1 <= length ws -> Forall (call_ok (length ws)) calls -> Forall (fun c => is_close c = false) calls ->
  execute G (multi_init ws (calls ++ KClose :: after)) sched = Some s -> finished s ->
  map ignoring_seed_values (mn_results (fst s)) =
  snd (run (serial_do G) (serial_init ws) (map (as_serial (length ws)) (calls ++ [KClose]))) ++ repeat (Err AssertionError) (length after).
Proof.
  intros H1 H2 H3 He Hf. destruct (closed_ok G ws calls after H1 H2 H3) as (rs & ns & C1 & C2). destruct (execute_complete G _ _ _ He) as [_ E]. rewrite init_complete, (final_complete G) in E by exact Hf.
  rewrite C1 in E. injection E as E1 E2. now rewrite E1.
Qed.

(** No deadlock: in every reachable state either all calls have returned or some process can move. *)
Theorem C24_no_deadlock (ws : list W) (calls : list (call A S)) (closing : option (list (call A S))) sched s :
  1 <= length ws -> Forall (call_ok (length ws)) calls -> Forall (fun c => is_close c = false) calls ->
  execute G (multi_init ws (calls ++ match closing with None => [] | Some after => KClose :: after end)) sched = Some s ->
  finished s \/ exists p s', sys_step G s p = Some s'.
Proof.
  intros H1 H2 H3 He. apply progress. destruct (execute_complete G _ _ _ He) as [L E]. rewrite init_complete in E. rewrite L, E. destruct closing as [after|].
  - destruct (closed_ok G ws calls after H1 H2 H3) as (rs & ns & C1 & _). rewrite C1. discriminate.
  - rewrite app_nil_r. pose proof (open_ok G ws calls H1 H2 H3) as C. destruct (run (serial_do G) (serial_init ws) (map (as_serial (length ws)) calls)) as [[ws' last'] srs]. destruct C as (rs & C1 & _).
    rewrite C1. discriminate.
Qed.

(** No endless execution: a schedule for [m] calls has at most m (4 n + 2) steps (whatever the arguments). *)
Theorem C24_terminates (ws : list W) (calls : list (call A S)) sched s :
  execute G (multi_init ws calls) sched = Some s -> length sched <= length calls * (4 * length ws + 2).
Proof.
  intros He. apply execute_measure in He. assert (E : measure (multi_init (Ob:=Ob) (X:=X) (V:=V) ws calls) = length calls * (4 * length ws + 2)).
  { unfold measure, multi_init. cbn [fst snd mn_cur mn_todo]. rewrite map_length, map_map. unfold cost_call.
    assert (Z : list_sum (map (fun w : W => length (wk_in (mkWorker (Ob:=Ob) (A:=A) (X:=X) (S:=S) (V:=V) w [] [] true))) ws) = 0) by (clear; induction ws as [|w l IH]; [reflexivity|exact IH]).
    rewrite Z. lia. }
  lia.
Qed.
End C24.

(** Two counters, three calls, a schedule that lets worker 1 answer first. *)
Definition cnt : genv nat nat nat nat nat nat := mkGenv (fun w => (w + 10, w + 10)) (fun a w => (w + a, (w + a, a))) (fun s w => (match s with Some s => s | None => w end, 0)) (fun w => w).
Definition calls3 : list (call nat nat) := [KReset None; KStep [1; 2]; KReset (Some [true; false]); KSeed (SInt 3)].
Definition sched3 : list pick :=
  [Main; Main; Main; Work 1; Work 0; Main; Main; Main; Main; Main; Main; Work 1; Work 0; Main; Main; Main; Main; Main; Work 1; Main; Main; Main; Main; Main; Work 1; Work 0; Main; Main; Main].
Example C24_ex : exists s, execute cnt (multi_init [0; 5] calls3) sched3 = Some s /\ finished s /\ Forall (call_ok 2) calls3 /\
  mn_results (fst s) = [Ok (AObs [Some 10; Some 15]); Ok (AOuts [(11, 1); (17, 2)]); Ok (AObs [Some 11; Some 27]); Ok (AVals [0; 0])] /\ map wk_env (snd s) = [3; 3].
Proof. eexists. split; [vm_compute; reflexivity|]. split; [vm_compute; auto|]. split; [repeat constructor|]. vm_compute. auto. Qed.
(** With too few actions the main process waits forever. *)
Example C24_ex_deadlock : exists s, execute cnt (multi_init [0; 5] [KStep [1]]) [Main; Main; Work 0; Main] = Some s /\ mn_results (fst s) = [] /\ forall p, sys_step cnt s p = None.
Proof. eexists. split; [vm_compute; reflexivity|]. split; [reflexivity|]. intros [|[|[|i]]]; try reflexivity. cbn. now destruct i. Qed.

Print Assumptions C24_results.
Print Assumptions C24_results_close.
Print Assumptions C24_no_deadlock.
Print Assumptions C24_terminates.
