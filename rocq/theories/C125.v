(** C125: asynchronous A3C training as a whole. *)
From Coq Require Import QArith ZifyBool ZifyNat.
From Verif Require Import Base P_Base M_Train S_Train M_Async S_Async P_Async M_A3C S_A3C P_A3C M_A3CAsync S_A3CAsync P_A3CAsync.
From Verif Require C69.
Open Scope nat_scope.

(** For every number of processes, schedule, behaviour of the environments, hooks, evaluations and exceptions, network, optimizer and configuration:
    no call to an agent fails;
    the processes count steps as in C18 (the second clause: so its theorem applies);
    the shared parameters are the result of all updates of all processes, in the order in which they were made, none lost, none applied twice;
    every event is linked to those before it (S_A3CAsync.v): in training each agent acts on what its environment returned last and observes what
    it returned, each optimizer step starts from the shared parameters left by all updates before, and each action is chosen and each loss
    computed with the shared parameters as of the last update of the same process;
    and each process learns as explained by C69: from each step at most once, in consecutive segments ending with the t_max-th step or the episode. *)
Theorem C125_async_a3c {Ob Act Pm RS} (P : async_args) (N : net Ob Pm RS) (opt : Pm -> upd Ob Act Pm RS -> Pm) (c : cfg)
    (processes : nat) (p0 : Pm) (make_agent : option (nat -> Pm)) (xs : list (csched Ob Act)) :
  1 <= t_max c ->
  exists y te ta, a3c_async P N opt c processes p0 make_agent xs = Ok (y, te, ta) /\
    train_agent_async processes 0 P (map sched_of xs) = ((y_shared y, map (@p_loop Ob Act Pm RS) (y_procs y)), ta) /\
    y_params y = params_after opt p0 (updates_of te) /\
    all_linked P opt p0 (own_params p0 make_agent) te /\
    forall i, i < processes -> explained N opt (cfg_of c i) (view0 (own_params p0 make_agent i)) (calls_of i te) (outs_of i te).
Proof.
  intros H. destruct (async_inv P N opt c H p0 make_agent processes xs) as (y & te & ta & A & ((B1 & B2) & B3) & C & D & _). exists y, te, ta.
  split; [exact A|]. split; [exact C|]. split; [exact B1|]. split; [exact B2|]. intros i Hi.
  destruct (nth_error (y_procs y) i) as [k|] eqn:Ek; [|apply nth_error_None in Ek; lia]. destruct (B3 i k Ek) as (Q1 & (Q2 & _) & _).
  destruct (C69.C69_worker N opt (cfg_of c i) (own_params p0 make_agent i) _ H Q2) as (s & os & R & X). destruct Q1 as (Q1 & _). rewrite Q1 in R. injection R as <- <-. exact X.
Qed.

(** Nearly every step is learned from: of the steps that a process has counted, all but at most t_max - 1; so once all processes have returned
    (and nobody set the stop event, so that [steps] steps were taken), all but at most processes * (t_max - 1) of all the steps. *)
Theorem C125_learned {Ob Act Pm RS} (P : async_args) (N : net Ob Pm RS) (opt : Pm -> upd Ob Act Pm RS -> Pm) (c : cfg)
    (processes : nat) (p0 : Pm) (make_agent : option (nat -> Pm)) (xs : list (csched Ob Act)) y te ta :
  1 <= t_max c -> 1 <= as_steps P -> 1 <= processes -> a3c_async P N opt c processes p0 make_agent xs = Ok (y, te, ta) ->
  (forall i k, nth_error (y_procs y) i = Some k -> wk_pc (p_loop k) <> PcCount ->
     learned_by i (updates_of te) <= length (obtained_by i ta) < learned_by i (updates_of te) + t_max c) /\
  (Forall returned (map (@p_loop Ob Act Pm RS) (y_procs y)) ->
     learned (updates_of te) <= sh_counter (y_shared y) <= learned (updates_of te) + processes * (t_max c - 1) /\
     (sh_stop (y_shared y) = false -> as_steps P <= learned (updates_of te) + processes * (t_max c - 1))).
Proof.
  intros H Hs Hn R. destruct (async_inv P N opt c H p0 make_agent processes xs) as (y' & te' & ta' & A & (_ & B3) & C & D & E & F). rewrite A in R. injection R as -> -> ->.
  assert (Each : forall i k, nth_error (y_procs y) i = Some k -> wk_pc (p_loop k) <> PcCount ->
     learned_by i (updates_of te) <= length (obtained_by i ta) < learned_by i (updates_of te) + t_max c).
  { intros i k Ek Hk. destruct (B3 i k Ek) as ((_ & Q2 & Q3 & Q4 & _) & _ & _ & Q5). unfold count_inv in Q5.
    destruct (wk_pc (p_loop k)); try congruence; lia. }
  split; [exact Each|]. intros Hr.
  destruct (async_ok P Hs processes 0 _ _ _ _ Hn C) as (O & _). assert (L : length (obtained ta) = sh_counter (y_shared y)).
  { rewrite <- (map_length snd), O. apply seq_length. }
  assert (B : learned (updates_of te) <= sh_counter (y_shared y) <= learned (updates_of te) + processes * (t_max c - 1)).
  { rewrite <- L, <- (obtained_sum processes ta F), <- (learned_sum processes _ (updates_tagged processes te E)).
    assert (Ei : forall i, i < processes -> learned_by i (updates_of te) <= length (obtained_by i ta) < learned_by i (updates_of te) + t_max c).
    { intros i Hi. destruct (nth_error (y_procs y) i) as [k|] eqn:Ek; [|apply nth_error_None in Ek; lia]. apply (Each i k Ek).
      rewrite Forall_forall in Hr. assert (W : returned (p_loop k)) by (apply Hr, in_map; eapply nth_error_In; exact Ek). rewrite W. discriminate. }
    clear - Ei H. assert (S : forall m b, b + m <= processes -> list_sum (map (fun i => learned_by i (updates_of te)) (seq b m)) <= list_sum (map (fun i => length (obtained_by i ta)) (seq b m)) <=
      list_sum (map (fun i => learned_by i (updates_of te)) (seq b m)) + m * (t_max c - 1)).
    { induction m as [|m IH]; intros b Hb; [cbn; lia|]. cbn [seq map list_sum fold_right]. change (fold_right Nat.add 0) with list_sum. specialize (IH (S b) ltac:(lia)). specialize (Ei b ltac:(lia)). lia. }
    apply S. lia. }
  split; [exact B|]. intros Hstop. pose proof (async_complete P Hs processes 0 _ _ _ _ Hn C Hr Hstop). lia.
Qed.

(** Two processes (of agents made with the same initial parameters), t_max = 2, episodes of three steps, steps = 6.  Parameters are the history
    of the updates: the number of actions of each, latest first.  The processes move in turn, process 0 twice as fast. *)
Definition c125_P := mkAsync 6 (Some 3) None 1 false.
Definition c125_opt (p : list nat) (u : upd nat nat (list nat) nat) : list nat := (length (u_params u) * 10 + length (u_actions u)) :: p.
Definition c125_xs : list (csched nat nat) :=
  concat (repeat [CRun 0 (mkCh false 1 false false None) 7 1 []; CRun 1 (mkCh false 2 false false None) 8 2 []; CRun 0 (mkCh false 1 false false None) 9 3 []] 35).
Notation c125_run := (a3c_async c125_P C69.ex_net c125_opt C69.ex_cfg 2 [0] None c125_xs).
Example C125_ex : match c125_run with
  | Ok (y, te, ta) =>
      map (fun k => wk_pc (p_loop k)) (y_procs y) = [PcDone; PcDone] /\ sh_counter (y_shared y) = 7 /\ obtained ta = [(0, 1); (1, 2); (0, 3); (0, 4); (1, 5); (0, 6); (1, 7)] /\
      map (fun v => (fst v, u_params (snd v), length (u_actions (snd v)))) (updates_of te) = [(0, [0], 2); (0, [12; 0], 1); (1, [0], 2); (1, [12; 21; 12; 0], 1)] /\
      y_params y = [41; 12; 21; 12; 0]
  | Err _ => False
  end.
Proof. vm_compute. repeat split. Qed.
(** All but one of seven steps were learned from; the first update of process 1 is computed at the initial parameters although two others came in between. *)
Example C125_ex_hyp : 1 <= t_max C69.ex_cfg /\ 1 <= as_steps c125_P. Proof. cbn. lia. Qed.

Print Assumptions C125_async_a3c.
Print Assumptions C125_learned.
