(** C126: what comes out of asynchronous A3C training. *)
From Coq Require Import QArith ZifyBool ZifyNat.
From Verif Require Import Base P_Base M_Train S_Train M_Async S_Async P_Async M_A3C S_A3C P_A3C M_A3CAsync S_A3CAsync P_A3CAsync.
From Verif Require C69 C125.
Open Scope nat_scope.

(** At every moment of every run: the shared parameters reachable from the agent of the main process are the result of all updates, but the model it
    acts with is the initial one; and what a process would save is the shared parameters as of its own last update. *)
Theorem C126_results {Ob Act Pm RS} (P : async_args) (N : net Ob Pm RS) (opt : Pm -> upd Ob Act Pm RS -> Pm) (c : cfg)
    (processes : nat) (p0 : Pm) (make_agent : option (nat -> Pm)) (xs : list (csched Ob Act)) y te ta :
  1 <= t_max c -> a3c_async P N opt c processes p0 make_agent xs = Ok (y, te, ta) ->
  shared_model (returned_agent p0 y) = params_after opt p0 (updates_of te) /\ model (returned_agent p0 y) = p0 /\
  (forall i k, nth_error (y_procs y) i = Some k -> saved_params k = acting_params opt p0 (own_params p0 make_agent i) i (updates_of te)).
Proof.
  intros H R. destruct (async_inv P N opt c H p0 make_agent processes xs) as (y' & te' & ta' & A & ((B1 & _) & B3) & _). rewrite A in R. injection R as -> -> ->.
  split; [exact B1|]. split; [reflexivity|]. intros i k Ek. destruct (B3 i k Ek) as ((_ & _ & _ & _ & Q & _) & _). exact Q.
Qed.

(** Hence a process saves the result of all updates if it is the one that made the last of them. *)
Theorem C126_saved_complete {Ob Act Pm RS} (P : async_args) (N : net Ob Pm RS) (opt : Pm -> upd Ob Act Pm RS -> Pm) (c : cfg)
    (processes : nat) (p0 : Pm) (make_agent : option (nat -> Pm)) (xs : list (csched Ob Act)) y te ta us i u k :
  1 <= t_max c -> a3c_async P N opt c processes p0 make_agent xs = Ok (y, te, ta) ->
  updates_of te = us ++ [(i, u)] -> nth_error (y_procs y) i = Some k -> saved_params k = y_params y.
Proof.
  intros H R E Ek. destruct (async_inv P N opt c H p0 make_agent processes xs) as (y' & te' & ta' & A & ((B1 & _) & B3) & _). rewrite A in R. injection R as -> -> ->.
  destruct (B3 i k Ek) as ((_ & _ & _ & _ & Q & _) & _). unfold saved_params. rewrite Q, B1, E, acting_own, params_after_snoc. reflexivity.
Qed.

(** "Returns: Trained agent" (train_agent_async.py:214): false.  In the run of C125 every process returns after two updates, and the agent returned
    acts with the initial parameters. *)
Definition acts_trained {Ob Act Pm RS} (s : st Ob Act Pm RS) (y : sys Ob Act Pm RS) : Prop := model s = y_params y.
Theorem C126_returned_refuted :
  ~ (forall (P : async_args) (N : net nat (list nat) nat) (opt : list nat -> upd nat nat (list nat) nat -> list nat) (c : cfg) processes p0 make_agent xs y te ta,
       1 <= t_max c -> a3c_async P N opt c processes p0 make_agent xs = Ok (y, te, ta) -> Forall (fun k => wk_pc (p_loop k) = PcDone) (y_procs y) ->
       acts_trained (returned_agent p0 y) y).
Proof.
  intros H. assert (E : exists y te ta, C125.c125_run = Ok (y, te, ta)) by (vm_compute; repeat eexists). destruct E as (y & te & ta & E).
  assert (X : rmap (fun z => (map (fun k => wk_pc (p_loop k)) (y_procs (fst (fst z))), y_params (fst (fst z)))) C125.c125_run = Ok ([PcDone; PcDone], [41; 12; 21; 12; 0])) by (vm_compute; reflexivity).
  rewrite E in X. cbn [rmap fst] in X. injection X as X1 X2.
  specialize (H C125.c125_P C69.ex_net C125.c125_opt C69.ex_cfg 2 [0] None C125.c125_xs y te ta (proj1 C125.C125_ex_hyp) E).
  assert (F : Forall (fun k => wk_pc (p_loop k) = PcDone) (y_procs y)).
  { destruct (y_procs y) as [|k1 [|k2 [|k3 l]]]; try discriminate X1. cbn in X1. injection X1 as Y1 Y2. repeat constructor; assumption. }
  specialize (H F). unfold acts_trained in H. rewrite X2 in H. discriminate H.
Qed.

(** The agent saved at the end ("..._finish") need not contain all updates either: in the run of C125 process 0 obtains step 6 = steps and saves;
    process 1 has made an update before and makes another one after, both of which process 0 never sees. *)
Theorem C126_saved_refuted :
  ~ (forall (P : async_args) (N : net nat (list nat) nat) (opt : list nat -> upd nat nat (list nat) nat -> list nat) (c : cfg) processes p0 make_agent xs y te ta i k,
       1 <= t_max c -> a3c_async P N opt c processes p0 make_agent xs = Ok (y, te, ta) -> Forall (fun k => wk_pc (p_loop k) = PcDone) (y_procs y) ->
       finishers ta = [i] -> nth_error (y_procs y) i = Some k -> saved_params k = y_params y).
Proof.
  intros H. assert (E : exists y te ta, C125.c125_run = Ok (y, te, ta)) by (vm_compute; repeat eexists). destruct E as (y & te & ta & E).
  assert (X : rmap (fun z => (map (fun k => (wk_pc (p_loop k), saved_params k)) (y_procs (fst (fst z))), y_params (fst (fst z)), finishers (snd z))) C125.c125_run =
              Ok ([(PcDone, [21; 12; 0]); (PcDone, [41; 12; 21; 12; 0])], [41; 12; 21; 12; 0], [0])) by (vm_compute; reflexivity).
  rewrite E in X. cbn [rmap fst snd] in X. injection X as X1 X2 X3.
  destruct (y_procs y) as [|k1 [|k2 [|k3 l]]] eqn:Ey; try discriminate X1. cbn in X1. injection X1 as Y1 Y2 Y3 Y4.
  specialize (H C125.c125_P C69.ex_net C125.c125_opt C69.ex_cfg 2 [0] None C125.c125_xs y te ta 0 k1 (proj1 C125.C125_ex_hyp) E). rewrite Ey in H. specialize (H ltac:(repeat constructor; assumption) X3 eq_refl).
  rewrite Y2, X2 in H. discriminate H.
Qed.

(** With make_agent a process does not begin with the shared parameters: it acts with its own initialisation until its first update. *)
Theorem C126_first_refuted :
  ~ (forall (P : async_args) (N : net nat (list nat) nat) (opt : list nat -> upd nat nat (list nat) nat -> list nat) (c : cfg) processes p0 make_agent xs y te ta te1 i e q rs o te2,
       1 <= t_max c -> a3c_async P N opt c processes p0 make_agent xs = Ok (y, te, ta) -> te = te1 ++ (i, AgentCall e (Chose q rs o)) :: te2 -> updates_of te1 = [] -> q = p0).
Proof.
  intros H.
  assert (E : exists y ta, a3c_async C125.c125_P C69.ex_net C125.c125_opt C69.ex_cfg 1 [0] (Some (fun i => [70 + i])) [CRun 0 (mkCh false 1 false false None) 7 1 []; CRun 0 (mkCh false 1 false false None) 7 1 []] =
    Ok (y, [(0, EnvGave 7 None)] ++ (0, AgentCall (CallAct 7 1) (Chose [70] None 7)) :: [], ta)) by (vm_compute; repeat eexists).
  destruct E as (y & ta & E). specialize (H _ _ _ _ _ _ _ _ y _ ta _ _ _ _ _ _ _ (proj1 C125.C125_ex_hyp) E eq_refl eq_refl). discriminate H.
Qed.

Print Assumptions C126_results.
Print Assumptions C126_saved_complete.
Print Assumptions C126_returned_refuted.
Print Assumptions C126_saved_refuted.
Print Assumptions C126_first_refuted.
