(** C121: evaluating a recurrent agent measures its parameters, not what it did before. *)
From Coq Require Import QArith.
From Verif Require Import Base P_Base M_RandomAccessQueue M_Batch M_Train M_Evaluator M_ReplayBuffer M_Episodic M_SampleNK M_RecDQN M_PPO M_PPOData M_PPOAgent M_EvalRec S_EvalRec P_EvalRec.
Close Scope Q_scope. Open Scope nat_scope.

(** All evaluations in a life end properly: with the end of an episode, or in a vector of environments. *)
Definition proper_evaluations {V Ob Ac R X} (n : nat) (ds : list (deed V Ob Ac R X)) : Prop := Forall (fun d => match d with Evaluate e => ends_properly n e | Train _ => True end) ds.
(** One environment, or n of them. *)
Definition of_size {V Ob Ac R} (n : nat) (e : evaluation V Ob Ac R) : Prop := match e with Single _ _ _ _ _ => n = 1 | Vector E _ _ _ _ => vector_of n E end.

Section C121.
Context {V Ob Ac Y H Pm R : Type} (cell : Pm -> Ob -> H -> Y * H) (zero : H).
(** The evaluations [l] of a life, each with the parameters it was made with, went as the evaluations of these parameters should; and so would any further evaluation, whether it returns or raises. *)
Definition measured {S} (A : evagent S Ob Ac R) (pick : R -> nat -> Y -> Ac) (params : S -> Pm) (n : nat) (s : S) (l : list (Pm * evaluation V Ob Ac R * V * list (Q * nat))) : Prop :=
  Forall (fun x => let '(p, e, v, scores) := x in ideal cell zero pick p e = (v, Ok scores)) l /\
  forall (e : evaluation V Ob Ac R) v s' r, of_size n e -> evaluate A e s = (v, s', r) -> ideal cell zero pick (params s) e = (v, r) /\ params s' = params s.

Lemma measured_intro {S X} (A : evagent S Ob Ac R) pick params mem n (train : X -> S -> result S) s ds s' l : evaluable A cell zero pick params mem n ->
  (forall x s s', ea_training A s = true -> train x s = Ok s' -> mem s' = mem s /\ ea_training A s' = true) -> clean zero mem n s -> ea_training A s = true ->
  proper_evaluations n ds -> life A train params s ds = Ok (s', l) -> measured A pick params n s' l.
Proof.
  intros HA HT C T P E. destruct (life_ok A cell zero pick params mem n HA train HT ds s s' l P C T E) as (F & C' & _). split; [exact F|]. intros e v s2 r W Ee.
  destruct (evaluation_ok A cell zero pick params mem n HA e s' v s2 r C' W Ee) as (A1 & A2 & _). auto.
Qed.
End C121.

(** Recurrent DQN agents. *)
Theorem C121_dqn {V Ob Ac AV H Pm Op R} (cell : Pm -> Ob -> H -> AV * H) (zero : H) (greedy : AV -> Ac) (U : updater) (tui fuel n : nat)
  (learn : Pm -> Pm -> Op -> list (list (trans (rec Ob Ac H))) -> Pm * Op) (sync : Pm -> Pm -> Pm) (draws : nat -> oracle * (nat -> nat -> nat)) p0 o0 b0 (ds : list (deed V Ob Ac R _)) s l :
  proper_evaluations n ds -> life (dqn_evagent cell zero greedy U tui fuel learn sync draws) (dqn_train cell zero greedy U tui fuel learn sync draws) q_model (rdqn_init p0 o0 b0) ds = Ok (s, l) ->
  measured cell zero (dqn_evagent cell zero greedy U tui fuel learn sync draws) (fun _ _ av => greedy av) q_model n s l.
Proof.
  intros P E. refine (measured_intro cell zero _ _ _ _ _ _ _ _ _ _ (dqn_evaluable cell zero greedy U tui fuel n learn sync draws) _ _ _ P E); [|reflexivity|reflexivity].
  intros x a b T Ex. destruct (dqn_train_ok cell zero greedy U tui fuel learn sync draws x a b T Ex) as [A1 A2]. cbn. now rewrite A1.
Qed.

(** Recurrent PPO and TRPO agents, deterministic or sampling in evaluation. *)
Theorem C121_ppo {V Ob Act Dist HS Pm} (cell : Pm -> Ob -> HS -> (Dist * Q) * HS) (zero : HS) (log_prob : Dist -> Act -> Q) (mode_ : Dist -> Act) (det : bool) (max_len : option nat) (update_interval n : nat)
  (gamma lambd : Q) (learn : Pm -> list (list (ptr Ob Act HS)) -> Pm) p0 (ds : list (deed V Ob Act (nat -> Dist -> Act) _)) s l :
  proper_evaluations n ds ->
  life (ppo_evagent cell zero log_prob mode_ det (Some max_len) update_interval gamma lambd learn) (ppo_train cell zero log_prob mode_ det (Some max_len) update_interval gamma lambd learn) o_p (ppo_init p0) ds = Ok (s, l) ->
  measured cell zero (ppo_evagent cell zero log_prob mode_ det (Some max_len) update_interval gamma lambd learn) (fun sampler i y => if det then mode_ (fst y) else sampler i (fst y)) o_p n s l.
Proof.
  intros P E. refine (measured_intro cell zero _ _ _ _ _ _ _ _ _ _ (ppo_evaluable cell zero log_prob mode_ det n max_len update_interval gamma lambd learn) _ _ _ P E); [|reflexivity|reflexivity].
  intros x a b T Ex. destruct (ppo_train_ok cell zero log_prob mode_ det max_len update_interval gamma lambd learn x a b T Ex) as [A1 A2]. cbn. now rewrite A1.
Qed.

(** Recurrent agents that act in one environment. *)
Theorem C121_single {V Ob Ac Y H Pm R} (cell : Pm -> Ob -> H -> Y * H) (zero : H) (pick : R -> nat -> Y -> Ac) p0 (ds : list (deed V Ob Ac R Pm)) s l :
  proper_evaluations 1 ds -> life (one_evagent cell zero pick) one_train i_p (mkOne p0 None true) ds = Ok (s, l) -> measured cell zero (one_evagent cell zero pick) pick i_p 1 s l.
Proof.
  intros P E. refine (measured_intro cell zero _ _ _ _ _ _ _ _ _ _ (one_evaluable cell zero pick) _ _ _ P E); [|reflexivity|reflexivity].
  intros x a b T Ex. unfold one_train in Ex. injection Ex as <-. split; [reflexivity|exact T].
Qed.

(** Without the hypothesis that evaluations end properly: an evaluation of n_steps steps in one environment stops in the middle of an episode without telling the agent, and the next evaluation starts
    with what is remembered of it. *)
Definition C121_claim : Prop :=
  forall (cell : nat -> nat -> nat -> nat * nat) (zero : nat) (pick : unit -> nat -> nat -> nat) (p0 : nat) (ds : list (deed nat nat nat unit nat)) s l,
  Forall (fun d => match d with Evaluate e => of_size 1 e | Train _ => True end) ds ->
  life (one_evagent cell zero pick) one_train i_p (mkOne p0 None true) ds = Ok (s, l) -> measured cell zero (one_evagent cell zero pick) pick i_p 1 s l.

(** A network that counts the observations it is fed; the action is the count; the reward is the action. *)
Definition C121_cell (p o h : nat) : nat * nat := (p + h, S h).
Definition C121_env (len : nat) : world1 nat nat nat unit := mkW1 (fun _ => (0, Ok 0)) (fun a v => (S v, Ok (v, inject_Z (Z.of_nat a), S v =? len, false))) (fun _ => tt).
Definition C121_twice (M : mode) : list (deed nat nat nat unit nat) := [Evaluate (Single (C121_env 5) M None 10 0); Evaluate (Single (C121_env 5) M None 10 0)].
Theorem C121_refuted : ~ C121_claim.
Proof.
  intros C. assert (F : Forall (fun d : deed nat nat nat unit nat => match d with Evaluate e => of_size 1 e | Train _ => True end) (C121_twice (NSteps 3))) by (repeat constructor).
  assert (E : exists s l, life (one_evagent C121_cell 0 (fun _ _ y => y)) one_train i_p (mkOne 0 None true) (C121_twice (NSteps 3)) = Ok (s, l) /\ map snd l = [[(3%Q, 3)]; [(12%Q, 3)]]) by (eexists; eexists; split; vm_compute; reflexivity).
  destruct E as (s & l & E & El). destruct (C _ _ _ _ _ _ _ F E) as [G _]. clear - E G. vm_compute in E. injection E as _ <-. inversion G as [|? ? _ G1]; subst. inversion G1 as [|? ? G2 _]; subst. vm_compute in G2. discriminate.
Qed.

(** Examples: the same evaluations with n_episodes give the same scores; training in between changes them; a vector of two environments, stopped in the middle of episodes. *)
Example C121_ex_episodes : exists s l, life (one_evagent C121_cell 0 (fun _ _ y => y)) one_train i_p (mkOne 0 None true) (C121_twice (NEpisodes 2) ++ [Train 7; Evaluate (Single (C121_env 5) (NEpisodes 1) (Some 3) 10 0)]) = Ok (s, l) /\
  map snd l = [[(10%Q, 5); (10%Q, 5)]; [(10%Q, 5); (10%Q, 5)]; [(24%Q, 3)]] /\ proper_evaluations 1 (C121_twice (NEpisodes 2)).
Proof. eexists. eexists. split; [vm_compute; reflexivity|]. split; [reflexivity|]. repeat constructor. Qed.

Definition C121_venv : worldn (nat * nat) nat nat unit :=
  mkWn 2 (fun mask v => let v' := match mask with None => (0, 0) | Some m => (if nth 0 m true then fst v else 0, if nth 1 m true then snd v else 0) end in (v', Ok [fst v'; snd v']))
    (fun a v => let v' := (S (fst v), S (snd v)) in (v', Ok [(fst v', inject_Z (Z.of_nat (nth 0 a 0)), fst v' =? 3, false); (snd v', inject_Z (Z.of_nat (nth 1 a 0)), snd v' =? 5, false)])) (fun _ => tt).
Lemma C121_venv_ok : vector_of 2 C121_venv.
Proof. split; [reflexivity|]. split; intros m v v' l E; cbn in E; injection E as <- <-; reflexivity. Qed.
Definition C121_U := mkUpd 1 true 1 2 1 None.
Definition C121_draws (_ : nat) : oracle * (nat -> nat -> nat) := (Build_oracle [0] (fun _ => [0]), fun _ _ => 0).
Definition C121_learn (p p' o : nat) (b : list (list (trans (rec nat nat nat)))) : nat * nat := (S p, o).
Definition C121_life : list (deed (nat * nat) nat nat unit (list (list nat * (nat -> nat -> nat -> nat) + list (outcome nat)))) :=
  let ev := Evaluate (Vector C121_venv (NSteps 4) None 20 (0, 0)) in
  let ex := fun _ _ a => a in [ev; ev; Train [inl ([1; 2], ex); inr [(3, 1%Q, false, false); (4, 1%Q, true, false)]; inl ([3; 2], ex); inr [(3, 1%Q, true, false); (4, 1%Q, true, false)]]; ev].
Definition C121_buf : ebuf (rec nat nat nat) := mkEb false None (fun _ => []) (mkRaq None [] []) (mkRaq None [] []).
Example C121_ex_vector : exists s l, life (dqn_evagent C121_cell 0 (fun a => a) C121_U 100 20 C121_learn (fun p _ => p) C121_draws) (dqn_train C121_cell 0 (fun a => a) C121_U 100 20 C121_learn (fun p _ => p) C121_draws) q_model
    (rdqn_init 0 0 C121_buf) C121_life = Ok (s, l) /\
  map (fun x => (fst (fst (fst x)), snd x)) l = [(0, [(3%Q, 3)]); (0, [(3%Q, 3)]); (2, [(9%Q, 3)])] /\ proper_evaluations 2 C121_life.
Proof.
  eexists. eexists. split; [vm_compute; reflexivity|]. split; [vm_compute; reflexivity|]. repeat constructor; exact (proj1 C121_venv_ok) || apply C121_venv_ok.
Qed.
Print Assumptions C121_dqn.
Print Assumptions C121_ppo.
Print Assumptions C121_single.
Print Assumptions C121_refuted.
