(** C114: everything a DQN agent learns from has happened. *)
From Coq Require Import QArith Reals.
From Verif Require Import Base P_Base M_RandomAccessQueue P_RandomAccessQueue M_SampleNK M_Prioritized M_PriorityWeights M_Wrappers M_Train M_ReplayBuffer S_ReplayBuffer P_ReplayBuffer
  M_Batch S_Batch P_Batch M_DQN M_Loop S_Loop P_Loop.
Close Scope R_scope. Close Scope Q_scope. Open Scope nat_scope.

Section Claim.
Context {Ob Ac J Pm Op E X : Type}.
Context (e : env E Ob Ac J) (U : updater) (tui : nat) (sync : Pm -> Pm -> Pm) (explorer : Ob -> Pm -> nat -> Ac).
Context (hooks : list (nat -> Op -> Op * result unit)) (evaluate : option (nat -> nat -> Pm -> X -> X * result (option Q))) (best : X -> Q).

Section Generic.
Context {M Smp Orc Sv : Type} (B : @buffer Ob Ac M Smp Orc Sv) (learn : Pm -> Pm -> Op -> list Smp -> Pm * Op * list Q) (draws : nat -> Orc).
Context (cap : option nat) (good : M -> Prop) (contents : M -> list (list (trans (@entry Ob Ac)))) (window_of : Smp -> list (trans (@entry Ob Ac))) (law : lawful B cap good contents window_of).
Notation train := (train e B U tui learn sync draws explorer hooks evaluate best).
Lemma ready_start ml n (p : Pm) (o : Op) m (v : E) (x : X) : 0 < n -> good m -> contents m = [] -> ready cap good contents window_of n ml (start p o n m v x : world Ob Ac J Pm Op M Smp E X).
Proof using.
  intros Hn G C. split; [|right; constructor]. split; [|split; constructor]. split; [apply rb_inv_init; exact Hn|]. split; [reflexivity|]. split; [exact G|]. cbn [start w_agent dqn_init d_buf rb_init memory]. rewrite C. clear - Hn. destruct n as [|k]; [lia|]. destruct cap as [[|c]|]; reflexivity.
Qed.
Lemma train_learns P n w w' r g : 0 < n -> ready cap good contents window_of n (a_max_episode_len P) w -> train P w = (w', r) ->
  Forall (fun b => happened (a_max_episode_len P) g n (plays (snd (w_env w'))) (map window_of b)) (w_learned w') /\
  forall hist, r = Ok hist -> contents (memory (d_buf (w_agent w'))) = trunc cap (expected_memory (a_max_episode_len P) n (plays (snd (w_env w')))) /\
    stopped cap good contents window_of n (a_max_episode_len P) w'.
Proof using law.
  intros Hn R Et. destruct (train_ok e B U tui learn sync draws explorer hooks evaluate best cap good contents window_of law n Hn (a_max_episode_len P) P w w' r eq_refl R Et) as [[C L] S].
  split.
  - eapply Forall_impl; [|exact L]. cbn. intros b F. apply happened_ok; [exact Hn|exact C|]. now apply Forall_map.
  - intros hist Eh. pose proof (S hist Eh) as St. split; [|exact St]. destruct St as (((I & N & G & Cm) & _) & eps & p & H1 & H2). rewrite Cm. unfold ps in *. rewrite H1 in *. now rewrite stored_calm.
Qed.
End Generic.

(** One run of train_agent with a new agent and a replay buffer of any capacity, in any environment: every row of every minibatch the agent learns from is an experience of one episode that
    took place; and when train_agent returns, the buffer holds (the last [cap] of) exactly the windows of these episodes. *)
Theorem C114_replay_buffer fuel learn draws cap n P (p : Pm) (o : Op) (v : E) (x : X) q w' r g : 0 < n -> raq_init cap [] = Ok q ->
  train e (uniform_buffer fuel) U tui learn sync draws explorer hooks evaluate best P (start p o n q v x) = (w', r) ->
  let episodes := plays (snd (w_env w')) in
  Forall (happened (a_max_episode_len P) g n episodes) (w_learned w') /\
  forall scores, r = Ok scores -> raq_iter (memory (d_buf (w_agent w'))) = trunc cap (expected_memory (a_max_episode_len P) n episodes).
Proof.
  intros Hn Q Et. cbn zeta. destruct (raq_init_spec cap (@nil (list (trans (@entry Ob Ac))))) as (q' & E1 & I1 & M1). rewrite Q in E1. injection E1 as <-.
  assert (T0 : trunc cap (@nil (list (trans (@entry Ob Ac)))) = []) by (destruct cap as [[|c]|]; reflexivity). rewrite T0 in I1.
  destruct (train_learns (uniform_buffer fuel) learn draws cap _ raq_iter _ (uniform_lawful fuel cap) P n (start p o n q v x) w' r g Hn) as [H1 H2].
  - apply ready_start; [exact Hn| |exact I1]. split; [exact M1|]. now rewrite I1, T0.
  - exact Et.
  - split; [eapply Forall_impl; [|exact H1]; cbn; intros b; now rewrite map_id|]. intros hist Eh. exact (proj1 (H2 hist Eh)).
Qed.
(** The same with a prioritized replay buffer. *)
Theorem C114_prioritized_buffer learn draws cap n P (p : Pm) (o : Op) (v : E) (x : X) pw w' r g : 0 < n ->
  train e prioritized_buffer U tui learn sync draws explorer hooks evaluate best P (start p o n (pw, pb_init cap true 1%Q) v x) = (w', r) ->
  let episodes := plays (snd (w_env w')) in
  Forall (fun b => happened (a_max_episode_len P) g n episodes (map fst b)) (w_learned w') /\
  forall scores, r = Ok scores -> data (snd (memory (d_buf (w_agent w')))) = trunc cap (expected_memory (a_max_episode_len P) n episodes).
Proof.
  intros Hn Et. cbn zeta. destruct (train_learns prioritized_buffer learn draws cap _ _ _ (prioritized_lawful cap) P n (start p o n (pw, pb_init cap true 1%Q) v x) w' r g Hn) as [H1 H2].
  - apply ready_start; [exact Hn| |reflexivity]. split; [reflexivity|]. cbn. destruct cap; [lia|exact I].
  - exact Et.
  - split; [exact H1|]. intros hist Eh. exact (proj1 (H2 hist Eh)).
Qed.

(** Successive runs with the same agent and environment, all of which return. *)
Inductive trained fuel learn draws cap n (ml : option nat) (rest : list (play Ob Ac J) -> Prop) : world Ob Ac J Pm Op (raq (list (trans (@entry Ob Ac)))) (list (trans (@entry Ob Ac))) E X -> Prop :=
| trained_start p o v x q : raq_init cap [] = Ok q -> trained fuel learn draws cap n ml rest (start p o n q v x)
| trained_run P w w' scores : trained fuel learn draws cap n ml rest w -> rest (plays (snd (w_env w))) -> a_max_episode_len P = ml ->
    train e (uniform_buffer fuel) U tui learn sync draws explorer hooks evaluate best P w = (w', Ok scores) -> trained fuel learn draws cap n ml rest w'.
(** The last episode is over (the training steps ended together with an episode). *)
Definition last_over (ml : option nat) (ps : list (play Ob Ac J)) : Prop := forall eps p, ps = eps ++ [p] -> over ml p = true.
(** Proved if every run begins after a finished episode, or with one-step learning. *)
Theorem C114_successive_runs_partial fuel learn draws cap n ml (rest : list (play Ob Ac J) -> Prop) w P w' r g : 0 < n -> n = 1 \/ (forall ps, rest ps -> last_over ml ps) ->
  trained fuel learn draws cap n ml rest w -> rest (plays (snd (w_env w))) -> a_max_episode_len P = ml ->
  train e (uniform_buffer fuel) U tui learn sync draws explorer hooks evaluate best P w = (w', r) ->
  let episodes := plays (snd (w_env w')) in
  Forall (happened ml g n episodes) (w_learned w') /\ forall scores, r = Ok scores -> raq_iter (memory (d_buf (w_agent w'))) = trunc cap (expected_memory ml n episodes).
Proof.
  intros Hn Hr T Hw Hp Et. cbn zeta. set (good := fun q : raq (list (trans (@entry Ob Ac))) => maxlen q = cap /\ raq_iter q = trunc cap (raq_iter q)).
  assert (G : forall w, trained fuel learn draws cap n ml rest w -> rest (plays (snd (w_env w))) -> ready cap good raq_iter (fun w => w) n ml w).
  { clear - Hn Hr. induction 1 as [p o v x q Q|P w w' scores T IH Hw Hp Et]; intros Hw'.
    - destruct (raq_init_spec cap (@nil (list (trans (@entry Ob Ac))))) as (q' & E1 & I1 & M1). rewrite Q in E1. injection E1 as <-.
      assert (T0 : trunc cap (@nil (list (trans (@entry Ob Ac)))) = []) by (destruct cap as [[|c]|]; reflexivity). rewrite T0 in I1. apply ready_start; [exact Hn| |exact I1]. split; [exact M1|]. now rewrite I1, T0.
    - subst ml. destruct (train_learns (uniform_buffer fuel) learn draws cap good raq_iter _ (uniform_lawful fuel cap) P n w w' (Ok scores) 0%Q Hn (IH Hw) Et) as [_ H2].
      destruct (H2 scores eq_refl) as [_ (I & eps & p & H3 & H4)]. split; [exact I|]. destruct Hr as [Hr|Hr]; [now left|]. rewrite H3. apply calm_snoc; [exact H4|]. exact (Hr _ Hw' eps p H3). }
  subst ml. destruct (train_learns (uniform_buffer fuel) learn draws cap good raq_iter _ (uniform_lawful fuel cap) P n w w' r g Hn (G w T Hw) Et) as [H1 H2].
  split; [eapply Forall_impl; [|exact H1]; cbn; intros b; now rewrite map_id|]. intros hist Eh. exact (proj1 (H2 hist Eh)).
Qed.
End Claim.

(** An environment whose observations are the number of the episode and of the step; every third step ends an episode if [ends]. *)
Definition C114_env (ends : bool) : env (nat * nat) (nat * nat) nat unit := {|
  e_reset := fun v => let o := (S (fst v), 0) in (o, Ok o);
  e_step := fun a v => let o := (fst v, S (snd v)) in (o, Ok (mkOut o (inject_Z (Z.of_nat (snd v + 1))) (ends && (snd v =? 2)) false tt)) |}.
Definition C114_upd := mkUpd 1 false 1 2 1 None.
Definition C114_learn (p t o : nat) (xs : list (list (trans (@entry (nat * nat) nat)))) : nat * nat * list Q := (S p, o, []).
Definition C114_draws (i : nat) : oracle := {| choice_norepl := [1]; draw := fun _ => [1] |}.
Definition C114_args (steps : nat) := mkArgs steps 0 None None None false.
Definition C114_train ends steps := train (C114_env ends) (uniform_buffer 5) C114_upd 10 C114_learn (fun p _ => p) C114_draws (fun _ p t => p + t) [] None (fun _ : unit => 0%Q) (C114_args steps).
Definition C114_start n : world (nat * nat) nat unit nat nat (raq (list (trans (@entry (nat * nat) nat)))) (list (trans (@entry (nat * nat) nat))) (nat * nat) unit := start 0 0 n (mkRaq None [] []) (0, 0) tt.

(** In general it is false: train_agent stops after its last step without telling the agent that the episode will not go on.  With two-step learning the next run learns from a transition
    that leads from the last episode of the first run into the first one of the second. *)
Theorem C114_successive_runs_refuted : exists w w' scores,
  trained (C114_env false) C114_upd 10 (fun p _ => p) (fun _ p t => p + t) [] None (fun _ => 0%Q) 5 C114_learn C114_draws None 2 None (fun _ => True) w /\
  C114_train false 1 w = (w', Ok scores) /\
  (exists ws b, w_learned w' = [ws] /\ batch_experiences 1 (map (map as_exper) ws) = Ok b /\ b_state b = [(1, 1)] /\ b_next_state b = [(2, 1)]) /\
  forall g, ~ Forall (happened None g 2 (plays (snd (w_env w')))) (w_learned w').
Proof.
  exists (fst (C114_train false 2 (C114_start 2))), (fst (C114_train false 1 (fst (C114_train false 2 (C114_start 2))))), [].
  split; [|split; [|split]].
  - eapply (trained_run _ _ _ _ _ _ _ _ _ _ _ _ _ _ _ (C114_args 2) (C114_start 2)); [| |reflexivity|vm_compute; reflexivity]; [constructor; reflexivity|exact I].
  - vm_compute. reflexivity.
  - eexists _, _. split; [vm_compute; reflexivity|]. split; [vm_compute; reflexivity|]. split; vm_compute; reflexivity.
  - intros g F. set (w := fst _) in F.
    assert (Hl : w_learned w = [[[mkTrans ((1, 1), 1, 2%Q, (1, 2)) false; mkTrans ((2, 0), 0, 1%Q, (2, 1)) false]]]) by (vm_compute; reflexivity).
    assert (Hp : plays (snd (w_env w)) = [((1, 0), [(0, mkOut (1, 1) 1%Q false false tt); (1, mkOut (1, 2) 2%Q false false tt)]); ((2, 0), [(0, mkOut (2, 1) 1%Q false false tt)])]) by (vm_compute; reflexivity).
    rewrite Hl, Hp in F. apply Forall_inv in F. destruct F as (b & Eb & _ & F). cbn in Eb. injection Eb as <-. cbn [length] in F. destruct (F 0 ltac:(lia)) as (p & s & a & r & nx & tm & dc & Ip & Es & _ & _ & En & _ & _ & (k & m & u & Hm & _ & Ok1 & _ & _ & On & _)).
    cbn in Es, En. injection Es as <-. injection En as <-.
    clear - Ip Hm Ok1 On. destruct Ip as [<-|[<-|[]]]; apply nth_error_In in Ok1, On; cbn in Ok1, On; repeat (match goal with H : _ \/ _ |- _ => destruct H end); congruence || contradiction.
Qed.

(** The hypotheses are met: two runs of six steps with episodes of three steps; the second begins after a finished episode and learns from six minibatches. *)
Example C114_ex : let w := fst (C114_train true 6 (C114_start 2)) in
  last_over None (plays (snd (w_env w))) /\ trained (C114_env true) C114_upd 10 (fun p _ => p) (fun _ p t => p + t) [] None (fun _ => 0%Q) 5 C114_learn C114_draws None 2 None (last_over None) w /\
  length (w_learned w) = 4 /\
  let '(w', r) := C114_train true 6 w in
  r = Ok [] /\ length (w_learned w') = 10 /\ map (fun p => (fst p, length (snd p))) (plays (snd (w_env w'))) = [((1, 0), 3); ((2, 0), 3); ((3, 0), 3); ((4, 0), 3)] /\
  length (raq_iter (memory (d_buf (w_agent w')))) = 12.
Proof.
  cbn zeta. split; [|split; [|split; [vm_compute; reflexivity|vm_compute; repeat split; reflexivity]]].
  - set (l := plays _). vm_compute in l. subst l. intros eps p H. assert (E := f_equal (fun l => last l p) H). cbn beta in E. rewrite last_last in E. rewrite <- E. vm_compute. reflexivity.
  - eapply (trained_run _ _ _ _ _ _ _ _ _ _ _ _ _ _ _ (C114_args 6) (C114_start 2)); [| |reflexivity|vm_compute; reflexivity]; [constructor; reflexivity|].
    intros eps p H. cbn in H. now destruct eps.
Qed.

Print Assumptions C114_replay_buffer.
Print Assumptions C114_prioritized_buffer.
Print Assumptions C114_successive_runs_partial.
Print Assumptions C114_successive_runs_refuted.
