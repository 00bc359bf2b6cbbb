(** C109: what the networks are given in one iteration of PPO and TRPO. *)
From Coq Require Import Permutation.
From Verif Require Import Base M_Batch M_PPO M_Recurrent M_PPOData P_Recurrent P_PPOData M_PPOUpdate.

Section Spec.
Context {Ob F B N X : Type} (state : X -> Ob) (experience : N -> B -> N) (normalise : N -> B -> B) (bs : (Ob -> F) -> list Ob -> B) (phi : Ob -> F).
(** The inputs of a network are the observations of the transitions of the batch, preprocessed and batched by the agent's own functions, and normalised by [f]. *)
Definition fed (f : B -> B) (e : event) : Prop :=
  match e with Experience _ => False | Forward _ rows => forall b data, In (b, data) rows -> b = f (bs phi (map state data)) end.
(** Without a normaliser nothing else happens; with one, it first takes in every observation of the data once, in one batch, and then normalises every input. *)
Definition well_fed (n : option N) (data : list X) (l : list event) : Prop :=
  match n with
  | None => Forall (fed (fun b => b)) l
  | Some n => exists order l', Permutation order data /\ l = Experience (bs phi (map state order)) :: l' /\ Forall (fed (normalise (experience n (bs phi (map state order))))) l'
  end.
(** The policy is always given the whole of the data. *)
Definition whole (data : list X) (e : @event B X) : Prop := match e with Forward Policy rows => Permutation (concat (map snd rows)) data | _ => True end.
End Spec.

Lemma fed_input {Ob F B N X} (state : X -> Ob) (normalise : N -> B -> B) (bs : (Ob -> F) -> list Ob -> B) phi (n : option N) w l :
  fed state bs phi (normalised normalise n) (Forward w (map (input state normalise bs phi n) l)).
Proof. intros b d I. apply in_map_iff in I. destruct I as (x & E & _). injection E as <- <-. reflexivity. Qed.
Lemma snd_input {Ob F B N X} (state : X -> Ob) (normalise : N -> B -> B) (bs : (Ob -> F) -> list Ob -> B) phi (n : option N) l : map snd (map (input state normalise bs phi n) l) = l.
Proof. rewrite map_map. cbn. apply map_id. Qed.
Lemma well_fed_intro {Ob F B N X} (state : X -> Ob) (experience : N -> B -> N) (normalise : N -> B -> B) (bs : (Ob -> F) -> list Ob -> B) phi n data order l e n' :
  update_normalizer state experience bs phi n order = (e, n') -> Permutation order data -> Forall (fed state bs phi (normalised normalise n')) l -> well_fed state experience normalise bs phi n data (e ++ l).
Proof.
  unfold update_normalizer, well_fed. destruct n as [n|]; intros E P H; injection E as <- <-; [|exact H]. exists order, l. auto.
Qed.

Lemma ok_inj {Y} (a b : Y) : Ok a = Ok b -> b = a.
Proof. congruence. Qed.
Lemma concat_perm {Y} (a b : list (list Y)) : Permutation a b -> Permutation (concat a) (concat b).
Proof. induction 1; cbn [concat]; [constructor|now apply Permutation_app_head|rewrite !app_assoc; apply Permutation_app_tail, Permutation_app_comm|etransitivity; eassumption]. Qed.

(** PPO *)
Theorem C109_ppo {Ob F B N X} (state : X -> Ob) (experience : N -> B -> N) (normalise : N -> B -> B) (bs : (Ob -> F) -> list Ob -> B) phi n size epochs perms dataset l :
  ppo_update state experience normalise bs phi n size epochs perms dataset = Ok l -> well_fed state experience normalise bs phi n dataset l.
Proof.
  unfold ppo_update. destruct (update_normalizer _ _ _ _ _ _) as [e n'] eqn:U. destruct (passert _); [|discriminate]. cbn [rbind]. destruct (yield_minibatches _ _ _ _) as [bt|]; [|discriminate]. cbn [rbind]. intros E. injection E as <-.
  eapply well_fed_intro; [exact U|reflexivity|]. apply Forall_map, Forall_forall. intros b _. apply (fed_input state normalise bs phi n' Both [b]).
Qed.
Theorem C109_ppo_recurrent {Ob F B N X} (state : X -> Ob) (experience : N -> B -> N) (normalise : N -> B -> B) (bs : (Ob -> F) -> list Ob -> B) phi n size shuffled dataset l :
  ppo_update_recurrent state experience normalise bs phi n size shuffled dataset = Ok l -> well_fed state experience normalise bs phi n (concat dataset) l.
Proof.
  unfold ppo_update_recurrent. destruct (update_normalizer _ _ _ _ _ _) as [e n'] eqn:U. destruct (passert _); [|discriminate]. cbn [rbind]. destruct (rmapM _ _) as [bt|]; [|discriminate]. cbn [rbind]. intros E. injection E as <-.
  eapply well_fed_intro; [exact U|reflexivity|]. apply Forall_map, Forall_forall. intros b _. apply fed_input.
Qed.
(** TRPO, if its batch_states is the one the module imports. *)
Theorem C109_trpo_partial {Ob F B N X} (state : X -> Ob) (experience : N -> B -> N) (normalise : N -> B -> B) (module_bs bs : (Ob -> F) -> list Ob -> B) phi n size epochs k perms dataset l :
  (forall p s, bs p s = module_bs p s) -> trpo_update state experience normalise module_bs bs phi n size epochs k perms dataset = Ok l ->
  well_fed state experience normalise bs phi n dataset l /\ Forall (whole dataset) l.
Proof.
  intros S. unfold trpo_update. destruct (update_normalizer _ _ _ _ _ _) as [e n'] eqn:U. destruct (passert _); [|discriminate]. cbn [rbind]. destruct (yield_minibatches _ _ _ _) as [bt|]; [|discriminate]. cbn [rbind]. intros E. apply ok_inj in E. subst l. split.
  - eapply well_fed_intro; [unfold update_normalizer in *; destruct n; [rewrite S|]; exact U|reflexivity|]. rewrite !Forall_app.
    assert (G : forall d, input state normalise module_bs phi n' d = input state normalise bs phi n' d) by (intros d; unfold input; now rewrite S).
    split; [split; apply Forall_forall; intros x I; apply repeat_spec in I; subst x|apply Forall_map, Forall_forall; intros b _]; rewrite ?G; apply (fed_input state normalise bs phi n' _ [_]).
  - rewrite !Forall_app. split; [|split; [split|]].
    + unfold update_normalizer in U. destruct n; injection U as <- _; repeat constructor.
    + apply Forall_forall. intros x I. apply repeat_spec in I. subst x. cbn. now rewrite app_nil_r.
    + apply Forall_forall. intros x I. apply repeat_spec in I. subst x. cbn. now rewrite app_nil_r.
    + apply Forall_map, Forall_forall. intros b _. exact I.
Qed.
(** A recurrent TRPO agent feeds its networks with its own batch_states anyway; only what the normaliser takes in is batched by the module's. *)
Theorem C109_trpo_recurrent_partial {Ob F B N X} (state : X -> Ob) (experience : N -> B -> N) (normalise : N -> B -> B) (module_bs bs : (Ob -> F) -> list Ob -> B) phi n size k shuffled dataset l :
  (n = None \/ forall p s, bs p s = module_bs p s) -> trpo_update_recurrent state experience normalise module_bs bs phi n size k shuffled dataset = Ok l ->
  well_fed state experience normalise bs phi n (concat dataset) l /\ Forall (whole (concat dataset)) l.
Proof.
  intros S. unfold trpo_update_recurrent. destruct (update_normalizer _ _ _ _ _ _) as [e n'] eqn:U. destruct (rmapM _ _) as [bt|]; [|discriminate]. cbn [rbind]. intros E. apply ok_inj in E. subst l. split.
  - eapply well_fed_intro; [unfold update_normalizer in *; destruct n; [destruct S as [S | S]; [discriminate|rewrite S]|]; exact U|apply flatten_perm_some|]. rewrite Forall_app.
    split; [apply Forall_forall; intros x I; apply repeat_spec in I; subst x|apply Forall_map, Forall_forall; intros b _]; apply fed_input.
  - rewrite !Forall_app. split; [|split].
    + unfold update_normalizer in U. destruct n; injection U as <- _; repeat constructor.
    + apply Forall_forall. intros x I. apply repeat_spec in I. subst x. cbn [whole]. rewrite snd_input. apply concat_perm, sort_perm.
    + apply Forall_map, Forall_forall. intros b _. exact I.
Qed.
(** With a batch_states of its own, a TRPO agent computes policy and value function from inputs made by another function, and compares in its line search policies on different inputs. *)
Theorem C109_trpo_refuted : ~ (forall (state : nat -> nat) (experience : nat -> list nat -> nat) (normalise : nat -> list nat -> list nat) module_bs bs (phi : nat -> nat) n size epochs k perms dataset l,
  trpo_update state experience normalise module_bs bs phi n size epochs k perms dataset = Ok l -> well_fed state experience normalise bs phi n dataset l).
Proof.
  intros H. specialize (H (fun x => x) (fun n _ => n) (fun _ b => b) (fun phi l => map phi l) (fun phi l => map (fun x => 2 * phi x) l) (fun x => x) None 1 1 1 [[3]] [3] _ eq_refl). cbn in H.
  apply Forall_inv in H. specialize (H [3] [3] (or_introl eq_refl)). discriminate.
Qed.

(** Recurrent agents: the sequences of a batch come longest first, as packing requires. *)
Definition longest_first {B X} (e : @event B X) : Prop :=
  match e with Experience _ => True | Forward _ rows => forall i j a b, i < j -> nth_error rows i = Some a -> nth_error rows j = Some b -> length (snd b) <= length (snd a) end.
Lemma sorted_first {Y} : forall (l : list (list Y)) i j a b, sorted_desc l = true -> i < j -> nth_error l i = Some a -> nth_error l j = Some b -> length b <= length a.
Proof.
  assert (H : forall (l : list (list Y)) a j b, sorted_desc (a :: l) = true -> nth_error l j = Some b -> length b <= length a).
  { induction l as [|c l IH]; intros a j b S N; [destruct j; discriminate|]. cbn [sorted_desc] in S. apply andb_prop in S. destruct S as [S1 S2]. apply Nat.leb_le in S1. destruct j as [|j]; cbn in N; [injection N as <-; exact S1|]. pose proof (IH c j b S2 N). lia. }
  induction l as [|c l IH]; intros i j a b S L N1 N2; [destruct i; discriminate|]. destruct j as [|j]; [lia|]. destruct i as [|i]; cbn in N1, N2; [injection N1 as <-; exact (H l c j b S N2)|]. apply (IH i j a b); try assumption; [|lia]. destruct l as [|d l]; [reflexivity|]. cbn [sorted_desc] in S. now apply andb_prop in S.
Qed.
Lemma sorted_input {Ob F B N X} (state : X -> Ob) (normalise : N -> B -> B) (bs : (Ob -> F) -> list Ob -> B) phi n w l : longest_first (Forward w (map (input state normalise bs phi n) (sort_desc l))).
Proof.
  intros i j a b L N1 N2. apply (sorted_first (sort_desc l) i j (snd a) (snd b) (sort_sorted l) L); [apply (map_nth_error snd) in N1|apply (map_nth_error snd) in N2]; rewrite snd_input in *; assumption.
Qed.
Theorem C109_packing {Ob F B N X} (state : X -> Ob) (experience : N -> B -> N) (normalise : N -> B -> B) (module_bs bs : (Ob -> F) -> list Ob -> B) phi n size k shuffled dataset l :
  ppo_update_recurrent state experience normalise bs phi n size shuffled dataset = Ok l \/ trpo_update_recurrent state experience normalise module_bs bs phi n size k shuffled dataset = Ok l ->
  Forall longest_first l.
Proof.
  intros [E|E]; [unfold ppo_update_recurrent in E|unfold trpo_update_recurrent in E]; destruct (update_normalizer _ _ _ _ _ _) as [e n'] eqn:U;
    assert (Fe : Forall longest_first e) by (unfold update_normalizer in U; destruct n; injection U as <- _; repeat constructor).
  - destruct (passert _); [|discriminate]. cbn [rbind] in E. destruct (rmapM _ _) as [bt|]; [|discriminate]. cbn [rbind] in E. apply ok_inj in E. subst l. apply Forall_app. split; [exact Fe|]. apply Forall_map, Forall_forall. intros b _. apply sorted_input.
  - destruct (rmapM _ _) as [bt|]; [|discriminate]. cbn [rbind] in E. apply ok_inj in E. subst l. rewrite !Forall_app. split; [exact Fe|]. split.
    + apply Forall_forall. intros x I. apply repeat_spec in I. subst x. apply sorted_input.
    + apply Forall_map, Forall_forall. intros b _. apply sorted_input.
Qed.

(** A PPO iteration on two observations with a normaliser that counts what it takes in and subtracts the count; two epochs of one minibatch of two. *)
Example C109_ex_ppo : ppo_update (fun x : nat => x) (fun n (b : list nat) => n + length b) (fun n b => map (fun x => x - n) b) (fun phi l => map phi l) (fun x => 10 * x) (Some 1) 2 2 [[3; 4]; [4; 3]] [3; 4] =
  Ok [Experience [30; 40]; Forward Both [([27; 37], [3; 4])]; Forward Both [([37; 27], [4; 3])]].
Proof. reflexivity. Qed.
(** A TRPO iteration with a batch_states that doubles: the line search alone uses it. *)
Example C109_ex_trpo : trpo_update (fun x : nat => x) (fun (n : nat) (_ : list nat) => n) (fun _ b => b) (fun phi l => map phi l) (fun phi l => map (fun x => 2 * phi x) l) (fun x => x) None 2 1 1 [[4; 3]] [3; 4] =
  Ok [Forward Policy [([3; 4], [3; 4])]; Forward Policy [([3; 4], [3; 4])]; Forward Policy [([6; 8], [3; 4])]; Forward ValueFunction [([4; 3], [4; 3])]].
Proof. reflexivity. Qed.
(** A recurrent one, two sequences, with the module's batch_states. *)
Example C109_ex_recurrent : trpo_update_recurrent (fun x : nat => x) (fun n (b : list nat) => n + length b) (fun n b => map (fun x => x + n) b) (fun phi l => map phi l) (fun phi l => map phi l) (fun x => x) (Some 0) 3 0 [[[5]; [6; 7]]] [[5]; [6; 7]] =
  Ok [Experience [5; 6; 7]; Forward Policy [([9; 10], [6; 7]); ([8], [5])]; Forward Policy [([9; 10], [6; 7]); ([8], [5])]; Forward ValueFunction [([9; 10], [6; 7]); ([8], [5])]].
Proof. reflexivity. Qed.

Print Assumptions C109_ppo.
Print Assumptions C109_ppo_recurrent.
Print Assumptions C109_trpo_partial.
Print Assumptions C109_trpo_recurrent_partial.
Print Assumptions C109_trpo_refuted.
Print Assumptions C109_packing.
