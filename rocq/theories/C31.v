(** C31: generalized advantage estimation and value targets. *)
From Coq Require Import QArith Qpower Lqa.
From Verif Require Import Base P_Base M_PPO S_PPO P_PPO.
Open Scope nat_scope.

(** The temporal-difference error of step k: r + gamma * nonterminal * V(next) - V. *)
Definition tde (gamma : Q) (ep : list gae_in) (k : nat) : Q :=
  match nth_error ep k with Some x => (g_reward x + gamma * g_nonterminal x * g_next_v x - g_v x)%Q | None => 0%Q end.

(** One (advantage, target) per transition; the advantage is the sum over the rest of the stored episode of (gamma lambda)^l times the
    temporal-difference errors, the target is the advantage plus the predicted value. *)
Theorem C31_gae (gamma lambd : Q) (ep : list gae_in) : length (gae gamma lambd ep) = length ep /\
  forall t x, nth_error ep t = Some x -> exists adv target, nth_error (gae gamma lambd ep) t = Some (adv, target) /\
    (adv == discounted_sum (gamma * lambd) (fun l => tde gamma ep (t + l)) (length ep - t))%Q /\ (target == adv + g_v x)%Q.
Proof.
  split; [apply gae_len|]. intros t x H. rewrite gae_rec. destruct (grec_nth gamma lambd ep t x H) as (r & H1 & H2).
  exists (fst (grec gamma lambd 0 (skipn t ep))), r. split; [exact H1|]. split; [|rewrite H2; reflexivity].
  rewrite grec_sum, skipn_length. apply dsum_ext. intros l _. rewrite delta_skipn. unfold delta, tde, td_err. destruct (nth_error ep (t + l)); reflexivity.
Qed.

(** A stored episode: only its last transition may be terminal, and the value of a next state is the value of the following state. *)
Definition coherent (ep : list gae_in) : Prop :=
  forall k a b, nth_error ep k = Some a -> nth_error ep (S k) = Some b -> (g_nonterminal a == 1 /\ g_next_v a == g_v b)%Q.

(** With lambda = 1 the target is the discounted sum of the rewards to the end plus the discounted bootstrap value (0 if terminal). *)
Theorem C31_lambda_one (gamma : Q) (ep : list gae_in) t x z : coherent ep -> nth_error ep t = Some x -> nth_error ep (length ep - 1) = Some z ->
  exists adv target, nth_error (gae gamma 1 ep) t = Some (adv, target) /\
    (target == discounted_sum gamma (fun l => match nth_error ep (t + l) with Some y => g_reward y | None => 0 end) (length ep - t)
               + Qpower gamma (Z.of_nat (length ep - t)) * g_nonterminal z * g_next_v z)%Q.
Proof.
  intros C H Hz. rewrite gae_rec. destruct (grec_nth gamma 1 ep t x H) as (r & H1 & H2). exists (fst (grec gamma 1 0 (skipn t ep))), r. split; [exact H1|]. rewrite H2.
  assert (Ht : t < length ep) by (apply nth_error_Some; congruence).
  assert (E : exists l, skipn t ep = x :: l). { clear - H. revert t H. induction ep as [|y ep IH]; intros [|t] H; try discriminate; [injection H as <-; cbn; eauto|]. cbn in *. auto. }
  destruct E as (l & E). rewrite (grec1_target gamma (skipn t ep) x l E) with (z := z).
  - rewrite skipn_length. apply Qplus_comp; [|reflexivity]. apply dsum_ext. intros k _. rewrite nth_error_skipn'. reflexivity.
  - intros k a b Ha Hb. rewrite nth_error_skipn' in Ha, Hb. apply (C (t + k) a b Ha). rewrite <- Hb. f_equal. lia.
  - rewrite nth_error_skipn', skipn_length. rewrite <- Hz. f_equal. lia.
Qed.

(** Episodes do not influence one another. *)
Theorem C31_per_episode (gamma lambd : Q) (eps : list (list gae_in)) i ep : nth_error eps i = Some ep -> nth_error (gae_episodes gamma lambd eps) i = Some (gae gamma lambd ep).
Proof. intros H. unfold gae_episodes. now apply map_nth_error. Qed.

(** A three-step terminal episode: rewards 1, 2, 4, values 10, 20, 30, gamma = 1/2; lambda = 1/2 and lambda = 1. *)
Definition ex_ep : list gae_in :=
  [ {| g_reward := 1; g_nonterminal := 1; g_v := 10; g_next_v := 20 |};
    {| g_reward := 2; g_nonterminal := 1; g_v := 20; g_next_v := 30 |};
    {| g_reward := 4; g_nonterminal := 0; g_v := 30; g_next_v := 99 |} ].
Example C31_coherent : coherent ex_ep.
Proof. intros [|[|[|k]]] a b Ha Hb; cbn in *; try (destruct k; discriminate); try discriminate; injection Ha as <-; injection Hb as <-; split; reflexivity. Qed.
Example C31_half : map (fun p => (Qred (fst p), Qred (snd p))) (gae (1#2) (1#2) ex_ep) = [((-11#8)%Q, (69#8)%Q); ((-19#2)%Q, (21#2)%Q); ((-26#1)%Q, (4#1)%Q)].
Proof. vm_compute. reflexivity. Qed.
Example C31_one : map (fun p => Qred (snd p)) (gae (1#2) 1 ex_ep) = [(3#1)%Q; (4#1)%Q; (4#1)%Q].
Proof. vm_compute. reflexivity. Qed.

Print Assumptions C31_gae.
Print Assumptions C31_lambda_one.
Print Assumptions C31_per_episode.
