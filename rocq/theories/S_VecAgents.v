(** Specification for C118 and C119: the transitions of an episode as the replay buffer and the on-policy agents store them. *)
From Coq Require Import QArith.
From Verif Require Import Base M_ReplayBuffer M_OffPolicy M_PPO M_VecLoop S_VecLoop.
Close Scope Q_scope. Open Scope nat_scope.

Section Spec.
Context {O A : Type}.

(** Off-policy agents: state, action, reward, next state, is_state_terminal. *)
Definition off_transition (x : vstep O A) : trans (M_OffPolicy.transition O A Q) :=
  mkTrans (mkT (s_obs x) (s_action x) (s_reward x) (s_next x) (s_done x)) (s_done x).
(** The calls of the replay buffer among the calls of the agent. *)
Definition buffer_calls (events : list (M_OffPolicy.event O A Q)) : list (rb_op (M_OffPolicy.transition O A Q)) :=
  flat_map (fun e => match e with Append i x => [RAppend i (mkTrans x (tr_terminal x))] | StopEpisode i => [RStop i] | _ => [] end) events.

(** On-policy agents: the same with "nonterminal" as a number. *)
Definition ppo_transition (x : vstep O A) : M_PPO.transition O A :=
  {| t_state := s_obs x; t_action := s_action x; t_reward := s_reward x; t_next_state := s_next x; t_nonterminal := if s_done x then 0%Q else 1%Q |}.
(** A contiguous piece. *)
Definition piece {T} (x l : list T) : Prop := exists a b, l = a ++ x ++ b.
End Spec.
