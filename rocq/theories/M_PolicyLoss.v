(** The losses of the policies of DDPG, TD3 and SAC and of SAC's temperature, as numbers computed from the sampled actions: ddpg.py:168-180, td3.py:233-241, soft_actor_critic.py:264-292.
    Simplification: exact real numbers; statistics left out (the updates made with these losses are in M_ActorCritic.v). *)
From Coq Require Import Reals.
From Verif Require Import Base M_Boltzmann.
Open Scope R_scope.

(** torch.mean of a flat tensor *)
Definition mean (l : list R) : R := sumR l / INR (length l).
(** ddpg.py:173-174, td3.py:238-241: -mean(q); [qs]: the critic's (TD3: the first critic's) values of the sampled actions *)
Definition neg_q_loss (qs : list R) : R := - mean qs.
(** soft_actor_critic.py:279-288: mean(temperature * log_prob - min(q1, q2)) *)
Definition soft_policy_loss (temperature : R) (log_prob q1 q2 : list R) : R :=
  mean (map (fun p => let '(lp, a, b) := p in temperature * lp - Rmin a b) (combine (combine log_prob q1) q2)).
(** soft_actor_critic.py:24-40, 264-266: -mean(exp(log_temperature) * (log_prob + entropy_target)) *)
Definition temperature_loss (log_temperature : R) (log_prob : list R) (entropy_target : R) : R := - mean (map (fun lp => exp log_temperature * (lp + entropy_target)) log_prob).
