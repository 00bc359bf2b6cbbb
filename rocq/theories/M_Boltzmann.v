(** Model of pfrl/explorers/boltzmann.py:8-27 (Boltzmann), with the action values it receives from pfrl/agents/dqn.py:488-505 (DQN.batch_act)
    and pfrl/agents/state_q_function_actor.py:76-91.
    Values are exact real numbers.  numpy.random.choice(arange(n), p) is as numpy documents and implements it: one uniform sample [u] of
    [0, 1), searchsorted(side="right") in the normalised cumulative sums of p. *)
From Coq Require Import Reals.
From Verif Require Import Base M_Batch.
Open Scope R_scope.

(** What an agent hands over: nothing (DDPG, TD3), a DiscreteActionValue or the subclass QuantileDiscreteActionValue with its q_values (one row
    per observation), or an action value of a class that does not derive from DiscreteActionValue, such as DistributionalDiscreteActionValue
    (action_value.py:97; its q_values are the means of its return distributions) *)
Inductive action_value := NoValue | Discrete (q_values : list (list R)) | Distributional (q_values : list (list R)).

Definition sumR (l : list R) : R := fold_right Rplus 0 l.
(** torch.softmax(row, -1) (its subtraction of the maximum does not change the exact result) *)
Definition softmax (row : list R) : list R := map (fun x => exp x / sumR (map exp row)) row.

(** numpy: cdf = p.cumsum(); cdf /= cdf[-1]; searchsorted(cdf, u, side="right") counts the entries <= u *)
Fixpoint cumsum (acc : R) (p : list R) : list R := match p with [] => [] | x :: p => (acc + x) :: cumsum (acc + x) p end.
Definition searchsorted_right (cdf : list R) (u : R) : nat := length (filter (fun c => if Rle_dec c u then true else false) cdf).
Definition choice (n : nat) (p : list R) (u : R) : result nat :=
  if Nat.eqb (length p) n
  then let cdf := cumsum 0 p in Ok (searchsorted_right (map (fun c => c / last cdf 0) cdf) u)
  else Err ValueError.

(** 18-27.  T = 0 makes every row contain NaN, which numpy.random.choice rejects with a ValueError. *)
Definition select_action (T : R) (av : action_value) (u : R) : result nat :=
  match av with
  | NoValue | Distributional _ => Err AssertionError
  | Discrete rows =>
      match rows with
      | [] => Err ValueError (* p is empty but arange(n) is not *)
      | r :: _ =>
          let probs := concat (map (fun row => softmax (map (fun q => q / T) row)) rows) in
          if Req_EM_T T 0 then Err ValueError else choice (length r) probs u
      end
  end.

(** action_value[i : i + 1] *)
Definition av_slice (av : action_value) (i : nat) : action_value :=
  match av with
  | NoValue => NoValue
  | Discrete rows => Discrete (firstn 1 (skipn i rows))
  | Distributional rows => Distributional (firstn 1 (skipn i rows))
  end.
(** dqn.py:495-502: one explorer call per observation, each with its own slice and its own uniform sample *)
Definition batch_explore (T : R) (av : action_value) (us : list R) : result (list nat) :=
  rmapM (fun p => select_action T (av_slice av (fst p)) (snd p)) (combine (seq 0 (length us)) us).
