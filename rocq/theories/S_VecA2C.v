(** Specification for C133: what an update of A2C has to be, given the steps made since the previous update. *)
From Coq Require Import QArith Qpower.
From Verif Require Import Base M_A2C M_VecLoop S_VecLoop S_PPO M_VecA2C.
Close Scope Q_scope. Open Scope nat_scope.

Section Spec.
Context {O A Pl : Type}.
Definition ended_at (steps : list (vstep O A)) (k : nat) : bool := match nth_error steps k with Some z => ended z | None => false end.
Definition reward_of (steps : list (vstep O A)) (k : nat) : Q := match nth_error steps k with Some z => s_reward z | None => 0%Q end.

(** The return of step [j] of one environment's [steps], with the predicted [values] and the value [boot] of the observation reached last: the discounted sum of the rewards up to the first end of an
    episode (terminal or cut), or up to the last step and then the discounted value.  With GAE: the predicted value and the discounted sum of the TD errors up to there. *)
Definition right_return (use_gae : bool) (gamma tau : Q) (steps : list (vstep O A)) (values : list Q) (boot : Q) (j : nat) (x : Q) : Prop :=
  let v k := nth k (values ++ [boot]) 0%Q in
  let delta k := (reward_of steps k + gamma * (if ended_at steps k then 0 else v (S k)) - v k)%Q in
  let target m := if use_gae then (v j + discounted_sum (gamma * tau) (fun l => delta (j + l)%nat) m)%Q else discounted_sum gamma (fun l => reward_of steps (j + l)) m in
  (forall e, j <= e -> ended_at steps e = true -> (forall k, j <= k < e -> ended_at steps k = false) -> (x == target (S (e - j))%nat)%Q) /\
  ((forall k, j <= k < length steps -> ended_at steps k = false) ->
     (x == target (length steps - j)%nat + if use_gae then 0 else Qpower gamma (Z.of_nat (length steps - j)) * boot)%Q).

(** A chunk: the rounds since the previous update, each with the values predicted for its observations. *)
Notation chunk := (list (list (vstep O A) * list Q)).
Definition reached (c : chunk) : list O := map s_next (fst (last c ([], []))).
(** The update sees the observations before the steps, the observation reached last, the actions; and for every environment [i] and step [j] the right return, with the value that the model as it
    is at this moment gives to the observation reached last. *)
Definition right_lesson (use_gae : bool) (gamma tau : Q) (n : nat) (value : option (list O) -> Pl -> list Q) (c : chunk) (l : lesson O A Pl) : Prop :=
  r_states (l_rollout l) = map (fun m => Some (map s_obs (fst m))) c ++ [Some (reached c)] /\
  r_actions (l_rollout l) = map (fun m => Some (map s_action (fst m))) c /\
  length (l_returns l) = n /\
  forall i, i < n -> exists R, nth_error (l_returns l) i = Some R /\ length R = length c /\
    forall j x, nth_error R j = Some x -> right_return use_gae gamma tau (column i (map fst c)) (map (fun m => nth i (snd m) 0%Q) c) (nth i (value (Some (reached c)) (l_policy l)) 0%Q) j x.
End Spec.
