(** Model of the loss of PPO (ppo.py:28-33, 631-672), of its standardisation of advantages (ppo.py:472-493 and 533-560, 606-630) and of
    _compute_explained_variance (ppo.py:181-193).  Floats are real numbers; tensors of shape (batch, 1) are lists.  Networks are outside: their outputs
    are inputs here. *)
From Coq Require Import Reals.
From Verif Require Import Base.
Open Scope R_scope.

Fixpoint rsum (l : list R) : R := match l with [] => 0 | x :: t => x + rsum t end.
(** torch.mean, numpy.mean of a non-empty tensor *)
Definition rmean (l : list R) : R := rsum l / INR (length l).
Fixpoint map2 {A B C} (f : A -> B -> C) (a : list A) (b : list B) : list C := match a, b with x :: a, y :: b => f x y :: map2 f a b | _, _ => [] end.
Fixpoint map3 {A B C D} (f : A -> B -> C -> D) (a : list A) (b : list B) (c : list C) : list D :=
  match a, b, c with x :: a, y :: b, z :: c => f x y z :: map3 f a b c | _, _, _ => [] end.

(** torch.clamp(x, lo, hi): min(max(x, lo), hi) *)
Definition clamp (lo hi x : R) : R := Rmin (Rmax x lo) hi.
(** 28-33 *)
Definition elementwise_clip (x x_min x_max : R) : R := Rmin (Rmax x x_min) x_max.
Definition sqerr (a b : R) : R := (a - b) * (a - b).

Record ppo_cfg := { clip_eps : R; clip_eps_vf : option R; value_func_coef : R; entropy_coef : R }.

(** 631-672 *)
Definition policy_term (c : ppo_cfg) (log_prob log_prob_old adv : R) : R :=
  let prob_ratio := exp (log_prob - log_prob_old) in
  Rmin (prob_ratio * adv) (clamp (1 - clip_eps c) (1 + clip_eps c) prob_ratio * adv).
Definition value_term (c : ppo_cfg) (v_pred v_pred_old v_teacher : R) : R :=
  match clip_eps_vf c with
  | None => sqerr v_pred v_teacher
  | Some e => Rmax (sqerr v_pred v_teacher) (sqerr (elementwise_clip v_pred (v_pred_old - e) (v_pred_old + e)) v_teacher)
  end.
Definition lossfun (c : ppo_cfg) (entropy vs_pred log_probs vs_pred_old log_probs_old advs vs_teacher : list R) : R :=
  let loss_policy := - rmean (map3 (policy_term c) log_probs log_probs_old advs) in
  let loss_value_func := rmean (map3 (value_term c) vs_pred vs_pred_old vs_teacher) in
  let loss_entropy := - rmean entropy in
  loss_policy + value_func_coef c * loss_value_func + entropy_coef c * loss_entropy.

(** torch.std_mean(all_advs, unbiased=False) *)
Definition rvar (l : list R) : R := rmean (map (fun x => (x - rmean l) * (x - rmean l)) l).
Definition rstd (l : list R) : R := sqrt (rvar l).

(** 472-474, 490-493: statistics of the whole dataset, applied to each minibatch *)
Definition standardize (std mean : R) (advs : list R) : list R := map (fun a => (a - mean) / (std + / 100000000)) advs.
Definition minibatch_advs (standardize_advantages : bool) (all_advs batch : list R) : result (list R) :=
  Ok (if standardize_advantages then standardize (rstd all_advs) (rmean all_advs) batch else batch).
(** 533-560 with the statistics of 617-622: the assertion of line 534 *)
Definition minibatch_advs_recurrent (standardize_advantages : bool) (all_advs batch : list R) : result (list R) :=
  if standardize_advantages then
    _ <- (if Rlt_dec 0 (rstd all_advs) then Ok tt else Err AssertionError) ;;
    Ok (standardize (rstd all_advs) (rmean all_advs) batch)
  else Ok batch.

(** 181-193; None: nan *)
Definition explained_variance (t y : list R) : option R :=
  let vart := rvar t in
  if Req_EM_T vart 0 then None else Some (1 - rvar (map2 Rminus t y) / vart).
