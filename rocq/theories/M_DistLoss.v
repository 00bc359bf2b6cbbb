(** Model of the losses of the distributional agents as a whole: pfrl/agents/categorical_dqn.py:60-104, 147-204 (categorical_double_dqn.py only
    changes the target) and pfrl/agents/iqn.py:337-400.  Probabilities, returns and weights are rationals; the logarithm, and what is
    computed from it, is real.  Recurrent models, and the record of Q-values kept for get_statistics, are not modelled here. *)
From Coq Require Import QArith Reals Qreals.
From Verif Require Import Base M_Batch M_ActionValue M_Categorical M_Targets M_Losses.
Open Scope nat_scope.

Definition rsum (l : list R) : R := fold_right Rplus 0%R l.

(** categorical_dqn.py:184 -t * torch.log(torch.clamp(y, 1e-10, 1.0)), one row *)
Definition clip_at : Q := 1 # 10000000000.
Definition cat_eltwise (y t : list Q) : list R := zip_with (fun y t => (- Q2R t * ln (Q2R (clamp clip_at 1 y)))%R) y t.

(** categorical_dqn.py:60-76 *)
Definition cat_value_loss (eltwise_loss : list (list R)) (mean : bool) : R :=
  if mean then (rsum (map rsum eltwise_loss) / INR (length eltwise_loss))%R else rsum (map rsum eltwise_loss).
(** categorical_dqn.py:79-104 *)
Definition cat_weighted_value_loss (eltwise_loss : list (list R)) (batch_size : nat) (weights : list Q) (mean : bool) : R :=
  let loss_sum := rsum (zip_with (fun e w => (e * Q2R w)%R) (map rsum eltwise_loss) weights) in
  if mean then (loss_sum / INR batch_size)%R else loss_sum.

Section Losses.
  Context {S : Type}.

  (** categorical_dqn.py:147-177: the predicted distributions of the actions taken, and the targets.  [double]: CategoricalDoubleDQN *)
  Definition cat_y_and_t (double : bool) (model target_model : S -> list (list Q)) (z : list Q) (b : batch S nat) : result (list (list Q) * list (list Q)) :=
    y <- rmapM (fun p => evaluate_action_as_distribution (model (fst p)) (snd p)) (combine (b_state b) (b_action b)) ;;
    _ <- passert (forallb (fun row => length row =? length z) y) ;;
    t <- (if double then categorical_double_target model target_model z b else categorical_target target_model z b) ;;
    _ <- passert (forallb (fun row => length row =? length z) t) ;;
    Ok (y, t).

  (** categorical_dqn.py:179-204 _compute_loss; [weights] is exp_batch["weights"] if present, [errors_out] the caller's list if there is one:
      its contents are replaced *)
  Definition cat_compute_loss (double : bool) (model target_model : S -> list (list Q)) (z : list Q) (b : batch S nat) (weights : option (list Q)) (mean : bool) (errors_out : option (list R)) : result (R * option (list R)) :=
    ' (y, t) <- cat_y_and_t double model target_model z b ;;
    let eltwise_loss := zip_with cat_eltwise y t in
    let errors_out := match errors_out with Some _ => Some (map rsum eltwise_loss) | None => None end in
    let loss := match weights with Some ws => cat_weighted_value_loss eltwise_loss (length y) ws mean | None => cat_value_loss eltwise_loss mean end in
    Ok (loss, errors_out).

  (** iqn.py:337-372: the predicted quantiles of the actions taken at the drawn thresholds *)
  Definition iqn_predicted (model : S -> list Q -> list (list Q)) (taus : list (list Q)) (b : batch S nat) : result (list (list Q)) :=
    rmapM (fun p => let '(s, a, ts) := p in evaluate_action_as_quantiles (model s ts) a) (combine (combine (b_state b) (b_action b)) taus).

  (** eltwise_loss.mean((1, 2)) of one example *)
  Definition mean12 (ex : list (list Q)) : Q := M_ActionValue.mean (concat ex).

  (** iqn.py:374-400 _compute_loss; [taus] are the N drawn thresholds of every example, [taus_tilde] and [taus_prime] those used for the target *)
  Definition iqn_compute_loss (model target_model : S -> list Q -> list (list Q)) (n n' : nat) (taus taus_tilde taus_prime : list (list Q)) (b : batch S nat) (weights : option (list Q)) (mean : bool) (errors_out : option (list Q)) : result (Q * option (list Q)) :=
    y <- iqn_predicted model taus b ;;
    t <- iqn_target target_model taus_tilde taus_prime b ;;
    let eltwise_loss := zip_with (fun yt taus => eltwise_huber_quantile_loss (fst yt) (snd yt) taus) (combine y t) taus in
    let errors_out := match errors_out with Some _ => Some (map mean12 eltwise_loss) | None => None end in
    let loss := match weights with Some ws => iqn_weighted_value_loss eltwise_loss n' ws mean | None => iqn_value_loss eltwise_loss n n' mean end in
    Ok (loss, errors_out).
End Losses.
