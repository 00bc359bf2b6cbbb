(** Model of the value losses: dqn.py:44-104, categorical_dqn.py:60-104, iqn.py:176-257.  Floats are rationals; gradients are not modelled. *)
From Coq Require Import QArith Qabs.
From Verif Require Import Base M_ActionValue.
Open Scope Q_scope.

(** torch.nn.functional.smooth_l1_loss with its default beta = 1, elementwise *)
Definition smooth_l1 (y t : Q) : Q :=
  let d := Qabs (y - t) in if Qle_bool 1 d then d - (1 # 2) else (1 # 2) * d * d.
(** torch.nn.functional.mse_loss(...) / 2, elementwise *)
Definition half_mse (y t : Q) : Q := (y - t) * (y - t) / 2.
Definition eltwise (clip_delta : bool) : Q -> Q -> Q := if clip_delta then smooth_l1 else half_mse.

Definition len (n : nat) : Q := inject_Z (Z.of_nat n).
Fixpoint zip_with {A B C} (f : A -> B -> C) (l : list A) (l' : list B) : list C :=
  match l, l' with a :: l, b :: l' => f a b :: zip_with f l l' | _, _ => [] end.

(** dqn.py:44-69 compute_value_loss; [mean] is batch_accumulator == "mean" (otherwise "sum"; anything else is rejected by an assertion) *)
Definition compute_value_loss (y t : list Q) (clip_delta mean : bool) : Q :=
  let losses := zip_with (eltwise clip_delta) y t in
  if mean then sum losses / len (length losses) else sum losses.

(** dqn.py:72-104 compute_weighted_value_loss *)
Definition compute_weighted_value_loss (y t weights : list Q) (clip_delta mean : bool) : Q :=
  let losses := zip_with (eltwise clip_delta) y t in
  let loss_sum := sum (zip_with Qmult losses weights) in
  if mean then loss_sum / len (length y) else loss_sum.

(** dqn.py:445-452 errors_out: the absolute errors *)
Definition td_errors (y t : list Q) : list Q := zip_with (fun a b => Qabs (a - b)) y t.

(** categorical_dqn.py:60-76 and 79-104; [eltwise_loss] has a row of atom losses per example *)
Definition categorical_value_loss (eltwise_loss : list (list Q)) (mean : bool) : Q :=
  if mean then sum (map sum eltwise_loss) / len (length eltwise_loss) else sum (map sum eltwise_loss).
Definition categorical_weighted_value_loss (eltwise_loss : list (list Q)) (batch_size : nat) (weights : list Q) (mean : bool) : Q :=
  let loss_sum := sum (zip_with Qmult (map sum eltwise_loss) weights) in
  if mean then loss_sum / len batch_size else loss_sum.

(** iqn.py:176-208, for one example: [y], [taus] of length N, [t] of length N'; the result is an N x N' matrix *)
Definition huber_quantile (tau y t : Q) : Q :=
  Qabs (tau - (if Qle_bool y t then 0 else 1)) * smooth_l1 y t.
Definition eltwise_huber_quantile_loss (y t taus : list Q) : list (list Q) := zip_with (fun y tau => map (huber_quantile tau y) t) y taus.

(** iqn.py:211-231: sum over (batch, N) of the means over N'; "mean": eltwise_loss.mean((0, 2)).sum(), i.e. for each of the N rows the sum over
    batch and N' divided by batch_size * N' , then summed.  All examples have the same N and N'. *)
Definition row_at (i : nat) (ex : list (list Q)) : list Q := nth i ex [].
Definition iqn_value_loss (eltwise_loss : list (list (list Q))) (n n' : nat) (mean : bool) : Q :=
  if mean
  then sum (map (fun i => sum (map (fun ex => sum (row_at i ex)) eltwise_loss) / (len (length eltwise_loss) * len n')) (seq 0 n))
  else sum (map (fun ex => sum (map (fun row => sum row / len n') ex)) eltwise_loss).
(** iqn.py:234-257 *)
Definition iqn_weighted_value_loss (eltwise_loss : list (list (list Q))) (n' : nat) (weights : list Q) (mean : bool) : Q :=
  let loss_sum := sum (zip_with Qmult (map (fun ex => sum (map (fun row => sum row / len n') ex)) eltwise_loss) weights) in
  if mean then loss_sum / len (length eltwise_loss) else loss_sum.
