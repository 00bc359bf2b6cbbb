(** Specification of the losses of distributional agents. *)
From Coq Require Import QArith Reals Qreals.
From Verif Require Import Base S_Targets S_Losses.
Open Scope nat_scope.

Definition distribution (n : nat) (p : list Q) : Prop := length p = n /\ Forall (fun q => (0 <= q)%Q) p /\ (S_Targets.total p == 1)%Q.

Definition Rtotal (l : list R) : R := fold_right Rplus 0%R l.

(** Cross entropy of a prediction y with respect to t, where probabilities below 10^-10 count as 10^-10; and entropy. *)
Definition cross_entropy (t y : list Q) : R := Rtotal (map (fun j => (- (Q2R (nth j t 0%Q) * ln (Rmax (Q2R (nth j y 0%Q)) (/ 10 ^ 10))))%R) (seq 0 (length t))).
Definition entropy (t : list Q) : R := Rtotal (map (fun j => let p := nth j t 0%Q in if Qeq_bool p 0 then 0%R else (- (Q2R p * ln (Q2R p)))%R) (seq 0 (length t))).

(** the value for a batch whose examples contribute [contrib] *)
Definition Rreduced (mean : bool) (contrib : list R) : R := if mean then (Rtotal contrib / INR (length contrib))%R else Rtotal contrib.
Definition Rweighted (weights : option (list Q)) (contrib : list R) : list R :=
  match weights with None => contrib | Some ws => map (fun p => (fst p * Q2R (snd p))%R) (combine contrib ws) end.
Definition weighted (weights : option (list Q)) (contrib : list Q) : list Q :=
  match weights with None => contrib | Some ws => map (fun p => (fst p * snd p)%Q) (combine contrib ws) end.

(** [e] is the average over all pairs of a predicted and a target quantile of their Huber loss, where predictions below the target are
    weighted by their threshold and predictions above by one minus it. *)
Definition pair_loss (tau y t v : Q) : Prop := exists l, loss_of true y t l /\ ((y <= t)%Q -> (v == tau * l)%Q) /\ ((t < y)%Q -> (v == (1 - tau) * l)%Q).
Definition quantile_error (taus y t : list Q) (e : Q) : Prop := exists vs,
  Forall2 (fun ty row => Forall2 (fun t v => pair_loss (fst ty) (snd ty) t v) t row) (combine taus y) vs /\
  (e == S_Losses.total (map S_Losses.total vs) / (number (length y) * number (length t)))%Q.
