(** Specification of value losses. *)
From Coq Require Import QArith Qabs.
From Verif Require Import Base.
Open Scope Q_scope.

(** [l] is the loss of predicting y when the target is t: half the squared error, or the Huber loss if errors are to be clipped *)
Definition loss_of (clip : bool) (y t l : Q) : Prop :=
  if clip then (Qabs (y - t) <= 1 -> l == (y - t) * (y - t) / 2) /\ (1 <= Qabs (y - t) -> l == Qabs (y - t) - (1 # 2))
  else l == (y - t) * (y - t) / 2.
Definition total (l : list Q) : Q := fold_right Qplus 0 l.
Definition number (n : nat) : Q := inject_Z (Z.of_nat n).
(** the value for a batch whose examples contribute [contrib] *)
Definition reduced (mean : bool) (contrib : list Q) : Q := if mean then total contrib / number (length contrib) else total contrib.
