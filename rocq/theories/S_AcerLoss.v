(** Specification of ACER's targets and policy gradient. *)
From Coq Require Import QArith Qminmax.
From Verif Require Import Base S_PPO M_AcerLoss.
Open Scope Q_scope.

(** Expectation of f over the actions 0 .. length p - 1 with probabilities p. *)
Definition expect (p : list Q) (f : nat -> Q) : Q := fold_right (fun a acc => nth a p 0 * f a + acc) 0 (seq 0 (length p)).

Section Targets.
  Variable gamma R : Q.
  Variable n : nat.
  Variable r v q c : nat -> Q.   (* rewards, state values, action values and trace coefficients at the n steps; R the value after the last *)
  (** Temporal difference of step j: reward plus discounted value of the next state, minus the action value. *)
  Definition td (j : nat) : Q := r j + gamma * (if (S j =? n)%nat then R else v (S j)) - q j.
  (** c (i+1) * ... * c (i+m) *)
  Definition trace (i m : nat) : Q := fold_right (fun k acc => c k * acc) 1 (seq (S i) m).
  (** Retrace: Q_i plus the discounted and traced temporal differences from i on. *)
  Definition retrace (i : nat) : Q := q i + discounted_sum gamma (fun m => trace i m * td (i + m)) (n - i).
End Targets.
