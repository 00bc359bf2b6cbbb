(** Specification for C141: the direction in which an update of A3C moves a parameter of the policy. *)
From Coq Require Import Reals QArith Qreals.
From Verif Require Import Base M_A3C S_ValueIteration S_Unbiased S_PolicyGradient.
Close Scope Q_scope. Open Scope nat_scope.

(** What a worker is told of an episode *)
Definition worker_calls {P} (l : list step) : list (ev nat nat P) := flat_map (fun x => [CallAct (at_state x) (took x); CallObserve (reached x) (earned x) (ended x) false]) l.
(** A worker of a feedforward agent between two segments, in training mode *)
Definition between_segments {P RS} (w : st nat nat P RS) : Prop := training w = true /\ t w = t_start w /\ train_rs w = None /\ test_rs w = None.

Section Update.
Context {P RS : Type} (N : net nat P RS) (opt : P -> upd nat nat P RS -> P) (c : cfg) (beta : R) (score : nat -> nat -> R) (dH : nat -> R).
(** The negative derivative of the policy loss of an update (a3c.py:187-206): factor * sum of (return - predicted value) * log-probability + beta * entropy *)
Fixpoint policy_terms (p : P) (inputs : list (option RS * nat)) (actions : list nat) (returns : list Q) : R :=
  match inputs, actions, returns with
  | (rs, o) :: inputs, a :: actions, G :: returns => ((Q2R G - Q2R (value N p rs o)) * score o a + beta * dH o + policy_terms p inputs actions returns)%R
  | _, _, _ => 0%R
  end.
Definition policy_direction (u : upd nat nat P RS) : R := (Q2R (u_pi_factor u) * policy_terms (u_params u) (u_inputs u) (u_actions u) (u_returns u))%R.
(** That of all the updates made while the worker [w] goes through the episode [l] *)
Definition updates_of (os : list (out nat nat P RS)) : list (upd nat nat P RS) := flat_map (fun o => match o with Updated u => [u] | _ => [] end) os.
Definition worker_move (w : st nat nat P RS) (l : list step) : R :=
  match runs N opt c w (worker_calls l) with
  | Ok (_, os) => fold_right (fun u acc => (policy_direction u + acc)%R) 0%R (updates_of os)
  | Err _ => 0%R
  end.
End Update.

(** The discounted sum of the rewards of an episode; how often state [k] is visited, and the same discounted *)
Fixpoint discounted (g : R) (l : list step) : R := match l with [] => 0%R | x :: l => (Q2R (earned x) + g * discounted g l)%R end.
Fixpoint visits (g : R) (k : nat) (l : list step) : R := match l with [] => 0%R | x :: l => ((if at_state x =? k then 1 else 0) + g * visits g k l)%R end.
