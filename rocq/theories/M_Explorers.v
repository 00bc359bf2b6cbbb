(** Model of pfrl/explorers.  Floats are exact rationals; random numbers are arguments. *)
From Coq Require Export QArith Qminmax.
From Verif Require Import Base.
Close Scope Q_scope.
Open Scope nat_scope.

Definition Qltb (a b : Q) : bool := negb (Qle_bool b a).
Definition unit_interval (x : Q) : bool := Qle_bool 0 x && Qle_bool x 1.

(** epsilon_greedy.py:8-12; [u] is np.random.rand(), the functions are called lazily. *)
Definition select_action_epsilon_greedily {A} (epsilon u : Q) (random_action greedy_action : unit -> A) : A * bool :=
  if Qltb u epsilon then (random_action tt, false) else (greedy_action tt, true).

(** 53-76: LinearDecayEpsilonGreedy. *)
Definition linear_init (start_eps end_eps : Q) (decay_steps : nat) : result unit :=
  _ <- passert (unit_interval start_eps) ;; passert (unit_interval end_eps).
Definition linear_epsilon (start_eps end_eps : Q) (decay_steps t : nat) : result Q :=
  if decay_steps <? t then Ok end_eps
  else if decay_steps =? 0 then Err ZeroDivisionError
  else Ok (start_eps + (end_eps - start_eps) * (inject_Z (Z.of_nat t) / inject_Z (Z.of_nat decay_steps)))%Q.

(** 102-121: ExponentialDecayEpsilonGreedy. *)
Definition exponential_init (start_eps end_eps decay : Q) : result unit :=
  _ <- passert (unit_interval start_eps) ;; _ <- passert (unit_interval end_eps) ;; passert (Qltb 0 decay && Qltb decay 1).
Definition exponential_epsilon (start_eps end_eps decay : Q) (t : nat) : result Q :=
  Ok (Qmax (start_eps * Qpower decay (Z.of_nat t)) end_eps)%Q.

(** 25-33, 78-86, 123-131: the three select_action; [epsilon t] is the schedule (constant for ConstantEpsilonGreedy).
    The new value of the attribute epsilon is returned as well. *)
Definition select_action {A} (epsilon : nat -> result Q) (t : nat) (u : Q) (random_action greedy_action : unit -> A) : result (Q * A) :=
  eps <- epsilon t ;; Ok (eps, fst (select_action_epsilon_greedily eps u random_action greedy_action)).

(** additive_gaussian.py:27-33 with scalar (or None) bounds, elementwise; [noise] is the sample. np.clip with bounds. *)
Definition clip (low high : option Q) (x : Q) : Q :=
  let x := match low with Some l => Qmax x l | None => x end in match high with Some h => Qmin x h | None => x end.
Definition additive_gaussian (low high : option Q) (a noise : list Q) : list Q :=
  map (fun '(x, e) => match low, high with None, None => x + e | _, _ => clip low high (x + e) end)%Q (combine a noise).

(** additive_ou.py:37-57, one component; the state is ou_state; [z] is the normal sample of this call, already scaled by sigma
    (or by sigma_stable and shifted by mu for the first call without start_with_mu). *)
Definition additive_ou (mu theta : Q) (start_with_mu : bool) (s : option Q) (a z : Q) : option Q * Q :=
  let s' := match s with
            | None => if start_with_mu then mu else z
            | Some x => (x + (theta * (mu - x) + z))%Q
            end in (Some s', (a + s')%Q).
