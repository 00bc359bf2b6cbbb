(** Schedules with the arithmetic of the machine: the linear decay of epsilon (pfrl/explorers/epsilon_greedy.py:42-76)
    and the annealing of beta (pfrl/replay_buffers/prioritized.py:28-40, 65) in IEEE binary64.

    Simplified: step counts are integers; Python's quotient of two integers is the rounded quotient, which is what [Bdiv]
    computes from the two numbers as long as both are binary64 numbers (up to 2^53 all integers are); beyond that the
    model rounds them first. *)
From Coq Require Import ZArith.
From Flocq Require Import Core IEEE754.BinarySingleNaN.
From Verif Require Import Base M_FloatTree.
Open Scope Z_scope.

Notation fadd := (@Bplus 53 1024 b64_prec b64_emax mode_NE).
Notation fsub := (@Bminus 53 1024 b64_prec b64_emax mode_NE).
Notation fmul := (@Bmult 53 1024 b64_prec b64_emax mode_NE).
Notation fdiv := (@Bdiv 53 1024 b64_prec b64_emax mode_NE).
Notation fltb := (@Bltb 53 1024).
(** The float of an integer. *)
Definition of_Z (z : Z) : binary64 := binary_normalize 53 1024 b64_prec b64_emax mode_NE z 0 false.

(** epsilon_greedy.py:71-76 [LinearDecayEpsilonGreedy.compute_epsilon] *)
Definition linear64 (start_eps end_eps : binary64) (decay_steps t : Z) : result binary64 :=
  if decay_steps <? t then Ok end_eps
  else if decay_steps =? 0 then Err ZeroDivisionError
  else let diff := fsub end_eps start_eps in
       Ok (fadd start_eps (fmul diff (fdiv (of_Z t) (of_Z decay_steps)))).

(** epsilon_greedy.py:8-12: whether the action is random; [u] is np.random.rand() *)
Definition explores64 (epsilon u : binary64) : bool := fltb u epsilon.

(** prioritized.py:35-38 *)
Definition beta_add64 (beta0 : binary64) (betasteps : option Z) : result binary64 :=
  match betasteps with
  | None => Ok (of_Z 0)
  | Some n => if n =? 0 then Err ZeroDivisionError else Ok (fdiv (fsub (of_Z 1) beta0) (of_Z n))
  end.
(** prioritized.py:65, min(1.0, beta + beta_add) *)
Definition next_beta64 (add beta : binary64) : binary64 :=
  let b := fadd beta add in if fltb b (of_Z 1) then b else of_Z 1.
(** beta after k calls of [sample] *)
Definition beta64 (beta0 : binary64) (betasteps : option Z) (k : nat) : result binary64 :=
  add <- beta_add64 beta0 betasteps ;; Ok (Nat.iter k (next_beta64 add) beta0).
