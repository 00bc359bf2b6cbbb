(** Model of the discrete action values: pfrl/action_value.py:45-229.  One example of the batch at a time (every operation there acts on
    each example separately); floats are rationals. *)
From Coq Require Import QArith.
From Verif Require Import Base.
Open Scope nat_scope.

(** torch.argmax along the action axis: the first index of a largest entry; raises for an empty axis.  (torch does not promise which of
    several largest entries is taken; no property below depends on it.) *)
Fixpoint argmax_from (i best : nat) (m : Q) (l : list Q) : nat :=
  match l with [] => best | x :: t => if Qle_bool x m then argmax_from (S i) best m t else argmax_from (S i) i x t end.
Definition argmax (l : list Q) : result nat := match l with [] => Err IndexError | x :: t => Ok (argmax_from 1 0 x t) end.

(** torch.gather / indexing with a non-negative index. *)
Definition gather {X} (l : list X) (i : nat) : result X := match nth_error l i with Some x => Ok x | None => Err RuntimeError end.

(** * DiscreteActionValue (45-94).  [q_values] of one example. *)
(* 60-62 *)
Definition greedy_action (q_values : list Q) : result nat := argmax q_values.
(* 69-71 *)
Definition evaluate_action (q_values : list Q) (a : nat) : result Q := gather q_values a.
(* 64-67 *)
Definition max (q_values : list Q) : result Q := a <- greedy_action q_values ;; gather q_values a.
(* 73-74 *)
Definition compute_advantage (q_values : list Q) (a : nat) : result Q := q <- evaluate_action q_values a ;; m <- max q_values ;; Ok (q - m)%Q.
(* 76-77 *)
Definition compute_double_advantage (q_values : list Q) (a argmax_a : nat) : result Q :=
  q <- evaluate_action q_values a ;; m <- evaluate_action q_values argmax_a ;; Ok (q - m)%Q.

Fixpoint sum (l : list Q) : Q := match l with [] => 0%Q | x :: t => (x + sum t)%Q end.

(** * DistributionalDiscreteActionValue (97-181): [q_dist] is a list over actions of lists over atoms. *)
(* 115-116: the scalar q_values *)
Fixpoint dot (p z : list Q) : Q := match p, z with a :: p, b :: z => (a * b + dot p z)%Q | _, _ => 0%Q end.
Definition dist_q_values (q_dist : list (list Q)) (z_values : list Q) : list Q := map (fun p => dot p z_values) q_dist.
(* 130-140 max_as_distribution *)
Definition max_as_distribution (q_dist : list (list Q)) (z_values : list Q) : result (list Q) :=
  a <- argmax (dist_q_values q_dist z_values) ;; gather q_dist a.
(* 145-156 *)
Definition evaluate_action_as_distribution (q_dist : list (list Q)) (a : nat) : result (list Q) := gather q_dist a.

(** * QuantileDiscreteActionValue (184-229): [quantiles] is a list over taus of lists over actions.  All rows have the same length. *)
Definition column (quantiles : list (list Q)) (a : nat) : list Q := map (fun row => nth a row 0%Q) quantiles.
Definition n_actions (quantiles : list (list Q)) : nat := match quantiles with [] => 0 | row :: _ => length row end.
Definition mean (l : list Q) : Q := (sum l / inject_Z (Z.of_nat (length l)))%Q.
(* 197-199: quantiles.mean(1) *)
Definition quantile_q_values (quantiles : list (list Q)) : list Q := map (fun a => mean (column quantiles a)) (seq 0 (n_actions quantiles)).
(* 201-211 *)
Definition evaluate_action_as_quantiles (quantiles : list (list Q)) (a : nat) : result (list Q) :=
  if a <? n_actions quantiles then Ok (column quantiles a) else Err IndexError.
