(** Model of pfrl/functions/bound_by_tanh.py:4-22, pfrl/nn/bound_by_tanh.py:5-14 (with pfrl/nn/lmbda.py), pfrl/distributions/delta.py:7-62 and pfrl/policies/deterministic_policy.py:7-11.
    Tensors are lists of rows of exact real numbers; the bounds have one element per element of a row (other broadcasts are not modelled).  Independent(d, 1) only says which dimensions make
    up one action. *)
From Coq Require Import Reals.
From Verif Require Import Base.
Open Scope R_scope.

(** functions/bound_by_tanh.py:15-22; None stands for a bound that is None. *)
Definition bound1 (x low high : R) : R := let scale := (high - low) / 2 in let loc := (high + low) / 2 in tanh x * scale + loc.
Fixpoint bound_row (x low high : list R) : result (list R) :=
  match x, low, high with
  | [], [], [] => Ok []
  | a :: x, l :: low, h :: high => r <- bound_row x low high ;; Ok (bound1 a l h :: r)
  | _, _, _ => Err RuntimeError
  end.
Fixpoint bound_rows (x : list (list R)) (low high : list R) : result (list (list R)) :=
  match x with [] => Ok [] | r :: x => y <- bound_row r low high ;; ys <- bound_rows x low high ;; Ok (y :: ys) end.
Definition bound_by_tanh (x : list (list R)) (low high : option (list R)) : result (list (list R)) :=
  match low, high with Some low, Some high => bound_rows x low high | _, _ => Err AssertionError end.

(** Delta: delta.py:22-62, of a batch of rows.  sample and rsample expand the location over the sample shape: that many copies of it. *)
Definition delta := list (list R).
Definition delta_mean (d : delta) : list (list R) := d.
Definition delta_stddev (d : delta) : list (list R) := map (map (fun _ => 0)) d.
Definition delta_sample (d : delta) (n : nat) : list (list (list R)) := repeat d n.
(** expand to a batch of [n] times the rows *)
Definition delta_expand (d : delta) (n : nat) : list delta := repeat d n.
Definition delta_log_prob (d : delta) (value : list (list R)) : result (list R) := Err RuntimeError.
Definition delta_entropy (d : delta) : result (list R) := Err RuntimeError.
(** deterministic_policy.py:10-11 *)
Definition deterministic_head (loc : list (list R)) : delta := loc.

(** nn.Sequential(net, BoundByTanh(low, high), DeterministicHead()), and n samples of it. *)
Definition bounded_policy (net : list (list R) -> list (list R)) (low high : list R) (obs : list (list R)) (n : nat) : result (list (list (list R))) :=
  loc <- bound_by_tanh (net obs) (Some low) (Some high) ;; Ok (delta_sample (deterministic_head loc) n).
