(** Model of pfrl/experiments/hooks.py:27-58 [LinearInterpolationHook].  Exact rationals for floats. *)
From Verif Require Import Base.
From Coq Require Export QArith.
Open Scope Q_scope.
Open Scope nat_scope.

Definition qltb (x y : Q) : bool := negb (Qle_bool y x).

(** numpy's search for the interval (binary_search_with_guess, linear for at most 4 points): -1 left of all points, length right
    of all points, otherwise the last i with xp[i] <= x counted from the front.  [scan] is the linear search from position i. *)
Fixpoint scan (x : Q) (rest : list Q) (i : nat) : nat :=
  match rest with
  | [] => i - 1
  | p :: t => if Qle_bool p x then scan x t (S i) else i - 1
  end.

(** np.interp(x, xp, fp) for at least two points (numpy's arr_interp), default left and right values. *)
Definition interp (x : Q) (xp fp : list Q) : Q :=
  let n := length xp in
  if qltb (last xp 0%Q) x then last fp 0%Q
  else if qltb x (hd 0%Q xp) then hd 0%Q fp
  else
    let j := scan x (tl xp) 1 in
    if j =? n - 1 then nth j fp 0%Q
    else if Qeq_bool (nth j xp 0%Q) x then nth j fp 0%Q
    else
      let slope := ((nth (S j) fp 0 - nth j fp 0) / (nth (S j) xp 0 - nth j xp 0))%Q in
      (slope * (x - nth j xp 0) + nth j fp 0)%Q.

(** hooks.py:48-52 the constructor's fields (the setter is what receives the value). *)
Record hook := mkHook { total_steps : nat; start_value : Q; stop_value : Q }.

(** hooks.py:54-58 [__call__]: the value handed to the setter. *)
Definition hook_value (h : hook) (step : nat) : Q :=
  interp (inject_Z (Z.of_nat step)) [1%Q; inject_Z (Z.of_nat (total_steps h))] [start_value h; stop_value h].

(** The values set during a training run: the loops call each hook once per step with the step number, beginning with 1
    (pfrl/experiments/train_agent.py:50-62). *)
Definition hook_run (h : hook) (steps : nat) : list Q := map (hook_value h) (seq 1 steps).
