(** Model of the heads of pfrl/q_functions/dueling_dqn.py: from the outputs of the advantage stream and the value
    stream to action values.  The convolutions and the streams themselves are outside: their outputs are inputs
    here.  Floats are rationals; torch.exp inside softmax is a function given as an argument. *)
From Coq Require Import QArith.
From Verif Require Import Base Vec.
Open Scope Q_scope.

Fixpoint qtotal (l : vec) : Q := match l with [] => 0 | x :: t => x + qtotal t end.
Definition qnat (n : nat) : Q := inject_Z (Z.of_nat n).

(** dueling_dqn.py:54-63, one row of the batch: [ya] has [n_actions] entries, [ys] is the state value. *)
Definition dueling (n_actions : nat) (ya : vec) (ys : Q) : vec :=
  let mean := qtotal ya / qnat n_actions in
  let ya := map (fun a => a - mean) ya in
  map (fun a => a + ys) ya.

(** 106-129, one row of the batch: [ya] has [n_actions] rows of [n_atoms] entries, [ys] has [n_atoms] entries.
    [ya.sum(dim=1)]: the sum over the actions, atom by atom. *)
Fixpoint sum_rows (n_atoms : nat) (ya : list vec) : vec :=
  match ya with [] => vzero n_atoms | r :: t => vadd r (sum_rows n_atoms t) end.
(** F.softmax over the last dimension *)
Definition softmax (ex : Q -> Q) (l : vec) : vec := map (fun x => ex x / qtotal (map ex l)) l.
Definition dueling_dist (ex : Q -> Q) (n_actions n_atoms : nat) (ya : list vec) (ys : vec) : list vec :=
  let mean := vscale (/ qnat n_actions) (sum_rows n_atoms ya) in
  let ya := map (fun r => vsub r mean) ya in
  map (fun r => softmax ex (vadd r ys)) ya.
(** 89: torch.linspace(v_min, v_max, n_atoms) *)
Definition linspace (v_min v_max : Q) (n_atoms : nat) : vec :=
  map (fun i => v_min + qnat i * ((v_max - v_min) / qnat (n_atoms - 1))) (seq 0 n_atoms).
(** action_value.py: DistributionalDiscreteActionValue, the value of an action is the mean of its distribution *)
Definition dist_value (z p : vec) : Q := vdot p z.
