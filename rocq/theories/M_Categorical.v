(** Model of the categorical projection and of the categorical DQN targets: pfrl/agents/categorical_dqn.py:7-57, 107-145 and
    pfrl/agents/categorical_double_dqn.py:10-52.  One example of the batch at a time: [offset] in the code only separates the examples in
    the flattened tensor.  Floats are rationals. *)
From Coq Require Import QArith Qminmax Qround.
From Verif Require Import Base M_Batch M_ActionValue.
Open Scope nat_scope.

(** torch.clamp(x, lo, hi) = min(max(x, lo), hi) *)
Definition clamp (lo hi x : Q) : Q := Qmin (Qmax x lo) hi.

(** scatter_add_: m[i] += v for the pairs in order; an index out of range raises *)
Fixpoint add_at (m : list Q) (i : nat) (v : Q) : result (list Q) :=
  match m, i with
  | [], _ => Err RuntimeError
  | x :: t, 0 => Ok ((x + v)%Q :: t)
  | x :: t, S i => t' <- add_at t i v ;; Ok (x :: t')
  end.
Fixpoint scatter_add (m : list Q) (ivs : list (Z * Q)) : result (list Q) :=
  match ivs with
  | [] => Ok m
  | (i, v) :: rest => _ <- (if (i <? 0)%Z then Err RuntimeError else Ok tt) ;; m <- add_at m (Z.to_nat i) v ;; scatter_add m rest
  end.

(** categorical_dqn.py:7-57 _apply_categorical_projection.  delta_z = 0 (division by zero gives nan or inf in torch) is outside the model. *)
Definition apply_categorical_projection (y y_probs z : list Q) : result (list Q) :=
  let n_atoms := length y in
  _ <- passert (length z =? n_atoms) ;;
  _ <- passert (length y_probs =? n_atoms) ;;
  z1 <- py_get z 1 ;; z0 <- py_get z 0 ;;
  let delta_z := (z1 - z0)%Q in
  let v_min := z0 in
  v_max <- py_get z (-1) ;;
  let y := map (clamp v_min v_max) y in
  let bj := map (fun y => (y - v_min) / delta_z)%Q y in
  let bj := map (clamp 0 (inject_Z (Z.of_nat n_atoms - 1))) bj in
  let l := map Qfloor bj in
  let u := map Qceiling bj in
  let z_probs := repeat 0%Q n_atoms in
  z_probs <- scatter_add z_probs (combine l (map (fun p => let '(pr, b, l) := p in pr * (1 - (b - inject_Z l)))%Q (combine (combine y_probs bj) l))) ;;
  scatter_add z_probs (combine u (map (fun p => let '(pr, b, l) := p in pr * (b - inject_Z l))%Q (combine (combine y_probs bj) l))).

Section Targets.
  Context {S A : Type}.
  (** Tz of one example *)
  Definition shifted_atoms (r d tm : Q) (z : list Q) : list Q := map (fun z => r + (1 - tm) * d * z)%Q z.

  (** the rows of the batch, one projection each *)
  Definition project_rows (b : batch S A) (dists : list (list Q)) (z : list Q) : result (list (list Q)) :=
    rmapM (fun p => let '(r, d, tm, dist) := p in apply_categorical_projection (shifted_atoms r d tm z) dist z)
      (combine (combine (combine (b_reward b) (b_discount b)) (b_terminal b)) dists).

  (** categorical_dqn.py:114-145 *)
  Definition categorical_target (target_model : S -> list (list Q)) (z : list Q) (b : batch S A) : result (list (list Q)) :=
    next <- rmapM (fun q => max_as_distribution q z) (map target_model (b_next_state b)) ;;
    project_rows b next z.

  (** categorical_double_dqn.py:10-52 *)
  Definition categorical_double_target (model target_model : S -> list (list Q)) (z : list Q) (b : batch S A) : result (list (list Q)) :=
    greedy <- rmapM (fun q => argmax (dist_q_values q z)) (map model (b_next_state b)) ;;
    next <- rmapM (fun p => evaluate_action_as_distribution (fst p) (snd p)) (combine (map target_model (b_next_state b)) greedy) ;;
    project_rows b next z.
End Targets.
