(** Model of the head of FCQuadraticStateQFunction (pfrl/q_functions/state_q_functions.py:18-23, 198-219) and of
    pfrl/functions/lower_triangular_matrix.py, one example of the batch at a time.  The layers are outside: their
    outputs are inputs here.  Floats are rationals; torch.exp and torch.tanh are functions given as arguments. *)
From Coq Require Import QArith.
From Verif Require Import Base Vec M_Quadratic.
Open Scope Q_scope.

(** numpy.tril_indices(n, -1): positions below the diagonal, row by row; numpy.diag_indices(n) *)
Definition tril_indices (n : nat) : list (nat * nat) := flat_map (fun i => map (fun j => (i, j)) (seq 0 i)) (seq 0 n).
Definition diag_indices (n : nat) : list (nat * nat) := map (fun i => (i, i)) (seq 0 n).

Definition set_at (m : list vec) (ij : nat * nat) (x : Q) : list vec :=
  list_set m (fst ij) (list_set (nth (fst ij) m []) (snd ij) x).
Fixpoint set_all (m : list vec) (idx : list (nat * nat)) (vals : vec) : list vec :=
  match idx, vals with ij :: idx, x :: vals => set_all (set_at m ij x) idx vals | _, _ => m end.
(** array[rows, cols] = vals: a single value is repeated; another number of values than positions is an error *)
Definition assign (m : list vec) (idx : list (nat * nat)) (vals : vec) : result (list vec) :=
  if (length vals =? length idx)%nat then Ok (set_all m idx vals)
  else match vals with
       | [x] => Ok (set_all m idx (repeat x (length idx)))
       | _ => Err RuntimeError
       end.

(** lower_triangular_matrix.py:5-28 *)
Definition lower_triangular_matrix (diag non_diag : vec) : result (list vec) :=
  let n := length diag in
  let y := repeat (repeat 0 n) n in
  y <- assign y (tril_indices n) non_diag ;;
  assign y (diag_indices n) diag.

(** torch.matmul(a, transpose(a)): entry (i, j) is the product of rows i and j *)
Definition times_transpose (a : list vec) : list vec := map (fun r => map (fun s => vdot r s) a) a.

(** state_q_functions.py:18-23 *)
Fixpoint scale_by_tanh (th : Q -> Q) (x low high : vec) : vec :=
  match x, low, high with
  | x :: xs, l :: ls, h :: hs => (th x * ((h - l) / 2) + (h + l) / 2) :: scale_by_tanh th xs ls hs
  | _, _, _ => []
  end.

(** 198-219.  [mu], [mat_diag], [mat_non_diag] are the outputs of the layers of those names; the layer mat_non_diag
    exists from two action dimensions on (188-192). *)
Definition quad_head (ex th : Q -> Q) (scale_mu : bool) (low high : vec) (vv : Q) (mu mat_diag mat_non_diag : vec) : result quadratic :=
  let mu := if scale_mu then scale_by_tanh th mu low high else mu in
  let mat_diag := map ex mat_diag in
  mat <- (if (1 <? length mat_diag)%nat
          then tril <- lower_triangular_matrix mat_diag mat_non_diag ;; Ok (times_transpose tril)
          else Ok (map (fun x => [x * x]) mat_diag)) ;;
  Ok (mkQuad mu mat vv (Some low) (Some high)).
