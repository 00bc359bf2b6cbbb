(** Model of QuadraticActionValue: pfrl/action_value.py:232-324, one example of the batch at a time.  Floats are rationals.  Bounds that are
    Python numbers are one-element lists (254-266). *)
From Coq Require Import QArith Qminmax.
From Verif Require Import Base Vec.
Open Scope Q_scope.

Record quadratic := mkQuad { mu : vec; mat : list vec; v : Q; min_action : option vec; max_action : option vec }.

(** elementwise torch.max / torch.min of tensors of equal size *)
Fixpoint vmax (a b : vec) : vec := match a, b with x :: a, y :: b => Qmax x y :: vmax a b | _, _ => [] end.
Fixpoint vmin (a b : vec) : vec := match a, b with x :: a, y :: b => Qmin x y :: vmin a b | _, _ => [] end.
(** bound.unsqueeze(0).expand_as(a): a bound of size 1 is repeated; another size than a's is an error *)
Definition expand (b : vec) (n : nat) : result vec :=
  match b with
  | [x] => Ok (repeat x n)
  | _ => if (length b =? n)%nat then Ok b else Err RuntimeError
  end.

(** 269-276 *)
Definition greedy_actions (q : quadratic) : result vec :=
  let a := mu q in
  a <- match min_action q with None => Ok a | Some m => m <- expand m (length a) ;; Ok (vmax m a) end ;;
  match max_action q with None => Ok a | Some m => m <- expand m (length a) ;; Ok (vmin m a) end.

(** torch.matmul of a row vector with a matrix: entry j is the sum over i of x_i * mat_ij *)
Definition vecmat (x : vec) (m : list vec) : vec :=
  match m with
  | [] => []
  | r :: _ => map (fun j => vdot x (map (fun row => nth j row 0) m)) (seq 0 (length r))
  end.
(** 287-297 *)
Definition evaluate_actions (q : quadratic) (actions : vec) : Q :=
  let u_minus_mu := vsub actions (mu q) in
  let a := (- (1 # 2)) * vdot (vecmat u_minus_mu (mat q)) u_minus_mu in
  a + v q.
(** 278-285 *)
Definition max (q : quadratic) : result Q :=
  match min_action q, max_action q with
  | None, None => Ok (v q)
  | _, _ => a <- greedy_actions q ;; Ok (evaluate_actions q a)
  end.
(** 299-300 *)
Definition compute_advantage (q : quadratic) (actions : vec) : result Q := m <- max q ;; Ok (evaluate_actions q actions - m).
