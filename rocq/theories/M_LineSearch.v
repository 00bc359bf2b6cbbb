(** Model of TRPO's line search: pfrl/agents/trpo.py:32-56 and 600-699.  A float that can be infinite or NaN is [fl]; the parameters themselves,
    the full step and step sizes are rationals (no rounding).  The values of the surrogate gain and of the KL divergence at given parameters are
    oracles, which may also depend on the number of the iteration.  A tensor is its list of entries in memory order, so reshape is the identity. *)
From Coq Require Import QArith.
From Verif Require Import Base Vec.
Open Scope nat_scope.

Inductive fl := Fin (q : Q) | PInf | NInf | NaN.
(** torch.isfinite *)
Definition isfinite (x : fl) : bool := match x with Fin _ => true | _ => false end.
(** IEEE subtraction *)
Definition fsub (x y : fl) : fl :=
  match x, y with
  | Fin a, Fin b => Fin (a - b)%Q
  | NaN, _ | _, NaN => NaN
  | PInf, PInf | NInf, NInf => NaN
  | PInf, _ | _, NInf => PInf
  | NInf, _ | _, PInf => NInf
  end.
(** x < y; false when either is NaN *)
Definition flt (x y : fl) : bool :=
  match x, y with
  | Fin a, Fin b => negb (Qle_bool b a)
  | NaN, _ | _, NaN => false
  | NInf, NInf | PInf, _ => false
  | NInf, _ | _, PInf => true
  | _, NInf => false
  end.

(** 32-34 *)
Definition flatten_and_concat_variables (vs : list vec) : vec := concat vs.
(** torch.split with a list of sizes *)
Fixpoint split (flat_v : vec) (sizes : list nat) : list vec :=
  match sizes with [] => [] | n :: sizes => firstn n flat_v :: split (skipn n flat_v) sizes end.
(** 51-56 _replace_params_data: param.data.copy_(new) for each parameter; the assertion compares shapes *)
Fixpoint replace_params_data (params new_params_data : list vec) : result (list vec) :=
  match params, new_params_data with
  | p :: params, n :: news => _ <- passert (length p =? length n) ;; rest <- replace_params_data params news ;; Ok (n :: rest)
  | _, _ => Ok params
  end.

Section LineSearch.
  Context (gain_at kl_at : nat -> list vec -> fl) (max_kl : Q) (line_search_max_backtrack : nat).
  (** what remains after the search: the policy's parameters, and the records kl_record and policy_step_size_record *)
  Record st := mkSt { policy_params : list vec; kl_record : list fl; step_size_record : list Q }.

  (** 655-699, from iteration [i] on with [n] iterations left; [gain] is the surrogate gain before the step *)
  Fixpoint search (n i : nat) (s : st) (sizes : list nat) (flat_params full_step : vec) (gain : fl) (step_size : Q) : result st :=
    match n with
    | 0 => (* the else clause of the for loop, 689-699 *)
        ps <- replace_params_data (policy_params s) (split flat_params sizes) ;;
        Ok (mkSt ps (kl_record s) (step_size_record s ++ [0%Q]))
    | S n =>
        let new_flat_params := vadd flat_params (vscale step_size full_step) in
        ps <- replace_params_data (policy_params s) (split new_flat_params sizes) ;;
        let new_gain := gain_at i ps in
        let new_kl := kl_at i ps in
        let improve := fsub new_gain gain in
        let s := mkSt ps (kl_record s) (step_size_record s) in
        if negb (isfinite new_gain) then search n (S i) s sizes flat_params full_step gain (step_size * (1 # 2))%Q
        else if negb (isfinite new_kl) then search n (S i) s sizes flat_params full_step gain (step_size * (1 # 2))%Q
        else if flt improve (Fin 0%Q) then search n (S i) s sizes flat_params full_step gain (step_size * (1 # 2))%Q
        else if flt (Fin max_kl) new_kl then search n (S i) s sizes flat_params full_step gain (step_size * (1 # 2))%Q
        else Ok (mkSt ps (kl_record s ++ [new_kl]) (step_size_record s ++ [step_size]))
    end.

  Definition line_search (s : st) (full_step : vec) (gain : fl) : result st :=
    let sizes := map (@length Q) (policy_params s) in
    search (S line_search_max_backtrack) 0 s sizes (flatten_and_concat_variables (policy_params s)) full_step gain 1%Q.
End LineSearch.
