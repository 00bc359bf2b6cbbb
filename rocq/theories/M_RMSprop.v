(** Model of pfrl/optimizers/rmsprop_eps_inside_sqrt.py.  Floats are real numbers.  Every tensor operation of the
    step is elementwise, so a parameter is represented by one entry; a gradient is [None] or that entry's value.
    Sparse gradients (23-24) and the closure (14-16) are left out. *)
From Coq Require Import Reals.
From Verif Require Import Base.
Open Scope R_scope.

(** The options of a parameter group. *)
Record group_cfg := { alpha : R; eps : R; lr : R; momentum : R; centered : bool; weight_decay : R }.

(** self.state[p]: the empty dictionary is [None]. *)
Record pstate := { st_step : nat; square_avg : R; momentum_buffer : option R; grad_avg : option R }.
Record param := { p_data : R; p_state : option pstate }.

(** 28-34, 77-83 *)
Definition init_state (c : group_cfg) : pstate :=
  {| st_step := 0; square_avg := 0;
     momentum_buffer := if Rlt_dec 0 (momentum c) then Some 0 else None;
     grad_avg := if centered c then Some 0 else None |}.

(** 41-42 *)
Definition decayed (c : group_cfg) (p g : R) : R := if Req_EM_T (weight_decay c) 0 then g else g + weight_decay c * p.

(** 18-62 for one parameter; a key missing from the state is a KeyError *)
Definition step (c : group_cfg) (p : param) (g : option R) : result param :=
  match g with
  | None => Ok p
  | Some g =>
      let st := match p_state p with None => init_state c | Some st => st end in
      let g := decayed c (p_data p) g in
      let sq := square_avg st * alpha c + (1 - alpha c) * (g * g) in
      ' (ga, avg) <- (if centered c
                      then match grad_avg st with
                           | None => Err KeyError
                           | Some ga => let ga := ga * alpha c + (1 - alpha c) * g in
                                        Ok (Some ga, sqrt (sq - ga * ga + eps c))
                           end
                      else Ok (grad_avg st, sqrt (sq + eps c))) ;;
      ' (buf, d) <- (if Rlt_dec 0 (momentum c)
                     then match momentum_buffer st with
                          | None => Err KeyError
                          | Some b => let b := b * momentum c + g / avg in Ok (Some b, - lr c * b)
                          end
                     else Ok (momentum_buffer st, - lr c * (g / avg))) ;;
      Ok {| p_data := p_data p + d;
            p_state := Some {| st_step := S (st_step st); square_avg := sq; momentum_buffer := buf; grad_avg := ga |} |}
  end.

(** A new parameter in RMSpropEpsInsideSqrt (lazy state) and in SharedRMSpropEpsInsideSqrt (67-83, state at once) *)
Definition new_lazy (x : R) : param := {| p_data := x; p_state := None |}.
Definition new_shared (c : group_cfg) (x : R) : param := {| p_data := x; p_state := Some (init_state c) |}.

(** The optimizer's parameters: groups with their options, each with its parameters in order; [gs] has the gradients
    in the same shape. *)
Fixpoint step_params (c : group_cfg) (ps : list param) (gs : list (option R)) : result (list param) :=
  match ps, gs with
  | p :: ps, g :: gs => p <- step c p g ;; ps <- step_params c ps gs ;; Ok (p :: ps)
  | _, _ => Ok ps
  end.
Fixpoint step_groups (l : list (group_cfg * list param)) (gs : list (list (option R))) : result (list (group_cfg * list param)) :=
  match l, gs with
  | (c, ps) :: l, g :: gs => ps <- step_params c ps g ;; l <- step_groups l gs ;; Ok ((c, ps) :: l)
  | _, _ => Ok l
  end.

Fixpoint run (c : group_cfg) (p : param) (gs : list (option R)) : result param :=
  match gs with [] => Ok p | g :: t => p <- step c p g ;; run c p t end.
Fixpoint run_groups (l : list (group_cfg * list param)) (gss : list (list (list (option R)))) : result (list (group_cfg * list param)) :=
  match gss with [] => Ok l | gs :: t => l <- step_groups l gs ;; run_groups l t end.
