(** Specification: RMSprop with eps inside the square root, as formulas over the history of gradients. *)
From Coq Require Import Reals.
From Verif Require Import Base S_PPOLoss S_RewardFilter M_RMSprop.
Open Scope R_scope.

(** The history of one parameter: its value, the gradients used so far (weight decay included), the normalised
    gradients so far. *)
Record hist := { h_x : R; h_used : list R; h_norm : list R }.

(** The mean square of the gradients used, recent ones weighing more: sum of (1 - alpha) alpha^(n-i) g_i^2; in the
    centered variant the corresponding variance. *)
Definition spread (c : group_cfg) (used : list R) : R :=
  if centered c then evar (1 - alpha c) used else weighted (1 - alpha c) (fun g => g * g) used.

(** sum of momentum^(n-i) u_i *)
Definition accumulated (m : R) (us : list R) : R :=
  total (fun i => m ^ (length us - 1 - i) * nth i us 0) (seq 0 (length us)).

Definition advance (c : group_cfg) (h : hist) (g : option R) : hist :=
  match g with
  | None => h
  | Some g =>
      let used := h_used h ++ [g + weight_decay c * h_x h] in
      let u := last used 0 / sqrt (spread c used + eps c) in
      let norm := h_norm h ++ [u] in
      {| h_x := h_x h - lr c * (if Rlt_dec 0 (momentum c) then accumulated (momentum c) norm else u);
         h_used := used; h_norm := norm |}
  end.
Definition follow (c : group_cfg) (x : R) (gs : list (option R)) : hist :=
  fold_left (advance c) gs {| h_x := x; h_used := []; h_norm := [] |}.
