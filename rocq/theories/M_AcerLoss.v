(** Model of ACER's loss: pfrl/agents/acer.py 16-117 and 459-552.
    Floats are rationals (no rounding, NaN or overflow).  exp(log p - log q) is p / q.  A Categorical distribution is the list of its
    probabilities; its logits, which torch normalises, are an argument, so that the same expressions read with derivatives of the logits give the
    gradient (all uses are linear in the logits). *)
From Coq Require Import QArith Qminmax.
From Verif Require Import Base.
Open Scope Q_scope.

Definition relu (x : Q) : Q := Qmax 0 x.
Definition qget (l : list Q) (i : nat) : Q := nth i l 0.
Definition qsum (l : list Q) : Q := fold_right Qplus 0 l.

(** 16-18: importance pi mu x = exp(pi.log_prob(x) - mu.log_prob(x)) *)
Definition importance (pi mu : list Q) (x : nat) : Q := qget pi x / qget mu x.

(** 30-49.  compute_full_importance (21-27) is called with mu and pi exchanged *)
Definition full_correction (pi mu logits q_values : list Q) (v thr : Q) : Q :=
  - qsum (map (fun a => relu (1 - thr * importance mu pi a) * qget pi a * qget logits a * (qget q_values a - v)) (seq 0 (length pi))).

(** 52-74; [b] is the action sampled from pi *)
Definition sample_correction (pi mu logits q_values : list Q) (v thr : Q) (b : nat) : result Q :=
  let rho_dash_inv := importance mu pi b in
  if negb (Qle_bool thr 0) && Qle_bool (1 / thr) rho_dash_inv then Ok 0
  else
    let correction_weight := Qmax 0 (1 - thr * rho_dash_inv) in
    _ <- passert (Qle_bool correction_weight 1) ;;
    Ok (- (correction_weight * qget logits b * (qget q_values b - v))).

(** 77-117; [discrete]: isinstance(action_distrib, Categorical); [b]: the action sampled by sample_correction.  For continuous actions the model
    covers distributions over finitely many actions, with probabilities in place of densities. *)
Definition policy_gradient_loss (discrete : bool) (action : nat) (advantage : Q) (pi : list Q) (mu : option (list Q)) (logits q_values : list Q)
    (v : Q) (thr : option Q) (b : nat) : result Q :=
  let log_prob := qget logits action in
  match mu with
  | Some mu =>
    let rho := importance pi mu action in
    match thr with
    | None => Ok (0 - rho * log_prob * advantage)
    | Some c =>
      let g := 0 - Qmin c rho * log_prob * advantage in
      corr <- (if discrete then Ok (full_correction pi mu logits q_values v c) else sample_correction pi mu logits q_values v c b) ;;
      Ok (g + corr)
    end
  | None => Ok (- log_prob * advantage)
  end.

(** ** The loop of compute_loss *)
(** One step: reward, float(v), float(Q) of the action taken, the importance weight of that action (1 on-policy), rho ** (1 / ba.numel()) (any root
    function), and what compute_one_step_pi_loss (429-466) returns for an advantage. *)
Record lstep := { l_r : Q; l_v : Q; l_q : Q; l_rho : Q; l_root : Q; l_pi : Q -> Q }.
Record lcfg := { l_gamma : Q; use_Q_opc : bool; l_discrete : bool; l_pi_coef : Q; l_Q_coef : Q; normalize_loss_by_steps : bool }.
(** [l_out]: for each step the target of Q, the advantage used, and the target of v if there is one. *)
Record lst := { pi_loss : Q; Q_loss : Q; Q_ret : Q; Q_opc : Q; l_out : list (Q * Q * option Q) }.

(** nn.functional.mse_loss on one number *)
Definition mse (x y : Q) : Q := (x - y) * (x - y).

(* 488-540 *)
Definition lbody (c : lcfg) (s : lst) (x : lstep) : lst :=
  let qr := l_r x + l_gamma c * Q_ret s in
  let qo := l_r x + l_gamma c * Q_opc s in
  let advantage := if use_Q_opc c then qo - l_v x else qr - l_v x in
  let pil := pi_loss s + l_pi x advantage in
  let ql := Q_loss s + mse qr (l_q x) / 2 in
  let v_target := Qmin 1 (l_rho x) * (qr - l_q x) + l_v x in
  let ql := if l_discrete c then ql else ql + mse v_target (l_v x) / 2 in
  let cc := if l_discrete c then Qmin 1 (l_rho x) else Qmin 1 (l_root x) in
  {| pi_loss := pil; Q_loss := ql; Q_ret := cc * (qr - l_q x) + l_v x; Q_opc := qo - l_q x + l_v x;
     l_out := (qr, advantage, if l_discrete c then None else Some v_target) :: l_out s |}.

(* 472-552, for steps given in the order of time *)
Definition compute_loss (c : lcfg) (R : Q) (steps : list lstep) : Q * list (Q * Q * option Q) :=
  let s := fold_left (lbody c) (rev steps) {| pi_loss := 0; Q_loss := 0; Q_ret := R; Q_opc := R; l_out := [] |} in
  let pil := pi_loss s * l_pi_coef c in
  let ql := Q_loss s * l_Q_coef c in
  let n := inject_Z (Z.of_nat (length steps)) in
  let pil := if normalize_loss_by_steps c then pil / n else pil in
  let ql := if normalize_loss_by_steps c then ql / n else ql in
  (pil + ql, l_out s).
