(** Specification of an A3C worker, in terms of the calls made and what they let out. *)
From Coq Require Import QArith Qpower.
From Verif Require Import Base S_PPO M_A3C.
Open Scope nat_scope.

Section Spec.
  Context {Ob Act P RS : Type}.
  Notation upd := (upd Ob Act P RS).
  Notation out := (out Ob Act P RS).
  Notation ev := (ev Ob Act P).

  (** An action that was chosen: parameters, recurrent state and observation it was sampled from. *)
  Record choice := { c_params : P; c_rs : option RS; c_obs : Ob; c_act : Act }.
  Record tstep := { s_choice : choice; s_reward : Q }.

  (** The return of step i of a segment: its rewards from i on, discounted, plus the discounted value of the state reached at its end. *)
  Definition n_step_return (g : Q) (rewards : list Q) (boot : Q) (i : nat) : Q :=
    (discounted_sum g (fun k => nth (i + k) rewards 0%Q) (length rewards - i) + Qpower g (Z.of_nat (length rewards - i)) * boot)%Q.

  Definition nQ (n : nat) : Q := inject_Z (Z.of_nat n).
  (** keep_loss_scale_same multiplies by t_max / n, normalize_grad_by_t_max divides by n, n being the number of steps. *)
  Definition loss_factor (c : cfg) (coef : Q) (n : nat) : Q :=
    (coef * (if keep_loss_scale_same c then nQ (t_max c) / nQ n else 1) * (if normalize_grad_by_t_max c then 1 / nQ n else 1))%Q.

  (** An update made from a segment of steps; [boot] is the value of the state reached. *)
  Definition update_from (c : cfg) (seg : list tstep) (boot : Q) (u : upd) : Prop :=
    u_inputs u = map (fun s => (c_rs (s_choice s), c_obs (s_choice s))) seg /\
    Forall (fun s => c_params (s_choice s) = u_params u) seg /\
    u_actions u = map (fun s => c_act (s_choice s)) seg /\
    length (u_returns u) = length seg /\
    (forall i, i < length seg -> (nth i (u_returns u) 0 == n_step_return (gamma c) (map s_reward seg) boot i)%Q) /\
    (u_pi_factor u == loss_factor c (pi_loss_coef c) (length seg))%Q /\ (u_v_factor u == loss_factor c (v_loss_coef c) (length seg))%Q.

  (** What an observer of the calls knows: the mode, the action just chosen, the steps since the last update, the parameters used for acting, the
      shared parameters, and the recurrent state of the training episode and of the evaluation episode. *)
  Record view := { v_training : bool; v_chosen : option choice; v_seg : list tstep; v_params : P; v_shared : P; v_rs : option RS; v_test_rs : option RS }.
  Definition view0 (p : P) : view := {| v_training := true; v_chosen := None; v_seg := []; v_params := p; v_shared := p; v_rs := None; v_test_rs := None |}.

  (** [explained v es os]: the outputs [os] of the calls [es] are as they should be.  In a recurrent agent the recurrent state is what the network
      returned at the previous action of the same episode, and None at the first action of an episode.
      A segment ends with its t_max-th step or with the end (or reset) of the episode. *)
  Fixpoint explained (N : net Ob P RS) (opt : P -> upd -> P) (c : cfg) (v : view) (es : list ev) (os : list out) : Prop :=
    match es, os with
    | [], [] => True
    | SetTraining b :: es, o :: os => o = Nothing /\
      explained N opt c {| v_training := b; v_chosen := v_chosen v; v_seg := v_seg v; v_params := v_params v; v_shared := v_shared v; v_rs := v_rs v; v_test_rs := v_test_rs v |} es os
    | Others p :: es, o :: os => o = Nothing /\
      explained N opt c {| v_training := v_training v; v_chosen := v_chosen v; v_seg := v_seg v; v_params := v_params v; v_shared := p; v_rs := v_rs v; v_test_rs := v_test_rs v |} es os
    | CallAct ob a :: es, o :: os =>
      if v_training v then
        o = Chose (v_params v) (v_rs v) ob /\
        explained N opt c {| v_training := true; v_chosen := Some {| c_params := v_params v; c_rs := v_rs v; c_obs := ob; c_act := a |}; v_seg := v_seg v;
                             v_params := v_params v; v_shared := v_shared v;
                             v_rs := if recurrent c then Some (advance N (v_params v) (v_rs v) ob) else None; v_test_rs := v_test_rs v |} es os
      else
        o = Chose (v_params v) (v_test_rs v) ob /\
        explained N opt c {| v_training := false; v_chosen := v_chosen v; v_seg := v_seg v; v_params := v_params v; v_shared := v_shared v; v_rs := v_rs v;
                             v_test_rs := if recurrent c then Some (advance N (v_params v) (v_test_rs v) ob) else None |} es os
    | CallObserve ob r done reset :: es, o :: os =>
      if v_training v then
        exists ch, v_chosen v = Some ch /\
        let seg := v_seg v ++ [{| s_choice := ch; s_reward := r |}] in
        let rs := if done || reset then None else v_rs v in
        if (length seg =? t_max c) || done || reset then
          exists u, o = Updated u /\
            update_from c seg (if done then 0%Q else value N (v_params v) (v_rs v) ob) u /\
            explained N opt c {| v_training := true; v_chosen := None; v_seg := []; v_params := opt (v_shared v) u; v_shared := opt (v_shared v) u; v_rs := rs; v_test_rs := v_test_rs v |} es os
        else o = Nothing /\
          explained N opt c {| v_training := true; v_chosen := None; v_seg := seg; v_params := v_params v; v_shared := v_shared v; v_rs := rs; v_test_rs := v_test_rs v |} es os
      else o = Nothing /\
        explained N opt c {| v_training := false; v_chosen := v_chosen v; v_seg := v_seg v; v_params := v_params v; v_shared := v_shared v; v_rs := v_rs v;
                             v_test_rs := if done || reset then None else v_test_rs v |} es os
    | _, _ => False
    end.

  (** Training calls alternate: act, observe, act, observe, ...; evaluation calls come anywhere. *)
  Fixpoint alternating (training acted : bool) (es : list ev) : Prop :=
    match es with
    | [] => True
    | SetTraining b :: es => alternating b acted es
    | Others _ :: es => alternating training acted es
    | CallAct _ _ :: es => if training then acted = false /\ alternating training true es else alternating training acted es
    | CallObserve _ _ _ _ :: es => if training then acted = true /\ alternating training false es else alternating training acted es
    end.
End Spec.
Arguments choice : clear implicits.
Arguments tstep : clear implicits.
Arguments view : clear implicits.
