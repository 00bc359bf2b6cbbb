(** Specification of A2C's updates. *)
From Coq Require Import QArith Qpower.
From Verif Require Import Base M_A2C S_PPO.
Open Scope nat_scope.

(** 1 for a step that goes on, 0 for a step that ends the episode. *)
Definition mask_of (ended : bool) : Q := if ended then 0%Q else 1%Q.

Section Rollout.
  Context {Ob Act : Type}.
  (** One step of all environments. *)
  Record step := { s_obs : list Ob; s_acts : list Act; s_values : list Q; s_next : list Ob; s_rewards : list Q; s_ended : list bool }.
  Record ref := { chosen : option (list Ob * list Act * list Q); steps : list step }.
  Definition ref_init : ref := {| chosen := None; steps := [] |}.

  (** An update sees the steps made since the previous update, in order, and the observation reached at the end. *)
  Definition rollout_of (l : list step) (last : list Ob) : rollout Ob Act :=
    {| r_states := map (fun s => Some (s_obs s)) l ++ [Some last]; r_actions := map (fun s => Some (s_acts s)) l;
       r_rewards := map (fun s => Some (s_rewards s)) l; r_masks := map (fun s => Some (map mask_of (s_ended s))) l;
       r_values := map (fun s => Some (s_values s)) l |}.

  (** One update after every [update_steps] steps. *)
  Definition ref_call (update_steps : nat) (p : ref) (o : op Ob Act) : ref * result (option (rollout Ob Act)) :=
    match o with
    | BatchAct true obs acts values => ({| chosen := Some (obs, acts, values); steps := steps p |}, Ok None)
    | BatchObserve true obs rs dones resets =>
      match chosen p with
      | Some (o, a, v) =>
        let l := steps p ++ [{| s_obs := o; s_acts := a; s_values := v; s_next := obs; s_rewards := rs; s_ended := map (fun dz => fst dz || snd dz) (combine dones resets) |}] in
        if length l =? update_steps then ({| chosen := None; steps := [] |}, Ok (Some (rollout_of l obs)))
        else ({| chosen := None; steps := l |}, Ok None)
      | None => (p, Ok None)
      end
    | BatchAct false _ _ _ | BatchObserve false _ _ _ _ => (p, Ok None)
    end.

  Fixpoint alternating (observe_next : bool) (ops : list (op Ob Act)) : Prop :=
    match ops with
    | [] => True
    | BatchAct true _ _ _ :: t => observe_next = false /\ alternating true t
    | BatchObserve true _ _ dones resets :: t => observe_next = true /\ length dones = length resets /\ alternating false t
    | BatchAct false _ _ _ :: t | BatchObserve false _ _ _ _ :: t => alternating observe_next t
    end.
End Rollout.
Arguments ref : clear implicits.
Arguments step : clear implicits.
