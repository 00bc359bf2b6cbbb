(** Specification of the updates of DDPG, TD3 and SAC, on parameters and optimizer states only: nothing is said of accumulated gradients. *)
From Coq Require Import QArith Qminmax.
From Verif Require Import Base Vec M_Batch M_ActorCritic.
Open Scope nat_scope.

Section Spec.
  Context {Ob A St N : Type}.
  Notation batch := (batch Ob A).
  Notation net := (net St).
  Context (opt_step : St -> vec -> vec -> vec * St) (clip : vec -> vec).

  (** One optimizer step from exactly the (clipped) gradient [g]. *)
  Definition stepped (n : net) (g : vec) (n' : net) : Prop := (par n', ost n') = opt_step (ost n) (par n) (clip g).
  Definition untouched (n n' : net) : Prop := par n' = par n /\ ost n' = ost n.

  (** A batch of [n] transitions. *)
  Definition batch_of (n : nat) (b : batch) : Prop :=
    length (b_state b) = n /\ length (b_action b) = n /\ length (b_reward b) = n /\ length (b_next_state b) = n /\ length (b_terminal b) = n /\ length (b_discount b) = n.

  (** One target per transition: reward + discount * (1 - terminal) * [next] (next state, index of the transition). *)
  Definition td_targets (b : batch) (discount : nat -> Q) (next : Ob -> nat -> Q) (target : list Q) : Prop :=
    length target = length (b_reward b) /\
    forall i r tm s', nth_error (b_reward b) i = Some r -> nth_error (b_terminal b) i = Some tm -> nth_error (b_next_state b) i = Some s' ->
      nth_error target i = Some (r + discount i * (1 - tm) * next s' i)%Q.

  Definition at_ {X} (l : list X) (i : nat) (f : X -> Q) : Q := match nth_error l i with Some x => f x | None => 0%Q end.

  Fixpoint pow (x : Q) (n : nat) : Q := match n with 0 => 1%Q | S n => (x * pow x n)%Q end.
  Fixpoint sum_to (f : nat -> Q) (n : nat) : Q := match n with 0 => 0%Q | S n => (sum_to f n + f n)%Q end.
  (** [v] is the exponential moving average of x 0, x 1, ..., x m: (1-tau)^m * x 0 + sum over j = 1..m of tau * (1-tau)^(m-j) * x j, in every component. *)
  Definition averaged (tau : Q) (x : nat -> vec) (m : nat) (v : vec) : Prop :=
    length v = length (x 0) /\
    forall i, (nth i v 0 == pow (1 - tau) m * nth i (x 0%nat) 0 + sum_to (fun j => tau * pow (1 - tau) (m - S j)%nat * nth i (x (S j)) 0) m)%Q.

  Context (D : loss Ob A N -> slot -> vec) (q_value : vec -> Ob -> A -> Q) (sample : N -> vec -> list Ob -> list A) (log_prob : vec -> Ob -> A -> Q).
  Context (smoothing : N -> list A -> list A) (temperature_of : vec -> Q).

  (** One update of TD3, the [k]-th: both critics take a step down the squared error to the same targets, which use the smaller of the two target
      critics at the smoothed action of the target policy.  Every [delay]-th time the policy takes a step up the new first critic, then the target
      networks move towards the new networks; otherwise policy and target networks stay. *)
  Definition td3_explained (tau : Q) (delay k : nat) (s : td3 St) (nz : N) (b : batch) (s' : td3 St) : Prop :=
    exists target,
      td_targets b (fun i => at_ (b_discount b) i (fun d => d))
        (fun ns i => at_ (smoothing nz (sample nz (t_policy s) (b_next_state b))) i (fun a => Qmin (q_value (t_q1 s) ns a) (q_value (t_q2 s) ns a))) target /\
      stepped (q1 s) (D (Mse 1 target (par (q1 s)) (b_state b) (b_action b)) SQ1) (q1 s') /\
      stepped (q2 s) (D (Mse 1 target (par (q2 s)) (b_state b) (b_action b)) SQ2) (q2 s') /\
      if k mod delay =? 0
      then stepped (policy s) (D (NegQ (par (policy s)) (par (q1 s')) (b_state b) nz) SPolicy) (policy s') /\
           t_policy s' = soft_copy tau (t_policy s) (par (policy s')) /\ t_q1 s' = soft_copy tau (t_q1 s) (par (q1 s')) /\ t_q2 s' = soft_copy tau (t_q2 s) (par (q2 s'))
      else untouched (policy s) (policy s') /\ t_policy s' = t_policy s /\ t_q1 s' = t_q1 s /\ t_q2 s' = t_q2 s.

  (** One update of SAC.  [temp]: the temperature before the update, fixed or learned. *)
  Definition sac_explained (c : sac_cfg) (s : sac St) (nz1 nz2 : N) (b : batch) (s' : sac St) : Prop :=
    exists target temp,
      temp = match s_temp s with Some n => temperature_of (par n) | None => initial_temperature c end /\
      td_targets b (fun i => at_ (b_discount b) i (fun d => d))
        (fun ns i => at_ (sample nz1 (par (s_policy s)) (b_next_state b)) i
           (fun a => Qmin (q_value (s_t_q1 s) ns a) (q_value (s_t_q2 s) ns a) - temp * log_prob (par (s_policy s)) ns a)%Q) target /\
      stepped (s_q1 s) (D (Mse (1 # 2) target (par (s_q1 s)) (b_state b) (b_action b)) SQ1) (s_q1 s') /\
      stepped (s_q2 s) (D (Mse (1 # 2) target (par (s_q2 s)) (b_state b) (b_action b)) SQ2) (s_q2 s') /\
      stepped (s_policy s) (D (SoftQ temp (par (s_policy s)) (par (s_q1 s')) (par (s_q2 s')) (b_state b) nz2) SPolicy) (s_policy s') /\
      match s_temp s, s_temp s' with
      | Some n, Some n' => exists lps, length lps = length (b_state b) /\
          (forall i ob a, nth_error (b_state b) i = Some ob -> nth_error (sample nz2 (par (s_policy s)) (b_state b)) i = Some a ->
             nth_error lps i = Some (log_prob (par (s_policy s)) ob a)) /\
          stepped n (D (TempLoss (par n) lps (entropy_target c)) STemp) n'
      | None, None => True
      | _, _ => False
      end.

  (** One update of DDPG (the target networks are moved separately). *)
  Definition ddpg_explained (gamma : Q) (s : ddpg St) (nz : N) (b : batch) (s' : ddpg St) : Prop :=
    exists target,
      td_targets b (fun _ => gamma) (fun ns i => at_ (sample nz (d_t_policy s) (b_next_state b)) i (fun a => q_value (d_t_q s) ns a)) target /\
      stepped (d_q s) (D (Mse 1 target (par (d_q s)) (b_state b) (b_action b)) SQ1) (d_q s') /\
      stepped (d_policy s) (D (NegQ (par (d_policy s)) (par (d_q s')) (b_state b) nz) SPolicy) (d_policy s') /\
      d_t_policy s' = d_t_policy s /\ d_t_q s' = d_t_q s.
End Spec.
