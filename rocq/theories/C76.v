(** C76: TD3's updates. *)
From Coq Require Import QArith Qminmax Lia.
From Verif Require Import Base Vec M_Batch M_Targets M_ActorCritic S_ActorCritic P_ActorCritic.
Open Scope nat_scope.

(** For every sequence of minibatches, from every initial networks (whatever is in their gradients), for every optimizer, clipping function, networks
    and automatic differentiation respecting shapes: the k-th update is as td3_explained says, so that every optimizer step uses the gradient of its
    own loss only; the policy has been updated k / delay times; and each target network is the exponential moving average of its network as it was
    after the updates number 0, delay, 2 * delay, ... *)
Theorem C76_td3 {Ob A St N : Type} (D : loss Ob A N -> slot -> vec) (opt_step : St -> vec -> vec -> vec * St) (clip : vec -> vec)
    (q_value : vec -> Ob -> A -> Q) (sample : N -> vec -> list Ob -> list A) (smoothing : N -> list A -> list A) (dim : slot -> nat)
    (tau : Q) (delay : nat) (pi c1 c2 : net St) (xs : list (N * batch Ob A)) :
  (forall l k, length (D l k) = dim k) -> (forall st p g, length (fst (opt_step st p g)) = length p) ->
  (forall nz p obs, length (smoothing nz (sample nz p obs)) = length obs) ->
  length (par pi) = dim SPolicy -> length (par c1) = dim SQ1 -> length (par c2) = dim SQ2 ->
  1 <= delay -> Forall (fun x => exists n, batch_of n (snd x)) xs ->
  exists st : nat -> td3 St,
    st 0 = td3_init pi c1 c2 /\
    (forall k, k <= length xs -> td3_updates D opt_step clip q_value sample smoothing tau delay (td3_init pi c1 c2) (firstn k xs) = Ok (st k)) /\
    (forall k nz b, nth_error xs k = Some (nz, b) -> td3_explained opt_step clip D q_value sample smoothing tau delay (S k) (st k) nz b (st (S k))) /\
    (forall k, k <= length xs ->
       q_n (st k) = k /\ policy_n (st k) = k / delay /\
       averaged tau (fun j => par (policy (st (j * delay)))) (k / delay) (t_policy (st k)) /\
       averaged tau (fun j => par (q1 (st (j * delay)))) (k / delay) (t_q1 (st k)) /\
       averaged tau (fun j => par (q2 (st (j * delay)))) (k / delay) (t_q2 (st k))).
Proof.
  intros HD HO HS W1 W2 W3 Hd F.
  destruct (td3_run D opt_step clip q_value sample smoothing dim HD HO tau delay (td3_init pi c1 c2) xs Hd (conj W1 (conj W2 W3)) HS F) as (st & E0 & R & X).
  exists st. split; [exact E0|]. split; [intros k Hk; apply (R k Hk)|].
  assert (C : forall k, k <= length xs -> q_n (st k) = k /\ policy_n (st k) = k / delay).
  { induction k as [|k IH]; intros Hk; [rewrite E0, Nat.div_0_l by lia; split; reflexivity|]. destruct IH as (IH1 & IH2); [lia|].
    destruct (nth_error xs k) as [[nz b]|] eqn:En; [|apply nth_error_None in En; lia]. destruct (X k nz b En) as (_ & Q1 & Q2). rewrite Q1, Q2, IH1, IH2, div_S by exact Hd.
    split; reflexivity. }
  split.
  - intros k nz b En. destruct (X k nz b En) as (X1 & _). rewrite (proj1 (C k ltac:(assert (k < length xs) by (apply nth_error_Some; congruence); lia))) in X1. exact X1.
  - intros k Hk. split; [apply C; exact Hk|]. split; [apply C; exact Hk|].
    assert (Y : forall j, j < length xs -> if S j mod delay =? 0
      then t_policy (st (S j)) = soft_copy tau (t_policy (st j)) (par (policy (st (S j)))) /\ t_q1 (st (S j)) = soft_copy tau (t_q1 (st j)) (par (q1 (st (S j)))) /\ t_q2 (st (S j)) = soft_copy tau (t_q2 (st j)) (par (q2 (st (S j))))
      else t_policy (st (S j)) = t_policy (st j) /\ t_q1 (st (S j)) = t_q1 (st j) /\ t_q2 (st (S j)) = t_q2 (st j)).
    { intros j Hj. destruct (nth_error xs j) as [[nz b]|] eqn:En; [|apply nth_error_None in En; lia]. destruct (X j nz b En) as (X1 & _).
      rewrite (proj1 (C j ltac:(lia))) in X1. destruct X1 as (tg & _ & _ & _ & X1). destruct (S j mod delay =? 0); apply X1. }
    split; [|split].
    + apply (averaged_run tau delay (fun j => par (policy (st j))) (fun j => t_policy (st j)) (length xs) Hd); [rewrite E0; reflexivity| | |exact Hk].
      * intros j Hj. destruct (R j Hj) as (_ & (V & _)). destruct (R 0 ltac:(lia)) as (_ & (V' & _)). congruence.
      * intros j Hj. specialize (Y j Hj). destruct (S j mod delay =? 0); apply Y.
    + apply (averaged_run tau delay (fun j => par (q1 (st j))) (fun j => t_q1 (st j)) (length xs) Hd); [rewrite E0; reflexivity| | |exact Hk].
      * intros j Hj. destruct (R j Hj) as (_ & (_ & V & _)). destruct (R 0 ltac:(lia)) as (_ & (_ & V' & _)). congruence.
      * intros j Hj. specialize (Y j Hj). destruct (S j mod delay =? 0); apply Y.
    + apply (averaged_run tau delay (fun j => par (q2 (st j))) (fun j => t_q2 (st j)) (length xs) Hd); [rewrite E0; reflexivity| | |exact Hk].
      * intros j Hj. destruct (R j Hj) as (_ & (_ & _ & V)). destruct (R 0 ltac:(lia)) as (_ & (_ & _ & V')). congruence.
      * intros j Hj. specialize (Y j Hj). destruct (S j mod delay =? 0); apply Y.
Qed.

(** A case: one-parameter networks q(s, a) = p * a and policy(s) = p, plain gradient descent with step 1, delay 2, tau = 1/2, three minibatches of one
    transition; the initial gradients are arbitrary. *)
Definition ex_D (l : loss unit Q unit) (k : slot) : vec :=
  match l with
  | Mse _ [t] [p] _ [a] => [(p * a - t) * a]%Q
  | NegQ [_] [p] _ _ => match k with SPolicy => [- p]%Q | _ => [7%Q] end
  | _ => [0%Q]
  end.
Definition ex_step (st : unit) (p g : vec) : vec * unit := (map Qred (vadd p (vscale (-1) g)) , tt).
Definition ex_q (p : vec) (_ : unit) (a : Q) : Q := Qred (vdot p [a]).
Definition ex_sample (_ : unit) (p : vec) (obs : list unit) : list Q := map (fun _ => nth 0 p 0%Q) obs.
Definition ex_batch (a r tm : Q) : batch unit Q := mkBatch [tt] [a] [r] [tt] [tm] [1 # 2]%Q None.
Definition ex_net (p g : Q) : net unit := mkNet [p] [g] tt.
Definition ex_smoothing (_ : unit) (l : list Q) : list Q := map (fun a => a + 1)%Q l.
Definition ex_xs : list (unit * batch unit Q) := [(tt, ex_batch 1 1 0); (tt, ex_batch 1 2 1); (tt, ex_batch 1 0 0)].
Definition ex_view (s : td3 unit) := (map Qred (par (policy s)), map Qred (par (q1 s)), map Qred (par (q2 s)), (map Qred (t_policy s), map Qred (t_q1 s), map Qred (t_q2 s)), (q_n s, policy_n s)).
Example C76_case_hypotheses : (forall l k, length (ex_D l k) = 1) /\ Forall (fun x => exists n, batch_of n (snd x)) ex_xs.
Proof.
  split; [|repeat apply Forall_cons; try apply Forall_nil; exists 1; repeat split].
  intros l k. destruct l as [? [|t [|]] [|p [|]] ? [|a [|]]|[|? [|]] [|? [|]]| |]; try reflexivity. destruct k; reflexivity.
Qed.
Example C76_case :
  rmap ex_view (td3_updates ex_D ex_step (fun g => g) ex_q ex_sample ex_smoothing (1 # 2) 2 (td3_init (ex_net 1 9) (ex_net 2 9) (ex_net 3 9)) (firstn 1 ex_xs))
    = Ok ([1%Q], [3%Q], [3%Q], ([1%Q], [2%Q], [3%Q]), (1, 0)) /\
  rmap ex_view (td3_updates ex_D ex_step (fun g => g) ex_q ex_sample ex_smoothing (1 # 2) 2 (td3_init (ex_net 1 9) (ex_net 2 9) (ex_net 3 9)) ex_xs)
    = Ok ([3%Q], [3%Q], [3%Q], ([2%Q], [2%Q], [5 # 2]%Q), (3, 1)).
Proof. vm_compute. split; reflexivity. Qed.

Print Assumptions C76_td3.
