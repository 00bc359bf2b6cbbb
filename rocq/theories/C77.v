(** C77: the updates of SAC and DDPG. *)
From Coq Require Import QArith Qminmax Lia.
From Verif Require Import Base Vec M_Batch M_Targets M_ActorCritic S_ActorCritic P_ActorCritic C76.
Open Scope nat_scope.

(** SAC: for every sequence of minibatches, from every initial networks (whatever is in their gradients), every update is as sac_explained says, and the
    target critics are the exponential moving averages of the critics after the updates number 0, 1, 2, ... *)
Theorem C77_sac {Ob A St N : Type} (D : loss Ob A N -> slot -> vec) (opt_step : St -> vec -> vec -> vec * St) (clip : vec -> vec)
    (q_value : vec -> Ob -> A -> Q) (sample : N -> vec -> list Ob -> list A) (log_prob : vec -> Ob -> A -> Q) (temperature_of : vec -> Q) (dim : slot -> nat)
    (c : sac_cfg) (pi c1 c2 : net St) (temp : option (net St)) (xs : list ((N * N) * batch Ob A)) :
  (forall l k, length (D l k) = dim k) -> (forall st p g, length (fst (opt_step st p g)) = length p) ->
  (forall nz p obs, length (sample nz p obs) = length obs) ->
  length (par pi) = dim SPolicy -> length (par c1) = dim SQ1 -> length (par c2) = dim SQ2 -> match temp with Some n => length (par n) = dim STemp | None => True end ->
  Forall (fun x => exists n, batch_of n (snd x)) xs ->
  let st k := fold_left (sac_update D opt_step clip q_value sample log_prob temperature_of c) (firstn k xs) (sac_init pi c1 c2 temp) in
  (forall k nz1 nz2 b, nth_error xs k = Some ((nz1, nz2), b) -> sac_explained opt_step clip D q_value sample log_prob temperature_of c (st k) nz1 nz2 b (st (S k))) /\
  (forall k, k <= length xs -> s_policy_n (st k) = k /\
     averaged (s_tau c) (fun j => par (s_q1 (st j))) k (s_t_q1 (st k)) /\ averaged (s_tau c) (fun j => par (s_q2 (st j))) k (s_t_q2 (st k))).
Proof.
  intros HD HO HS W1 W2 W3 W4 F st.
  assert (B : forall k nz1 nz2 b, nth_error xs k = Some ((nz1, nz2), b) -> st (S k) = sac_update D opt_step clip q_value sample log_prob temperature_of c (st k) ((nz1, nz2), b)).
  { intros k nz1 nz2 b En. unfold st. rewrite (firstn_S_nth _ _ _ En), fold_left_app. reflexivity. }
  assert (X : forall k, k <= length xs -> sac_wf dim (st k)).
  { induction k as [|k IH]; intros Hk; [split; [exact W1|split; [exact W2|split; [exact W3|exact W4]]]|].
    destruct (nth_error xs k) as [[[nz1 nz2] b]|] eqn:En; [|apply nth_error_None in En; lia]. rewrite (B _ _ _ _ En).
    destruct (proj1 (Forall_forall _ _) F _ (nth_error_In _ _ En)) as (n & Hb). cbn [snd] in Hb.
    apply (sac_update_spec D opt_step clip q_value sample log_prob temperature_of dim HD HO c (st k) nz1 nz2 b n (IH ltac:(lia)) Hb); rewrite HS; apply Hb. }
  assert (Y : forall k nz1 nz2 b, nth_error xs k = Some ((nz1, nz2), b) -> let s := st k in let s' := st (S k) in
     sac_explained opt_step clip D q_value sample log_prob temperature_of c s nz1 nz2 b s' /\ s_policy_n s' = S (s_policy_n s) /\
     s_t_q1 s' = soft_copy (s_tau c) (s_t_q1 s) (par (s_q1 s')) /\ s_t_q2 s' = soft_copy (s_tau c) (s_t_q2 s) (par (s_q2 s'))).
  { intros k nz1 nz2 b En. cbv zeta. rewrite (B _ _ _ _ En). assert (k < length xs) by (apply nth_error_Some; congruence).
    destruct (proj1 (Forall_forall _ _) F _ (nth_error_In _ _ En)) as (n & Hb). cbn [snd] in Hb.
    apply (sac_update_spec D opt_step clip q_value sample log_prob temperature_of dim HD HO c (st k) nz1 nz2 b n (X k ltac:(lia)) Hb); rewrite HS; apply Hb. }
  split; [intros k nz1 nz2 b En; apply (Y k nz1 nz2 b En)|].
  assert (Z : forall k, k < length xs -> s_policy_n (st (S k)) = S (s_policy_n (st k)) /\ s_t_q1 (st (S k)) = soft_copy (s_tau c) (s_t_q1 (st k)) (par (s_q1 (st (S k)))) /\
     s_t_q2 (st (S k)) = soft_copy (s_tau c) (s_t_q2 (st k)) (par (s_q2 (st (S k))))).
  { intros k Hk. destruct (nth_error xs k) as [[[nz1 nz2] b]|] eqn:En; [|apply nth_error_None in En; lia]. apply (Y k nz1 nz2 b En). }
  induction k as [|k IH]; intros Hk.
  - split; [reflexivity|]. split; [apply (averaged_0 (s_tau c) (fun j => par (s_q1 (st j))))|apply (averaged_0 (s_tau c) (fun j => par (s_q2 (st j))))].
  - destruct IH as (I1 & I2 & I3); [lia|]. destruct (Z k ltac:(lia)) as (Z1 & Z2 & Z3). rewrite Z1, Z2, Z3. split; [congruence|].
    destruct (X (S k) Hk) as (_ & V1 & V2 & _). destruct (X 0 ltac:(lia)) as (_ & V3 & V4 & _).
    split; [apply (averaged_S (s_tau c) (fun j => par (s_q1 (st j))))|apply (averaged_S (s_tau c) (fun j => par (s_q2 (st j))))]; try assumption; congruence.
Qed.

(** DDPG: every update from every state is as ddpg_explained says (no clipping). *)
Theorem C77_ddpg {Ob A St N : Type} (D : loss Ob A N -> slot -> vec) (opt_step : St -> vec -> vec -> vec * St)
    (q_value : vec -> Ob -> A -> Q) (sample : N -> vec -> list Ob -> list A) (dim : slot -> nat) (gamma : Q) (s : ddpg St) (nz : N) (b : batch Ob A) (n : nat) :
  (forall l k, length (D l k) = dim k) -> (forall st p g, length (fst (opt_step st p g)) = length p) -> (forall nz p obs, length (sample nz p obs) = length obs) ->
  length (par (d_policy s)) = dim SPolicy -> length (par (d_q s)) = dim SQ1 -> batch_of n b ->
  let s' := ddpg_update D opt_step q_value sample gamma s (nz, b) in
  ddpg_explained opt_step (fun g => g) D q_value sample gamma s nz b s' /\ d_n s' = S (d_n s) /\
  length (par (d_policy s')) = dim SPolicy /\ length (par (d_q s')) = dim SQ1.
Proof.
  intros HD HO HS W1 W2 Hb. cbv zeta.
  destruct (ddpg_update_spec D opt_step q_value sample dim HD HO gamma s nz b n (conj W1 W2) Hb) as ((V1 & V2) & H1 & H2); [rewrite HS; apply Hb|].
  split; [exact H1|]. split; [exact H2|]. split; assumption.
Qed.

(** A case: one-parameter networks as in C76, learned temperature with temperature_of p = p, log-probability -1 everywhere. *)
Definition ex77_D (l : loss unit Q unit) (k : slot) : vec :=
  match l with
  | Mse c [t] [p] _ [a] => [2 * c * (p * a - t) * a]%Q
  | SoftQ t [_] [p] [p'] _ _ => match k with SPolicy => [- (Qmin p p')]%Q | _ => [7%Q] end
  | NegQ [_] [p] _ _ => match k with SPolicy => [- p]%Q | _ => [7%Q] end
  | TempLoss [_] [l] h => [- (l + h)]%Q
  | _ => [0%Q]
  end.
Definition ex77_view (s : sac unit) := (map Qred (par (s_policy s)), map Qred (par (s_q1 s)), map Qred (par (s_q2 s)), (map Qred (s_t_q1 s), map Qred (s_t_q2 s)), option_map (fun n => map Qred (par n)) (s_temp s), s_policy_n s).
Definition ex77_cfg : sac_cfg := {| initial_temperature := 5; entropy_target := 2; s_tau := 1 # 2 |}.
Definition ex77_xs : list ((unit * unit) * batch unit Q) := [((tt, tt), ex_batch 1 1 0); ((tt, tt), ex_batch 1 2 1)].
Example C77_case_hypotheses : (forall l k, length (ex77_D l k) = 1) /\ Forall (fun x => exists n, batch_of n (snd x)) ex77_xs.
Proof.
  split; [|repeat apply Forall_cons; try apply Forall_nil; exists 1; repeat split].
  intros l k. destruct l as [? [|t [|]] [|p [|]] ? [|a [|]]|[|? [|]] [|? [|]]|? [|? [|]] [|? [|]] [|? [|]]|[|? [|]] [|? [|]]]; try reflexivity; destruct k; reflexivity.
Qed.
Example C77_case_sac :
  ex77_view (fold_left (sac_update ex77_D ex_step (fun g => g) ex_q ex_sample (fun _ _ _ => (-1)%Q) (fun p => nth 0 p 0%Q) ex77_cfg) ex77_xs
     (sac_init (ex_net 1 9) (ex_net 2 9) (ex_net 3 9) (Some (ex_net 1 9)))) = ([11 # 2]%Q, [2%Q], [2%Q], ([17 # 8]%Q, [19 # 8]%Q), Some [3%Q], 2).
Proof. vm_compute. reflexivity. Qed.
Example C77_case_ddpg :
  let s := ddpg_update ex77_D ex_step ex_q ex_sample (1 # 2) (mkDDPG (ex_net 1 9) (ex_net 2 9) [1%Q] [2%Q] 0) (tt, ex_batch 1 2 0) in
  (par (d_policy s), par (d_q s), d_t_policy s, d_t_q s, d_n s) = ([5%Q], [4%Q], [1%Q], [2%Q], 1).
Proof. vm_compute. reflexivity. Qed.

Print Assumptions C77_sac.
Print Assumptions C77_ddpg.
