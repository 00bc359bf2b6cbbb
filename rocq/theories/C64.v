(** C64: advantage learning, persistent advantage learning and dynamic policy programming targets. *)
From Coq Require Import QArith Qminmax.
From Verif Require Import Base P_Base M_ReplayBuffer M_Batch S_Batch M_ActionValue M_Targets S_Targets P_Targets.
Open Scope nat_scope.

(** The actions of the transitions are valid indices for the network's answers. *)
Definition valid_actions {S} (target_model : S -> list Q) (exps : list (list (trans (exper S nat)))) : Prop :=
  Forall (fun w => forall s a s', from_to w s a s' -> a < length (target_model s) /\ a < length (target_model s')) exps.

(** (T_AL Q)(s,a) = (T Q)(s,a) + alpha (Q(s,a) - max Q(s,.)). *)
Theorem C64_al {S} gamma alpha (exps : list (list (trans (exper S nat)))) (target_model : S -> list Q) : Forall (fun w => w <> []) exps -> valid_actions target_model exps ->
  exists b, batch_experiences gamma exps = Ok b /\ exists ts, al_target alpha target_model b = Ok ts /\
    Forall2 (fun w t => exists s a s' m m' q, from_to w s a s' /\ is_max (target_model s) m /\ is_max (target_model s') m' /\ nth_error (target_model s) a = Some q /\
      (t == nstep gamma w m' + alpha * (q - m))%Q) exps ts.
Proof. exact (fun H1 H2 => al_ok gamma exps H1 target_model H2 alpha). Qed.

(** (T_PAL Q)(s,a) = (T Q)(s,a) + alpha max (Q(s,a) - max Q(s,.), Q(s',a) - max Q(s',.)). *)
Theorem C64_pal {S} gamma alpha (exps : list (list (trans (exper S nat)))) (target_model : S -> list Q) : Forall (fun w => w <> []) exps -> valid_actions target_model exps ->
  exists b, batch_experiences gamma exps = Ok b /\ exists ts, pal_target alpha target_model b = Ok ts /\
    Forall2 (fun w t => exists s a s' m m' q q', from_to w s a s' /\ is_max (target_model s) m /\ is_max (target_model s') m' /\ nth_error (target_model s) a = Some q /\ nth_error (target_model s') a = Some q' /\
      (t == nstep gamma w m' + alpha * Qmax (q - m) (q' - m'))%Q) exps ts.
Proof. exact (fun H1 H2 => pal_ok gamma exps H1 target_model H2 alpha). Qed.

(** Q(s,a) + (T_L Q)(s,a) - (L Q)(s) for every operator L. *)
Theorem C64_dpp {S} gamma (exps : list (list (trans (exper S nat)))) (target_model : S -> list Q) (l_operator : list Q -> result Q) : Forall (fun w => w <> []) exps -> valid_actions target_model exps ->
  (forall q, q <> [] -> exists v, l_operator q = Ok v) ->
  exists b, batch_experiences gamma exps = Ok b /\ exists ts, dpp_target l_operator target_model b = Ok ts /\
    Forall2 (fun w t => exists s a s' q l l', from_to w s a s' /\ nth_error (target_model s) a = Some q /\ l_operator (target_model s) = Ok l /\ l_operator (target_model s') = Ok l' /\
      (t == q + nstep gamma w l' - l)%Q) exps ts.
Proof. exact (fun H1 H2 => dpp_ok gamma exps H1 target_model H2 l_operator). Qed.

Definition tr (s a : nat) (r : Q) (tm : bool) : trans (exper nat nat) := mkTrans (mkEx s a r (S s) None) tm.
Definition ex : list (list (trans (exper nat nat))) := [[tr 1 0 1 false; tr 2 1 1 false; tr 3 1 1 true]; [tr 7 1 2 false; tr 8 0 4 false]].
Definition net (s : nat) : list Q := [inject_Z (Z.of_nat s); 8%Q].
Example C64_ex_valid : Forall (fun w => w <> []) ex /\ valid_actions net ex.
Proof.
  split; [repeat constructor; discriminate|]. repeat apply Forall_cons; try apply Forall_nil; intros s a s' (f & l & i & r & E & _ & _ & -> & _); injection E as <- _; cbn; lia.
Qed.
Example C64_ex : exists b, batch_experiences (1 # 2)%Q ex = Ok b /\
  rmap (map Qred) (al_target (1 # 2)%Q net b) = Ok [-7 # 4; 25 # 4]%Q /\
  rmap (map Qred) (pal_target (1 # 2)%Q net b) = Ok [-1 # 4; 25 # 4]%Q /\
  rmap (map Qred) (dpp_target max net b) = Ok [-21 # 4; 25 # 4]%Q.
Proof. eexists. split; [vm_compute; reflexivity|]. vm_compute. repeat split. Qed.

Print Assumptions C64_al.
Print Assumptions C64_pal.
Print Assumptions C64_dpp.
