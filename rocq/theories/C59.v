(** C59: attributes of the vector environments. *)
From Verif Require Import Base M_VectorEnv.

(** The spaces are those of the first environment for both; for MultiprocessVectorEnv the spec as well. Missing: the spec of
    SerialVectorEnv. *)
Theorem C59_attributes_partial {Y} (e0 : attrs Y) :
  a_action_space (serial_attrs e0) = a_action_space e0 /\ a_observation_space (serial_attrs e0) = a_observation_space e0 /\ multi_attrs e0 = e0.
Proof. repeat split. destruct e0; reflexivity. Qed.

(** SerialVectorEnv.spec is the observation space, whenever the two differ the spec is wrong. *)
Theorem C59_spec_refuted {Y} (e0 : attrs Y) : a_spec e0 <> a_observation_space e0 -> a_spec (serial_attrs e0) <> a_spec e0 /\ a_spec (serial_attrs e0) <> a_spec (multi_attrs e0).
Proof. intros H. cbn. auto. Qed.
Example C59_ex : exists e0 : attrs nat, a_spec e0 <> a_observation_space e0 /\ a_spec (serial_attrs e0) = 1 /\ a_spec (multi_attrs e0) = 2.
Proof. exists (mkAttrs 0 1 2). cbn. auto. Qed.

Print Assumptions C59_attributes_partial.
Print Assumptions C59_spec_refuted.
