(** C60: A2C updates use exactly the last update_steps steps. *)
From Coq Require Import QArith.
From Verif Require Import Base P_Base M_A2C S_A2C P_A2C.
Open Scope nat_scope.

(** For every history of alternating act/observe calls (evaluation calls anywhere) of a new agent: no exception; one update at every
    update_steps-th observe and no other; it sees the observations, actions, rewards, episode ends (done or reset) and value predictions of
    exactly the steps since the previous update, in order, and the observation reached last. *)
Theorem C60_rollouts {Ob Act} (update_steps : nat) (ops : list (op Ob Act)) : 1 <= update_steps -> alternating false ops ->
  snd (run (call update_steps) a2c_init ops) = snd (run (ref_call update_steps) ref_init ops).
Proof. intros Hn Ha. apply (storage_refines update_steps Hn ops false); [exact Ha|]. apply inv_init. exact Hn. Qed.

Definition ex_ops : list (op nat nat) :=
  [BatchAct true [1;2] [10;20] [0%Q;0%Q]; BatchObserve true [3;4] [1%Q;2%Q] [false;true] [false;false];
   BatchAct false [7] [7] [7%Q];
   BatchAct true [3;5] [30;50] [1%Q;1%Q]; BatchObserve true [6;7] [3%Q;4%Q] [false;false] [true;false];
   BatchAct true [8;7] [80;70] [2%Q;2%Q]].
Example C60_ex_alternating : alternating false ex_ops.
Proof. cbn. repeat split. Qed.
Example C60_ex : snd (run (call 2) a2c_init ex_ops) =
  [Ok None; Ok None; Ok None; Ok None;
   Ok (Some {| r_states := [Some [1;2]; Some [3;5]; Some [6;7]]; r_actions := [Some [10;20]; Some [30;50]];
               r_rewards := [Some [1%Q;2%Q]; Some [3%Q;4%Q]]; r_masks := [Some [1%Q;0%Q]; Some [0%Q;1%Q]]; r_values := [Some [0%Q;0%Q]; Some [1%Q;1%Q]] |});
   Ok None].
Proof. vm_compute. reflexivity. Qed.

Print Assumptions C60_rollouts.
