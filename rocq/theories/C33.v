(** C33: PPO/TRPO consume every transition in exactly one update. *)
From Coq Require Import QArith Permutation.
From Verif Require Import Base P_Base M_PPO S_PPO P_PPO.
Open Scope nat_scope.

(** For every history of alternating act/observe calls on n environments (with evaluation calls anywhere), every call of the agent
    behaves as the reference: an update happens at exactly the observes after which at least [update_interval] transitions are pending;
    its dataset is everything pending, grouped into the episodes of the environments (never across an episode end; cut to the length
    limit for a recurrent agent that has one); nothing is pending afterwards.  No assertion fails. *)
Theorem C33_updates {Ob Act} (recurrent : option (option nat)) (update_interval n : nat) (ops : list (op Ob Act)) :
  (forall m, recurrent = Some (Some m) -> 0 < m) -> alternating n false ops ->
  Forall2 (same_update recurrent) (snd (run (call recurrent update_interval) store_init ops)) (snd (run (ref_call update_interval) (pending_init n) ops)).
Proof. intros Hr Ha. apply (store_refines recurrent update_interval n Hr ops false); [exact Ha|apply store_ok_init]. Qed.

(** Hence every transition observed in training mode is in exactly one dataset or still pending, and fewer than update_interval are
    pending at any time. *)
Theorem C33_exactly_once {Ob Act} (recurrent : option (option nat)) (update_interval n : nat) (ops : list (op Ob Act)) :
  (forall m, recurrent = Some (Some m) -> 0 < m) -> 0 < update_interval -> alternating n false ops ->
  exists rest, Permutation (observed [] ops) (concat (map used (snd (run (call recurrent update_interval) store_init ops))) ++ rest) /\ length rest < update_interval.
Proof.
  intros Hr Hu Ha. destruct (ref_once update_interval n ops false (pending_init n) Ha) as [P1 P2]; [apply repeat_length|discriminate|].
  exists (map fst (concat (pend (fst (run (ref_call update_interval) (pending_init n) ops))))).
  assert (Z : concat (repeat (@nil (transition Ob Act * bool)) n) = []) by (clear; induction n; auto). cbn [pending_init pend acted] in P1, P2. rewrite Z in P1, P2. cbn in P1. split.
  - rewrite P1. apply Permutation_app_tail. symmetry. apply (same_used recurrent). apply C33_updates; assumption.
  - rewrite map_length. apply P2. exact Hu.
Qed.

(** Grouping into episodes: an episode end always closes a group, and transitions without an episode end in between form one group. *)
Theorem C33_segments (T : Type) : segments (@nil (T * bool)) = @nil (list T) /\
  (forall x (a b : list (T * bool)), segments (a ++ (x, true) :: b) = segments (a ++ [(x, true)]) ++ segments b) /\
  (forall (l : list T) x e, segments (map (fun y => (y, false)) l ++ [(x, e)]) = [l ++ [x]]).
Proof.
  split; [reflexivity|]. split.
  - intros x a b. induction a as [|[y e] a IH]; [reflexivity|]. cbn [app segments]. rewrite IH. destruct e; [reflexivity|].
    assert (N : segments (a ++ [(x, true)]) <> []) by (destruct a as [|[w []] a]; cbn; [discriminate|discriminate|destruct (segments (a ++ [(x, true)])); discriminate]).
    destruct (segments (a ++ [(x, true)])); [congruence|reflexivity].
  - intros l x e. induction l as [|y l IH]; [destruct e; reflexivity|]. cbn [map app segments]. rewrite IH. reflexivity.
Qed.

(** Two environments, update_interval 4: the second environment ends an episode at the first step; at the second step 4 transitions are
    pending and an update takes place with three groups. *)
Definition ex_ops : list (op nat nat) :=
  [BatchAct true [1;2] [10;20]; BatchObserve true [3;4] [1%Q;2%Q] [false;true] [false;false];
   BatchAct false [7] [7];
   BatchAct true [3;5] [30;50]; BatchObserve true [6;7] [3%Q;4%Q] [false;false] [false;false];
   BatchAct true [6;7] [60;70]; BatchObserve true [8;9] [5%Q;6%Q] [false;false] [true;false]].
Example C33_ex_alternating : alternating 2 false ex_ops.
Proof. cbn. repeat split. Qed.
Example C33_ex : map (fun r => match r with Ok (Some (Sequences l)) => map (map t_state) l | _ => [] end) (snd (run (call (Some None) 4) store_init ex_ops))
  = [[]; []; []; []; [[2]; [1; 3]; [5]]; []; []].
Proof. vm_compute. reflexivity. Qed.
Example C33_ex_pending : memory (fst (run (call (Some None) 4) store_init ex_ops)) = [[{| t_state := 6; t_action := 60; t_reward := 5; t_next_state := 8; t_nonterminal := 1 |}]].
Proof. vm_compute. reflexivity. Qed.

Print Assumptions C33_updates.
Print Assumptions C33_exactly_once.
Print Assumptions C33_segments.
