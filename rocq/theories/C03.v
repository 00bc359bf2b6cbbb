(** C03: the priority structures are the sum/min of the stored priorities. *)
From Verif Require Import Base M_Prioritized S_Prioritized P_PriorityTree P_Prioritized P_PrioritizedProps.

(** Any sequence of append / popleft / overwrite on a TreeQueue, for any aggregation over any type, behaves like a plain
    list: FIFO order, overwritten values returned, out-of-range writes rejected. *)
Theorem C03_tree_is_fifo_list : forall (V : Type) (op : list V -> V) ops,
  snd (run (tq_step op) tq_init ops) = snd (run tq_spec [] ops).
Proof. exact (fun V op ops => proj1 (tq_refines op ops)). Qed.
Print Assumptions C03_tree_is_fifo_list.

(** ... and the root reports the sum, respectively the minimum, of exactly the stored values. *)
Theorem C03_sum : forall ops,
  exists s, tq_sum (fst (run (tq_step op_sum) tq_init ops)) = Ok s /\ (s == Qsum (fst (run tq_spec [] ops)))%Q.
Proof. exact sum_after_ops. Qed.
Print Assumptions C03_sum.

Theorem C03_min : forall ops,
  match fst (run tq_spec [] ops) with
  | [] => tq_min (fst (run (tq_step op_min) tq_init ops)) = Ok None
  | l => exists m, tq_min (fst (run (tq_step op_min) tq_init ops)) = Ok (Some m) /\ is_min m l
  end.
Proof. exact min_after_ops. Qed.
Print Assumptions C03_min.

(** The whole buffer (append, popleft, sample, set_last_priority, len) behaves like the list specification [sb_step]. *)
Theorem C03_buffer_refines : forall (A : Type) cap wait m (ops : list (pb_op A)) s rs,
  sb_run (sb_init cap wait m) ops = Some (s, rs) ->
  Forall2 out_eq (snd (run pb_step (pb_init cap wait m) ops)) rs.
Proof. exact pb_run_refines. Qed.
Print Assumptions C03_buffer_refines.

(** Never more than [capacity] elements, whatever the operations (in or out of contract). *)
Theorem C03_capacity : forall (A : Type) c wait m (ops : list (pb_op A)),
  length (data (fst (run pb_step (pb_init (Some c) wait m) ops))) <= c.
Proof. exact pb_capacity. Qed.
Print Assumptions C03_capacity.

(** Cases: growth, wrap-around, root shrinking. *)
Example C03_case_tree :
  let ops := [TAppend 5; TAppend 1; TAppend 4; TPopleft; TAppend 7; TSet 1 2; TPopleft; TPopleft; TAppend 3]%Q in
  snd (run (tq_step op_sum) tq_init ops) = snd (run tq_spec [] ops) /\ fst (run tq_spec [] ops) = [7; 3]%Q.
Proof. vm_compute. auto. Qed.

Example C03_case_buffer :
  exists s rs, sb_run (sb_init (Some 2) true 1%Q)
    [PAppend 10 None; PAppend 11 (Some 3%Q); PAppend 12 None; PSample (mkSo [] [1 # 2]%Q) 0%Q; PSetLast [5]%Q; PPopleft] = Some (s, rs)
  /\ rs = [PNone; PNone; PNone; PSampled [11] [0 / inject_Z 2 + (1 - 0) * 3 / (3 + (1 + 0))]%Q (1 / (3 + (1 + 0)))%Q; PNone; PVal 11].
Proof. eexists _, _. split; [vm_compute; reflexivity|vm_compute; reflexivity]. Qed.
