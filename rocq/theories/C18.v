(** C18: asynchronous training under every schedule. *)
From Verif Require Import Base M_Train S_Train M_Async S_Async P_Async.
From Coq Require Import Sorted.

(** For every schedule [xs] (including the user setting the stop or exception event at any time), every behaviour of the user
    code, every number of processes: the global step numbers obtained are 1, 2, ..., counter, each exactly once; each process
    gets strictly increasing numbers; the counter never exceeds steps + processes - 1; at most one process saves the final
    agent, and exactly one does if every process returned and nobody set the stop event; a process that returned has called
    every hook once for each number it obtained; and the calls to its environment and agent obey the protocol of C16. *)
Theorem C18_async_training (P : async_args) (processes offset : nat) xs g ws tr :
  1 <= as_steps P -> 1 <= processes ->
  train_agent_async processes offset P xs = ((g, ws), tr) ->
  map snd (obtained tr) = seq 1 (sh_counter g) /\
  (forall i, StronglySorted lt (obtained_by i tr)) /\
  sh_counter g <= as_steps P + processes - 1 /\
  length (finishers tr) <= 1 /\
  (Forall returned ws -> sh_stop g = false -> length (finishers tr) = 1) /\
  (forall i k, nth_error ws i = Some k -> returned k ->
     ahook_calls i tr = flat_map (fun t => map (pair t) (seq 0 (as_nhooks P))) (obtained_by i tr)) /\
  (forall i, i < processes -> exists p, advances (protocol_args P) Idle (aview i tr) p).
Proof. intros H. exact (async_ok P H processes offset xs g ws tr). Qed.

(** Three processes stepped in turn, episodes ending after one step, steps = 4: all return, the counter reaches 6 = 4 + 3 - 1,
    process 0 saves. *)
Definition C18_P := mkAsync 4 (Some 3) None 1 true.
Definition C18_xs := concat (repeat [SRun 0 (mkCh false 1 true false (Some 1%Q)); SRun 1 (mkCh false 1 true false None); SRun 2 (mkCh false 1 true false None)] 40).
Example C18_ex :
  let '((g, ws), tr) := train_agent_async 3 0 C18_P C18_xs in
  (sh_counter g, sh_stop g, map wk_pc ws, obtained tr, finishers tr) =
  (6, false, [PcDone; PcDone; PcDone], [(0, 1); (1, 2); (2, 3); (0, 4); (1, 5); (2, 6)], [0]).
Proof. vm_compute. reflexivity. Qed.
Print Assumptions C18_async_training.
