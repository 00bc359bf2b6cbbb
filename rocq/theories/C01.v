(** C01: RandomAccessQueue is a bounded FIFO sequence. *)
From Verif Require Import Base M_RandomAccessQueue S_RandomAccessQueue P_RandomAccessQueue.

(** For every [maxlen], every initial content and every operation sequence: the constructor succeeds, all outputs
    (values, lengths, iteration results, IndexErrors) are those of the list specification, the final contents agree,
    and the length never exceeds [maxlen]. *)
Theorem C01_raq_refines_list :
  forall (A : Type) (ml : option nat) (xs : list A) (ops : list (raq_op A)),
  exists q, raq_init ml xs = Ok q /\
    snd (run raq_step q ops) = snd (run (spec_step ml) (trunc ml xs) ops) /\
    raq_iter (fst (run raq_step q ops)) = fst (run (spec_step ml) (trunc ml xs) ops) /\
    match ml with None => True | Some m => raq_len (fst (run raq_step q ops)) <= m end.
Proof. exact @raq_refinement. Qed.
Print Assumptions C01_raq_refines_list.

(** A concrete history: eviction, both index signs, assignment, out-of-range errors, popping to empty. *)
Example C01_case :
  exists q, raq_init (Some 3) [1; 2; 3; 4; 5] = Ok q /\
  snd (run raq_step q
    [OIter; OGet 0%Z; OGet (-1)%Z; OPopleft; OAppend 6; OAppend 7; OIter; OSet (-3)%Z 9; OGet 0%Z; OSet 1%Z 8;
     OIter; OGet 3%Z; OGet (-4)%Z; OSet 3%Z 0; OPopleft; OPopleft; OPopleft; OPopleft; OExtend [1;2;3;4]; OIter; OLen])
  = [RList [3;4;5]; RVal 3; RVal 5; RVal 3; RUnit; RUnit; RList [5;6;7]; RUnit; RVal 9; RUnit;
     RList [9;8;7]; RExn IndexError; RExn IndexError; RExn IndexError; RVal 9; RVal 8; RVal 7; RExn IndexError;
     RUnit; RList [2;3;4]; RLen 3].
Proof. eexists. split; [reflexivity|]. vm_compute. reflexivity. Qed.
