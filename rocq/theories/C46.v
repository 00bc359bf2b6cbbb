(** C46: time-first flattening lines up with packed sequences. *)
From Verif Require Import Base M_Recurrent S_Recurrent P_Recurrent.
From Coq Require Import Permutation.
Close Scope Q_scope.

(** Every element exactly once (elements that are None are left out). *)
Theorem C46_each_once : forall (X : Type) (l : list (list (option X))),
  Permutation (flatten_sequences_time_first l) (not_none (concat l)).
Proof. exact @flatten_perm. Qed.
Print Assumptions C46_each_once.

(** Element t of sequence j is at place(t, j); places are ordered by time, then by sequence. *)
Theorem C46_order : forall (X : Type) (l : list (list X)),
  (forall j s t x, nth_error l j = Some s -> nth_error s t = Some x ->
     nth_error (flatten_sequences_time_first (map (map Some) l)) (place l t j) = Some x) /\
  (forall j s t j' s' t', nth_error l j = Some s -> t < length s -> nth_error l j' = Some s' -> t' < length s' ->
     (t < t' \/ (t = t' /\ j < j')) -> place l t j < place l t' j') /\
  length (flatten_sequences_time_first (map (map Some) l)) = length (concat l).
Proof.
  exact (fun X l => conj (@flatten_place X l) (conj (@place_order X l) (Permutation_length (flatten_perm_some l)))).
Qed.
Print Assumptions C46_order.

(** For sequences sorted by decreasing length: element t of sequence j comes after the earlier times and j other elements. *)
Theorem C46_sorted_place : forall (X : Type) (l : list (list X)) j s t, sorted_desc l = true -> nth_error l j = Some s -> t < length s ->
  place l t j = flat_place l t j.
Proof. exact @sorted_place. Qed.
Print Assumptions C46_sorted_place.

(** It is torch's packed order, with torch's batch sizes. *)
Theorem C46_pack_sequence : forall (X : Type) (l : list (list X)), l <> [] -> Forall (fun s => s <> []) l -> sorted_desc l = true ->
  exists p, torch_pack l = Ok p /\ p_data p = flatten_sequences_time_first (map (map Some) l) /\ p_sorted p = None /\
    p_sizes p = map (n_longer l) (seq 0 (list_max (map (@length _) l))).
Proof. exact @pack_flatten. Qed.
Print Assumptions C46_pack_sequence.

(** Nested tuples of sequences: packing and unwrapping flattens each component. *)
Theorem C46_pack_recursive : forall (X : Type) (f : tree (list X)) rest, same_shape f f -> Forall (same_shape f) rest ->
  (forall p ls, map (fun s => leaf_at s p) (f :: rest) = map Some ls -> Forall (fun s => s <> []) ls /\ sorted_desc ls = true) ->
  exists pk, pack_sequences_recursive (f :: rest) = Ok pk /\ same_shape f pk /\
    forall p ls, map (fun s => leaf_at s p) (f :: rest) = map Some ls ->
      leaf_at (unwrap pk) p = Some (flatten_sequences_time_first (map (map Some) ls)).
Proof. exact @pack_recursive_ok. Qed.
Print Assumptions C46_pack_recursive.

(** Unwrapping what was wrapped, wrapping what was unwrapped, and packing and unpacking a one-step batch change nothing. *)
Theorem C46_unwrap_wrap : forall (X : Type) sizes sorted (t : tree (list X)), unwrap (wrap sizes sorted t) = t.
Proof. exact @unwrap_wrap. Qed.
Print Assumptions C46_unwrap_wrap.
Theorem C46_wrap_unwrap : forall (X : Type) sizes sorted (t : tree (packed X)),
  (forall p pk, leaf_at t p = Some pk -> p_sizes pk = sizes /\ p_sorted pk = sorted) -> wrap sizes sorted (unwrap t) = t.
Proof. exact @wrap_unwrap. Qed.
Print Assumptions C46_wrap_unwrap.
(** What the agents' networks do: the batch sizes and the sorting indices of packed sequences are enough to wrap what was unwrapped. *)
Theorem C46_info : forall (X : Type) (t : tree (packed X)) info, packed_info t = Some info ->
  (forall p pk q qk, leaf_at t p = Some pk -> leaf_at t q = Some qk -> p_sizes pk = p_sizes qk /\ p_sorted pk = p_sorted qk) -> wrap (fst info) (snd info) (unwrap t) = t.
Proof. exact @rewrap. Qed.
Print Assumptions C46_info.
Theorem C46_no_info : forall (X : Type) (t : tree (packed X)), packed_info t = None -> forall p, leaf_at t p = None.
Proof. exact @packed_info_none. Qed.
Print Assumptions C46_no_info.
Example C46_info_example :
  let t := Tup [Tup []; Tup [Leaf (mkPacked [1; 3; 2] [2; 1] (Some [1; 0])); Leaf (mkPacked [5; 7; 6] [2; 1] (Some [1; 0]))]] in
  packed_info t = Some ([2; 1], Some [1; 0]) /\ packed_info (Tup [Tup []] : tree (packed nat)) = None.
Proof. vm_compute. auto. Qed.
Theorem C46_one_step_batch : forall (X : Type) (t : tree (list X)), (forall p xs, leaf_at t p = Some xs -> xs <> []) ->
  exists pk, pack_one_step t = Ok pk /\ unwrap pk = t.
Proof. exact @pack_unpack_one_step. Qed.
Print Assumptions C46_one_step_batch.

Example C46_example :
  flatten_sequences_time_first (map (map Some) [[11; 12; 13]; [21]; [31; 32]]) = [11; 21; 31; 12; 32; 13] /\
  place [[11; 12; 13]; [21]; [31; 32]] 1 2 = 4 /\
  torch_pack [[11; 12; 13]; [31; 32]; [21]] = Ok (mkPacked [11; 31; 21; 12; 32; 13] [3; 2; 1] None) /\
  pack_sequences_recursive [Tup [Leaf [1; 2]; Leaf [5; 6]]; Tup [Leaf [3]; Leaf [7]]] =
    Ok (Tup [Leaf (mkPacked [1; 3; 2] [2; 1] None); Leaf (mkPacked [5; 7; 6] [2; 1] None)]).
Proof. vm_compute. auto. Qed.
