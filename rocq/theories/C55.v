(** C55: recurrent sequential models are the composition of their layers. *)
From Verif Require Import Base M_Recurrent S_Recurrent P_RecurrentState.
Close Scope Q_scope.

(** With one state per recurrent layer, forward is the plain composition: layers in order, the k-th recurrent layer gets the
    k-th state and produces the k-th new state. *)
Theorem C55_sequential : forall (X ST : Type) (ls : list (layer X ST)) h info states,
  packed_info h = Some info -> length states = n_rec ls ->
  sequential_forward ls h (Some states) = compose info ls h states /\
  (forall out r, compose info ls h states = Ok (out, r) -> length r = n_rec ls).
Proof. exact @sequential_ok. Qed.
Print Assumptions C55_sequential.

(** State None is one None per recurrent layer; a state of the wrong length is rejected. *)
Theorem C55_initial_state : forall (X ST : Type) (ls : list (layer X ST)) h,
  sequential_forward ls h None = sequential_forward ls h (Some (repeat None (n_rec ls))).
Proof. exact @sequential_none. Qed.
Print Assumptions C55_initial_state.
Theorem C55_wrong_length : forall (X ST : Type) (ls : list (layer X ST)) h states,
  length states <> n_rec ls -> sequential_forward ls h (Some states) = Err AssertionError.
Proof. exact @sequential_mismatch. Qed.
Print Assumptions C55_wrong_length.

(** Branches: each gets the input and its own state. *)
Theorem C55_branched : forall (X ST Y : Type) (bs : list (tree (packed X) -> option ST -> result (Y * ST))) h states ys,
  bs <> [] -> length states = length bs ->
  Forall2 (fun bst y => fst bst h (snd bst) = Ok y) (combine bs states) ys ->
  branched_forward bs h (Some states) = Ok (map fst ys, map snd ys).
Proof. exact @branched_ok. Qed.
Print Assumptions C55_branched.

Definition ex55_add (p : packed nat) (k : nat) : packed nat := mkPacked (map (Nat.add k) (p_data p)) (p_sizes p) (p_sorted p).
Definition ex55_rec : tree (packed nat) -> option nat -> result (tree (packed nat) * nat) := fun h s =>
  match h with
  | Leaf p => let k := match s with Some k => k | None => 0 end in Ok (Leaf (ex55_add p k), k + 1)
  | Tup _ => Err TypeError
  end.
Definition ex55_ff : tree (list nat) -> result (tree (list nat)) := fun h =>
  match h with Leaf l => Ok (Leaf (map (Nat.mul 2) l)) | Tup _ => Err TypeError end.
Definition ex55_layers : list (layer nat nat) := [LFf ex55_ff; LFf ex55_ff; LRec ex55_rec; LFf ex55_ff; LRec ex55_rec].
Example C55_example :
  sequential_forward ex55_layers (Leaf (mkPacked [1; 2; 3] [2; 1] None)) (Some [Some 10; Some 20]) =
    Ok (Leaf (mkPacked [48; 56; 64] [2; 1] None), [11; 21]) /\
  sequential_forward ex55_layers (Leaf (mkPacked [1; 2; 3] [2; 1] None)) None =
    Ok (Leaf (mkPacked [8; 16; 24] [2; 1] None), [1; 1]).
Proof. vm_compute. auto. Qed.
