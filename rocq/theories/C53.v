(** C53: recurrent states: concatenating, selecting, masking. *)
From Verif Require Import Base M_Recurrent S_Recurrent P_RecurrentState.
Close Scope Q_scope.

(** Concatenating states of single sequences and selecting one again returns it; None becomes zeros when another is not None. *)
Theorem C53_concatenate_get : forall sh fuel l, depth sh <= fuel -> states_ok sh l ->
  exists r, concatenate_recurrent_states fuel l = Ok r /\
    forall i s, nth_error l i = Some s -> get_recurrent_state_at r i = Ok (in_batch sh l s).
Proof. exact concat_ok. Qed.
Print Assumptions C53_concatenate_get.

(** Masking sets exactly the listed sequences to zero and leaves the others. *)
Theorem C53_mask : forall B indices, Forall (fun i => i < B) indices -> forall s, batch_of B s ->
  exists s', mask_recurrent_state_at s indices = Ok s' /\ batch_of B s' /\
    forall j, j < B -> exists a b, get_recurrent_state_at s j = Ok a /\ get_recurrent_state_at s' j = Ok b /\
      rs_rel (mask_rel (existsb (Nat.eqb j) indices)) a b.
Proof. exact mask_ok. Qed.
Print Assumptions C53_mask.

Definition ex53 : list (rstate tens1) :=
  [RTup [RTen [[1; 2]]; RTen [[3]]]; RNone; RTup [RTen [[4; 5]]; RTen [[6]]]]%Q.
Example C53_example_states : states_ok (ShU [ShT [2]; ShT [1]]) ex53.
Proof.
  assert (H1 : has_shape (ShU [ShT [2]; ShT [1]]) (RTup [RTen [[1; 2]]; RTen [[3]]]%Q)).
  { constructor. constructor; [apply (hs_t [[1; 2]%Q])|]. constructor; [apply (hs_t [[3]%Q])|constructor]. }
  assert (H2 : has_shape (ShU [ShT [2]; ShT [1]]) (RTup [RTen [[4; 5]]; RTen [[6]]]%Q)).
  { constructor. constructor; [apply (hs_t [[4; 5]%Q])|]. constructor; [apply (hs_t [[6]%Q])|constructor]. }
  right. split; [|now left]. constructor; [now right|]. constructor; [now left|]. constructor; [now right|constructor].
Qed.
Example C53_example :
  (r <- concatenate_recurrent_states 1 ex53 ;; Ok r) = Ok (RTup [RTen [[[1; 2]; [0; 0]; [4; 5]]]; RTen [[[3]; [0]; [6]]]])%Q /\
  (r <- concatenate_recurrent_states 1 ex53 ;; m <- mask_recurrent_state_at r [2] ;; get_recurrent_state_at m 0)
    = Ok (RTup [RTen [[1 * 1; 2 * 1]]; RTen [[3 * 1]]])%Q.
Proof. vm_compute. auto. Qed.
