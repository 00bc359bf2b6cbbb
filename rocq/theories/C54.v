(** C54: recurrent batches line up with the packed outputs of the model. *)
From Verif Require Import Base M_ReplayBuffer M_Batch M_Recurrent S_Recurrent P_RecurrentState.
Close Scope Q_scope.

Theorem C54_batch_recurrent : forall S A fuel gamma (eps : list (list (trans (rexper S A)))) sh,
  sorted_desc eps = true -> Forall (fun e => e <> []) eps -> depth sh <= fuel ->
  states_ok sh (starts (fun t => r_rs (payload t)) eps) -> states_ok sh (starts (fun t => r_nrs (payload t)) eps) ->
  exists b, batch_recurrent_experiences fuel gamma eps = Ok b /\
    length (rb_action b) = length (concat eps) /\
    (forall j e t x, nth_error eps j = Some e -> nth_error e t = Some x ->
       let k := flat_place eps t j in
       nth_error (rb_action b) k = Some (x_action (r_exp (payload x))) /\
       nth_error (rb_reward b) k = Some (x_reward (r_exp (payload x))) /\
       nth_error (rb_terminal b) k = Some (if terminal x then 1%Q else 0%Q) /\
       nth_error (rb_discount b) k = Some gamma /\
       (forall nas, rb_next_action b = Some nas -> nth_error (map Some nas) k = Some (x_next_action (r_exp (payload x)))) /\
       (exists st, nth_error (rb_state b) j = Some st /\ nth_error st t = Some (x_state (r_exp (payload x)))) /\
       (exists st, nth_error (rb_next_state b) j = Some st /\ nth_error st t = Some (x_next_state (r_exp (payload x))))) /\
    (rb_next_action b = None <-> exists x, In x (concat eps) /\ x_next_action (r_exp (payload x)) = None) /\
    (forall j x r, nth_error eps j = Some (x :: r) ->
       get_recurrent_state_at (rb_rs b) j = Ok (in_batch sh (starts (fun t => r_rs (payload t)) eps) (r_rs (payload x))) /\
       get_recurrent_state_at (rb_nrs b) j = Ok (in_batch sh (starts (fun t => r_nrs (payload t)) eps) (r_nrs (payload x)))).
Proof. exact @batch_recurrent_spec. Qed.
Print Assumptions C54_batch_recurrent.

Definition ex54 (s : nat) (term : bool) (rs : rstate tens1) : trans (rexper nat nat) :=
  mkTrans (mkRex (mkEx s (100 + s) (inject_Z (Z.of_nat s)) (S s) (Some s)) rs (RTen [[7%Q]])) term.
Definition ex54_eps : list (list (trans (rexper nat nat))) :=
  [[ex54 1 false RNone; ex54 2 true RNone]; [ex54 5 true (RTen [[3%Q]])]].
Example C54_example :
  sorted_desc ex54_eps = true /\
  states_ok (ShT [1]) (starts (fun t => r_rs (payload t)) ex54_eps) /\
  states_ok (ShT [1]) (starts (fun t => r_nrs (payload t)) ex54_eps) /\
  (b <- batch_recurrent_experiences 0 (1 # 2)%Q ex54_eps ;;
   Ok (rb_action b, rb_terminal b, rb_discount b, rb_rs b, rb_state b)) =
   Ok ([101; 105; 102]%nat, [0; 1; 1], [1 # 2; 1 # 2; 1 # 2], RTen [[[0]; [3]]], [[1; 2]%nat; [5%nat]])%Q.
Proof.
  split; [reflexivity|]. split; [|split; [|vm_compute; reflexivity]].
  - change (starts _ ex54_eps) with [RNone; RTen [[3%Q]]]. right. split; [constructor; [now left|constructor; [right; apply (hs_t [[3%Q]])|constructor]]|]. right. left. apply (hs_t [[3%Q]]).
  - change (starts _ ex54_eps) with [RTen [[7%Q]]; RTen [[7%Q]]]. right.
    split; [constructor; [|constructor; [|constructor]]; right; apply (hs_t [[7%Q]])|]. left. apply (hs_t [[7%Q]]).
Qed.
