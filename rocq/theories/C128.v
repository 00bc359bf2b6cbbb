(** C128: in floating point a prioritized draw can fall off the end of the buffer, and one call can draw an element twice. *)
From Coq Require Import ZArith.
From Flocq Require Import Core BinarySingleNaN.
From Verif Require Import Base M_Prioritized S_Prioritized M_FloatTree S_FloatTree.
Open Scope Z_scope.

(** Binary64 numbers written as m * 2^e. *)
Notation fl m e := (@B754_finite 53 1024 false m e eq_refl).

(** The largest outcome of numpy's generator below 1: 1 - 2^-53. *)
Definition c128_top : binary64 := fl 9007199254740991 (-53).

Lemma c128_top_unit : is_finite c128_top = true /\ Bltb c128_top (fl 4503599627370496 (-52)) = true /\
  Bleb (B754_zero false) c128_top = true.
Proof. vm_compute. auto. Qed.

(** The claim: a buffer with positive priorities can always be drawn from. *)
Definition always_draws : Prop := forall (ops : list (tq_op binary64)) f,
  held ops <> [] ->
  Forall (fun p => is_finite p = true /\ Bltb (B754_zero false) p = true) (held ops) ->
  is_finite f = true -> Bleb (B754_zero false) f = true -> Bltb f (fl 4503599627370496 (-52)) = true ->
  exists q' ix p, fprioritized_sample b64 (queue_after b64 ops) [f] true = Ok (q', [ix], [p]).

(** Three elements with priorities 0.25, 0.25 + 3 * 2^-53 and 1 + 2^-51. *)
Definition c128_ops := [TAppend (fl 4503599627370496 (-54)); TAppend (fl 4503599627370502 (-54)); TAppend (fl 4503599627370498 (-52))].

Theorem C128_draw_refuted :
  fprioritized_sample b64 (queue_after b64 c128_ops) [c128_top] true = Err AssertionError /\ ~ always_draws.
Proof.
  assert (E : fprioritized_sample b64 (queue_after b64 c128_ops) [c128_top] true = Err AssertionError) by (vm_compute; reflexivity).
  split; [exact E|]. intros H. destruct (H c128_ops c128_top) as (q' & ix & p & E').
  - discriminate.
  - vm_compute. repeat constructor.
  - reflexivity.
  - vm_compute. reflexivity.
  - vm_compute. reflexivity.
  - rewrite E in E'. discriminate.
Qed.
Print Assumptions C128_draw_refuted.

(** Five elements: the descent meets an empty part of the tree. *)
Definition c128_ops5 := map TAppend [fl 4503599627370496 (-55); fl 4503599627370496 (-55); fl 4503599627370496 (-55); fl 4503599627370508 (-55); fl 4503599627370498 (-52)].
Theorem C128_draw5_refuted :
  fprioritized_sample b64 (queue_after b64 c128_ops5) [c128_top] true = Err ValueError.
Proof. vm_compute. reflexivity. Qed.
Print Assumptions C128_draw5_refuted.

(** One call with two draws from four positive priorities: the last element is drawn twice, the second time with priority
    zero; if the priorities are to be kept, that element's priority is afterwards zero. *)
Definition c128_ops4 := c128_ops ++ [TAppend (fl 4503599627370496 (-53))].
Theorem C128_twice_refuted :
  rmap (fun '(_, ixs, ps) => (ixs, ps)) (fprioritized_sample b64 (queue_after b64 c128_ops4) [c128_top; c128_top] true) =
    Ok ([3; 3], [fl 4503599627370496 (-53); B754_zero false]) /\
  rmap (fun '(q', ixs, ps) => (ixs, ps, nth_error (drain 4 (fsum b64) q') 3))
    (fprioritized_sample b64 (queue_after b64 c128_ops4) [c128_top; c128_top] false) =
    Ok ([3; 3], [fl 4503599627370496 (-53); B754_zero false], Some (B754_zero false)) /\
  nth_error (held c128_ops4) 3 = Some (fl 4503599627370496 (-53)).
Proof. split; [|split]; vm_compute; reflexivity. Qed.
Print Assumptions C128_twice_refuted.

(** With exact arithmetic none of this happens (C04): the same three priorities, any outcome of the generator below 1. *)
Example C128_exact : exists q' ix p, fprioritized_sample exactQ
  (queue_after exactQ [TAppend (1 # 4); TAppend (4503599627370502 # 18014398509481984); TAppend (4503599627370498 # 4503599627370496)]%Q)
  [9007199254740991 # 9007199254740992]%Q true = Ok (q', [ix], [p]).
Proof. eexists _, _, _. vm_compute. reflexivity. Qed.
