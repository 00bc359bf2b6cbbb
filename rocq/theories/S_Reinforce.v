(** Specification of REINFORCE's updates. *)
From Coq Require Import QArith.
From Verif Require Import Base M_Reinforce.
Open Scope nat_scope.

Definition sum (l : list Q) : Q := fold_right Qplus 0%Q l.

Section Spec.
  Context {K : Type}.

  (** The gradient applied by each optimizer step: everything backpropagated since the last zero_grad. *)
  Fixpoint applied (acc : list (Q * K)) (evs : list (event K)) : list (list (Q * K)) :=
    match evs with
    | [] => []
    | ZeroGrad :: t => applied [] t
    | Backward ts :: t => applied (acc ++ ts) t
    | OptStep :: t => acc :: applied acc t
    end.
  Definition events_of (rs : list (result (list (event K)))) : list (event K) :=
    concat (map (fun r => match r with Ok e => e | Err _ => [] end) rs).

  (** Reference: the actions and rewards of the current episode; the finished episodes waiting for an update.  A reset without done throws
      the episode away.  An update uses [batchsize] finished episodes. *)
  Record ref := { acting : option K; current : list (K * Q); finished : list (list (K * Q)) }.
  Definition ref_init : ref := {| acting := None; current := []; finished := [] |}.
  Definition ref_call (batchsize : nat) (p : ref) (o : op K) : ref * list (list (list (K * Q))) :=
    match o with
    | Act true k => ({| acting := Some k; current := current p; finished := finished p |}, [])
    | Observe true r d z =>
      match acting p with
      | Some k =>
        let ep := current p ++ [(k, r)] in
        if d then
          let f := finished p ++ [ep] in
          if length f =? batchsize then ({| acting := None; current := []; finished := [] |}, [f])
          else ({| acting := None; current := []; finished := f |}, [])
        else if z then ({| acting := None; current := []; finished := finished p |}, [])
        else ({| acting := None; current := ep; finished := finished p |}, [])
      | None => (p, [])
      end
    | Act false _ | Observe false _ _ _ => (p, [])
    end.

  Fixpoint alternating (observe_next : bool) (ops : list (op K)) : Prop :=
    match ops with
    | [] => True
    | Act true _ :: t => observe_next = false /\ alternating true t
    | Observe true _ _ _ :: t => observe_next = true /\ alternating false t
    | Act false _ :: t | Observe false _ _ _ :: t => alternating observe_next t
    end.

  (** The terms used for an episode: one per action, in order, with coefficient f t for the t-th action. *)
  Definition terms_of (f : list Q -> nat -> Q) (ep : list (K * Q)) (ts : list (Q * K)) : Prop :=
    map snd ts = map fst ep /\ forall t c k, nth_error ts t = Some (c, k) -> (c == f (map snd ep) t)%Q.

  (** An update that uses these episodes, each once. *)
  Definition update_of (f : list Q -> nat -> Q) (eps : list (list (K * Q))) (ts : list (Q * K)) : Prop :=
    exists tss, ts = concat tss /\ Forall2 (terms_of f) eps tss.
End Spec.
Arguments ref : clear implicits.

(** The return of action t: r_t + ... + r_T. *)
Definition return_from (rs : list Q) (t : nat) : Q := sum (skipn t rs).
(** What the code computes instead: r_{t+1} + ... + r_T + r_T. *)
Definition shifted_return (rs : list Q) (t : nat) : Q := (sum (skipn (S t) rs) + last rs 0)%Q.
