(** Specification for C143: averages over a random number that is uniform in [0, 1), and averages over what is stored. *)
From Coq Require Import Reals Qreals.
From Verif Require Import Base M_Prioritized S_Prioritized M_PriorityWeights.
Local Open Scope R_scope.

(** The mean of a step function on [0, 1): [pieces] are the lengths of consecutive intervals, and the value the function has in them. *)
Fixpoint steps (start : Q) (pieces : list (Q * R)) (g : Q -> R) : Prop :=
  match pieces with
  | [] => (start == 1)%Q
  | (l, v) :: pieces => (0 <= l)%Q /\ (forall f, (start <= f < start + l)%Q -> g f = v) /\ steps (start + l)%Q pieces g
  end.
Fixpoint Rsum (l : list R) : R := match l with [] => 0 | x :: l => x + Rsum l end.
Definition mean (g : Q -> R) (m : R) : Prop := exists pieces, steps 0%Q pieces g /\ m = Rsum (map (fun p => Q2R (fst p) * snd p) pieces).

(** The element drawn after the draws [fs], times its weight, as a function of the number drawn for it; [loss] is the loss of an element. *)
Definition weighted {A} (w : pwe) (b : pbuf A) (loss : A -> R) (fs : list Q) (f : Q) : R :=
  match prb_sample w b (S (length fs)) (mkSo [] (fs ++ [f])) with
  | Ok (_, _, out) => match nth_error out (length fs) with Some (x, v) => v * loss x | None => 0 end
  | Err _ => 0
  end.
(** The average of the losses of all stored elements: what uniform sampling has in the mean. *)
Definition average {A} (b : pbuf A) (loss : A -> R) : R := Rsum (map loss (data b)) / INR (length (data b)).
(** The same without the elements at [ds] (still divided by the number of all). *)
Definition average_without {A} (b : pbuf A) (loss : A -> R) (ds : list nat) : R :=
  Rsum (map (fun ix => if existsb (Nat.eqb (fst ix)) ds then 0 else loss (snd ix)) (combine (seq 0 (length (data b))) (data b))) / INR (length (data b)).
(** The part of all priorities that is with the elements at [ds]. *)
Definition part {A} (b : pbuf A) (ds : list nat) : R := Q2R (Qsum (at_ixs (weights b) ds)) / Q2R (Qsum (weights b)).
(** "memory" divides all weights by the largest: N times the smallest probability. *)
Definition scale {A} (w : pwe) (b : pbuf A) : R :=
  match norm w with NoNorm => 1 | _ => INR (length (data b)) * (Q2R (Qminl 0 (priorities b)) / Q2R (Qsum (weights b))) end.
(** A buffer that can be sampled: no update of priorities is awaited, and all elements have a positive priority. *)
Definition ready {A} (b : pbuf A) : Prop := reachable b /\ wait_after b && flag_wait b = false /\ data b <> [] /\ Forall (Qlt 0) (weights b).
(** What a batch is trained on: the sum of the weighted losses. *)
Definition weighted_sum {A} (w : pwe) (b : pbuf A) (loss : A -> R) (fs : list Q) : R :=
  match prb_sample w b (length fs) (mkSo [] fs) with
  | Ok (_, _, out) => Rsum (map (fun xv => snd xv * loss (fst xv)) out)
  | Err _ => 0
  end.
