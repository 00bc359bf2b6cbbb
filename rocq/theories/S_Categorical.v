(** Specification of the categorical projection. *)
From Coq Require Import QArith Qminmax Qabs.
From Verif Require Import Base M_ReplayBuffer M_Batch S_Targets.
Open Scope nat_scope.

(** n >= 2 evenly spaced atoms from v_min upwards. *)
Definition atoms (v_min delta : Q) (n : nat) : list Q := map (fun i => v_min + delta * inject_Z (Z.of_nat i))%Q (seq 0 n).

(** The value nearest to x within [lo, hi]. *)
Definition nearest_in (lo hi x c : Q) : Prop := (lo <= c <= hi)%Q /\ ((lo <= x <= hi)%Q -> (c == x)%Q) /\ ((x < lo)%Q -> (c == lo)%Q) /\ ((hi < x)%Q -> (c == hi)%Q).

(** mean of a distribution on given values *)
Fixpoint mean_of (p z : list Q) : Q := match p, z with a :: p, b :: z => (a * b + mean_of p z)%Q | _, _ => 0%Q end.

(** Linear interpolation between neighbouring atoms: the share of an atom at distance d from the value. *)
Definition share (delta d : Q) : Q := Qmax 0 (1 - Qabs d / delta).

(** [t] is the distribution [dist] of the value after window [w], with every atom x moved to the n-step target of x (first moved into the
    range of the support) and shared between its neighbours.  [c] are those targets. *)
Definition is_target {S A} (gamma : Q) (w : list (trans (exper S A))) (v_min delta : Q) (n : nat) (dist t : list Q) : Prop :=
  exists c, Forall2 (fun x c => nearest_in v_min (v_min + delta * inject_Z (Z.of_nat (n - 1))) (nstep gamma w x) c) (atoms v_min delta n) c /\
    length t = n /\ (forall j, j < n -> (nth j t 0 == mean_of dist (map (fun c => share delta (c - nth j (atoms v_min delta n) 0)) c))%Q) /\
    (total t == total dist)%Q /\ (mean_of t (atoms v_min delta n) == mean_of dist c)%Q.
