(** Model of pfrl/nn/empirical_normalization.py:6-111.  One coordinate of the input at a time: every operation acts on each coordinate
    separately, [count] is common to all.  A batch is the list of the values of that coordinate.  float32 is replaced by real numbers. *)
From Coq Require Import Reals.
From Verif Require Import Base.
Open Scope R_scope.

Record norm := mkN { mean : R; var : R; count : nat; cached_std_inverse : option R }.

(** 20-46 __init__ *)
Definition init : norm := mkN 0 1 0 None.

Fixpoint rsum (l : list R) : R := match l with [] => 0 | x :: t => x + rsum t end.
(** torch.var_mean(x, unbiased=False) *)
Definition t_mean (x : list R) : R := rsum x / INR (length x).
Definition t_var (x : list R) : R := rsum (map (fun v => (v - t_mean x) * (v - t_mean x)) x) / INR (length x).

(** 63-86 experience; the two assertions on [rate] cannot fail for exact numbers and are left out *)
Definition experience (until : option nat) (s : norm) (x : list R) : norm :=
  if match until with Some u => (u <=? count s)%nat | None => false end then s
  else
    let count_x := length x in
    if (count_x =? 0)%nat then s
    else
      let count' := (count s + count_x)%nat in
      let rate := INR count_x / INR count' in
      let delta_mean := t_mean x - mean s in
      let mean' := mean s + rate * delta_mean in
      let var' := var s + rate * (t_var x - var s + delta_mean * (t_mean x - mean')) in
      mkN mean' var' count' None.

(** 56-61 _std_inverse: computed once and kept until [experience] learns something *)
Definition std_inverse (eps : R) (s : norm) : norm * R :=
  match cached_std_inverse s with
  | Some v => (s, v)
  | None => let v := / sqrt (var s + eps) in (mkN (mean s) (var s) (count s) (Some v), v)
  end.

(** torch.clamp *)
Definition clamp (lo hi x : R) : R := Rmin (Rmax x lo) hi.

(** 88-107 forward *)
Definition forward (eps : R) (until : option nat) (clip_threshold : option R) (s : norm) (x : list R) (update : bool) : norm * list R :=
  let s := if update then experience until s x else s in
  let '(s, inv) := std_inverse eps s in
  let normalized := map (fun v => (v - mean s) * inv) x in
  (s, match clip_threshold with Some c => map (clamp (- c) c) normalized | None => normalized end).

(** 109-111 inverse *)
Definition inverse (eps : R) (s : norm) (y : list R) : list R := map (fun v => v * sqrt (var s + eps) + mean s) y.

(** 48-54 the properties [mean] and [std] *)
Definition std (s : norm) : R := sqrt (var s).

(** nn.Module.state_dict / load_state_dict: the registered buffers _mean, _var and count.  The cache is an ordinary attribute. *)
Definition state_dict (s : norm) : R * R * nat := (mean s, var s, count s).
Definition load_state_dict (s : norm) (d : R * R * nat) : norm := let '(m, v, c) := d in mkN m v c (cached_std_inverse s).
