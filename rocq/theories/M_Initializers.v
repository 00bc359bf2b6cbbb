(** Weight initialisers: pfrl/initializers/lecun_normal.py and pfrl/initializers/chainer_default.py, for linear layers.
    Simplified: real arithmetic; [z] are the standard normal draws of [Tensor.normal_], one row for each output; convolutions are not modelled. *)
From Coq Require Import Reals.
From Verif Require Import Base M_NoisyLinear.
Open Scope R_scope.

(** pfrl/initializers/lecun_normal.py:5-10; the fan-in of a linear layer is its number of inputs *)
Definition init_lecun_normal (fan_in : nat) (scale : R) (z : list (list R)) : list (list R) :=
  let std := scale * sqrt (1 / INR fan_in) in
  map (map (fun d => 0 + std * d)) z.

(** pfrl/initializers/chainer_default.py:10-21 for nn.Linear: weight and bias of the layer *)
Definition init_chainer_default (n_in : nat) (has_bias : bool) (z : list (list R)) : list (list R) * option (list R) :=
  (init_lecun_normal n_in 1 z, if has_bias then Some (repeat 0 (length z)) else None).
