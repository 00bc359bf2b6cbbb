(** Model of compute_loss_with_kl_constraint: pfrl/agents/acer.py:207-249.  The gradients g (of the original loss) and k (of -KL) with respect to
    the parameters of the distribution come from torch.autograd and are arguments; each is a list with one flat tensor per parameter of the
    distribution.  Floats are rationals (no NaN or rounding).  The shape and requires_grad assertions (219-221) and the returned KL value are not
    modelled. *)
From Coq Require Import QArith Qminmax.
From Verif Require Import Base Vec.
Open Scope Q_scope.

(** 238-239: sum(torch.dot(...) for ... in zip(...)) *)
Definition dots (ks gs : list vec) : Q := fold_left (fun s p => s + vdot (fst p) (snd p)) (combine ks gs) 0.
(** 240-243 *)
Definition k_factor (k g : list vec) (delta : Q) : Q :=
  let kg_dot := dots k g in
  let kk_dot := dots k k in
  if negb (Qle_bool kk_dot 0) then Qmax 0 ((kg_dot - delta) / kk_dot) else 0.
(** 244 *)
Definition constrained (k g : list vec) (delta : Q) : list vec :=
  map (fun p => vsub (snd p) (vscale (k_factor k g delta) (fst p))) (combine k g).
(** 245-247; (p * zp).sum() *)
Definition constrained_loss (params k g : list vec) (delta : Q) : Q :=
  fold_left (fun s p => s + vdot (fst p) (snd p)) (combine params (constrained k g delta)) 0.
