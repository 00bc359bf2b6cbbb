(** Model of OptunaPrunerHook: pfrl/experiments/evaluation_hooks.py:54-103. *)
From Verif Require Import Base M_Train M_Evaluator M_TrainEval.
Open Scope nat_scope.

Section Pruner.
(** [report score step] and [should_prune]: the methods of the optuna trial, which is part of the world; [pruned] is the exception optuna.TrialPruned(). *)
Context {W : Type} (report : Q -> nat -> W -> W) (should_prune : W -> bool) (pruned : exn).
(** 71-73: the hook supports train_agent and train_agent_batch (and not train_agent_async); 100-103: the call.  That optuna is installed is assumed. *)
Definition optuna_hook : ehook W := {|
  h_train := true; h_batch := true;
  h_call := fun step mean w => let w := report mean step w in (w, if should_prune w then Err pruned else Ok tt) |}.
End Pruner.
