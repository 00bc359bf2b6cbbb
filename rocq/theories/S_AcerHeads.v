(** Specification: finite distributions of actions and expectations. *)
From Coq Require Import Reals.
From Verif Require Import Base.
Open Scope R_scope.

Definition total (l : list R) : R := fold_right Rplus 0 l.
(** actions with their probabilities *)
Definition policy (A : Type) : Type := list (A * R).
Definition is_policy {A} (pi : policy A) : Prop := total (map snd pi) = 1.
Definition expect {A} (pi : policy A) (f : A -> R) : R := total (map (fun p => snd p * f (fst p)) pi).
(** expectation over n independent draws *)
Fixpoint expect_draws {A} (pi : policy A) (n : nat) (f : list A -> R) : R :=
  match n with O => f [] | S n => expect pi (fun a => expect_draws pi n (fun l => f (a :: l))) end.
