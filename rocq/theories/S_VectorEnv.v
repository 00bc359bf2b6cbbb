(** Specification for C24. *)
From Verif Require Import Base M_VectorEnv.
Open Scope nat_scope.

(** One action, one mask entry and one seed per environment. *)
Definition call_ok {A S} (n : nat) (c : call A S) : Prop :=
  match c with KStep actions => length actions = n | KReset (Some m) => length m = n | KSeed (SList l) => length l = n | _ => True end.
(** The same call for the serial environment, which only takes a list of seeds. *)
Definition as_serial {A S} (n : nat) (c : call A S) : call A S :=
  match c with KSeed SNone => KSeed (SList (repeat None n)) | KSeed (SInt s) => KSeed (SList (repeat (Some s) n)) | _ => c end.
(** seed() of the serial environment returns nothing. *)
Definition ignoring_seed_values {Ob X V} (r : result (answer Ob X V)) : result (answer Ob X V) :=
  match r with Ok (AVals _) => Ok ANone | _ => r end.
Definition is_close {A S} (c : call A S) : bool := match c with KClose => true | _ => false end.

Definition finished {W Ob A X S V} (s : @system W Ob A X S V) : Prop := mn_cur (fst s) = None /\ mn_todo (fst s) = [].
