(** Model of the use of pfrl/explorers/additive_ou.py by the agents: successive calls of select_action on one explorer.  One component
    of the action (numpy computes the components separately); [z] as in M_Explorers.additive_ou. *)
From Coq Require Import Reals QArith.
From Verif Require Import Base M_Explorers.
Open Scope Q_scope.

(** additive_ou.py:43-57 called for each (greedy action, normal sample) in turn; ou_state is never reset. *)
Fixpoint ou_calls (mu theta : Q) (start_with_mu : bool) (s : option Q) (l : list (Q * Q)) : option Q * list Q :=
  match l with
  | [] => (s, [])
  | (a, z) :: l =>
      let (s1, u) := additive_ou mu theta start_with_mu s a z in
      let (s2, us) := ou_calls mu theta start_with_mu s1 l in (s2, u :: us)
  end.

(** ddpg.py:270-274 (and td3.py:285-290): one batch_act calls the same explorer for each environment in turn. *)
Fixpoint ou_rounds (mu theta : Q) (start_with_mu : bool) (s : option Q) (rounds : list (list (Q * Q))) : option Q * list (list Q) :=
  match rounds with
  | [] => (s, [])
  | r :: rs => let (s1, us) := ou_calls mu theta start_with_mu s r in
               let (s2, uss) := ou_rounds mu theta start_with_mu s1 rs in (s2, us :: uss)
  end.

(** additive_ou.py:49-50: sigma_stable. *)
Definition sigma_stable (theta sigma : R) : R := (sigma / sqrt (2 * theta - theta * theta))%R.
