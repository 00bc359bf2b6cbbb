(** C13: batch_experiences aggregates n-step windows correctly. *)
From Verif Require Import Base M_ReplayBuffer S_ReplayBuffer M_Batch S_Batch P_Batch.
From Coq Require Import QArith.
Close Scope Q_scope.

(** For every list of non-empty windows the call succeeds and every entry is the one specified by [entry_ok]; next
    actions are provided iff every last transition has one. *)
Theorem C13_batch : forall S A gamma (exps : list (list (trans (exper S A)))), Forall (fun w => w <> []) exps ->
  exists b, batch_experiences gamma exps = Ok b /\
    length (b_state b) = length exps /\ length (b_action b) = length exps /\ length (b_reward b) = length exps /\
    length (b_next_state b) = length exps /\ length (b_terminal b) = length exps /\ length (b_discount b) = length exps /\
    (forall i w, nth_error exps i = Some w -> exists s a r ns tm dc,
        nth_error (b_state b) i = Some s /\ nth_error (b_action b) i = Some a /\ nth_error (b_reward b) i = Some r /\
        nth_error (b_next_state b) i = Some ns /\ nth_error (b_terminal b) i = Some tm /\ nth_error (b_discount b) i = Some dc /\
        entry_ok gamma w s a r ns tm dc) /\
    match b_next_action b with
    | Some nas => Forall2 (fun w na => exists init last, w = init ++ [last] /\ x_next_action (payload last) = Some na) exps nas
    | None => exists w init last, In w exps /\ w = init ++ [last] /\ x_next_action (payload last) = None
    end.
Proof. exact @batch_ok. Qed.
Print Assumptions C13_batch.

(** Together with the buffer: of the windows of a terminated episode exactly those that reach its end are marked
    terminal (so exactly the others are bootstrapped). *)
Theorem C13_terminal_windows : forall S A n (ep : list (trans (exper S A))) z i, 0 < n -> terminal z = true ->
  Forall (fun t => terminal t = false) ep -> i <= length ep ->
  existsb terminal (window n (ep ++ [z]) i) = (length ep <? i + n).
Proof. exact @window_terminal. Qed.
Print Assumptions C13_terminal_windows.

Definition c13_t (s : nat) (r : Q) (tm : bool) : trans (exper nat nat) := mkTrans (mkEx s (10 + s) r (S s) (Some (11 + s))) tm.
Example C13_case :
  batch_experiences (1 # 2)%Q [[c13_t 1 4 false; c13_t 2 2 false; c13_t 3 8 true]; [c13_t 7 5 false]]
  = Ok (mkBatch [1; 7] [11; 17] [(56 # 8)%Q; 5%Q] [4; 8] [1%Q; 0%Q] [(1 # 8)%Q; (1 # 2)%Q] (Some [14; 18])).
Proof. vm_compute. reflexivity. Qed.
