(** Specification for C114: what happened in the environment, read off the record of its calls, and what a minibatch may contain. *)
From Coq Require Import QArith.
From Verif Require Import Base M_Wrappers M_ReplayBuffer S_ReplayBuffer M_Batch S_Batch M_DQN.
Close Scope Q_scope. Open Scope nat_scope.

Section Spec.
Context {Ob Ac J : Type}.

(** An episode: what reset returned, then the actions with what step returned. *)
Definition play : Type := Ob * list (Ac * out Ob J).
Fixpoint on_last {T} (f : T -> T) (l : list T) : list T := match l with [] => [] | [x] => [f x] | x :: t => x :: on_last f t end.
Definition record (ps : list play) (c : cmd Ac * reply Ob J) : list play :=
  match c with
  | (CReset, RReset (Ok o)) => ps ++ [(o, [])]
  | (CStep a, RStep (Ok u)) => on_last (fun p => (fst p, snd p ++ [(a, u)])) ps
  | _ => ps
  end.
Definition plays (log : list (cmd Ac * reply Ob J)) : list play := fold_left record log [].

(** The observations of an episode, from the first to the last. *)
Definition observations (p : play) : list Ob := fst p :: map (fun x => o_obs (snd x)) (snd p).
(** An episode is over if its last step was done, asked for a reset, or was the last one allowed. *)
Definition over (max_len : option nat) (p : play) : bool :=
  match rev (snd p) with
  | [] => false
  | (_, u) :: _ => o_done u || o_needs u || match max_len with Some m => length (snd p) =? m | None => false end
  end.

(** The transitions of an episode. *)
Fixpoint transitions_from (o : Ob) (l : list (Ac * out Ob J)) : list (trans (@entry Ob Ac)) :=
  match l with
  | [] => []
  | (a, u) :: l => mkTrans (o, a, o_rew u, o_obs u) (o_done u) :: transitions_from (o_obs u) l
  end.
Definition transitions (p : play) := transitions_from (fst p) (snd p).

(** What the replay buffer must hold (before it forgets the oldest): for every step of an episode that is over, the window that starts there; for an episode that is not, the complete windows. *)
Definition expected_memory (max_len : option nat) (n : nat) (ps : list play) : list (list (trans (@entry Ob Ac))) :=
  flat_map (fun p => if over max_len p then windows n (transitions p) else full_windows n (transitions p)) ps.

(** One row of a minibatch for n-step learning, at step k of an episode: it looks m steps ahead, n if possible and otherwise to the end of an episode that is over. *)
Definition experience (max_len : option nat) (gamma : Q) (n : nat) (p : play) (s : Ob) (a : Ac) (r : Q) (next : Ob) (terminal discount : Q) : Prop :=
  exists k m u, 1 <= m <= n /\ (m = n \/ (k + m = length (snd p) /\ over max_len p = true)) /\
    nth_error (observations p) k = Some s /\ nth_error (map fst (snd p)) k = Some a /\
    (r == discounted gamma (map (fun x => o_rew (snd x)) (firstn m (skipn k (snd p)))))%Q /\
    nth_error (observations p) (k + m) = Some next /\
    nth_error (map snd (snd p)) (k + m - 1) = Some u /\ terminal = (if o_done u then 1 else 0)%Q /\
    (discount == gpow gamma m)%Q.
(** The same transition as the dictionary given to batch_experiences (without the optional next_action). *)
Definition as_exper (t : trans (@entry Ob Ac)) : trans (exper Ob Ac) :=
  let '(s, a, r, s') := payload t in mkTrans (mkEx s a r s' None) (terminal t).
(** A minibatch all rows of which happened. *)
Definition happened (max_len : option nat) (gamma : Q) (n : nat) (ps : list play) (ws : list (list (trans (@entry Ob Ac)))) : Prop :=
  exists b, batch_experiences gamma (map (map as_exper) ws) = Ok b /\ length (b_state b) = length ws /\
  forall i, i < length ws -> exists p s a r next tm dc, In p ps /\
    nth_error (b_state b) i = Some s /\ nth_error (b_action b) i = Some a /\ nth_error (b_reward b) i = Some r /\ nth_error (b_next_state b) i = Some next /\
    nth_error (b_terminal b) i = Some tm /\ nth_error (b_discount b) i = Some dc /\ experience max_len gamma n p s a r next tm dc.
End Spec.
Arguments play : clear implicits.
