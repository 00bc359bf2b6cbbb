(** Specification for C120: what happened to a PPO agent since its last update, from what can be seen of it. *)
From Coq Require Import QArith.
From Verif Require Import Base M_PPOData M_RecDQN M_PPOAgent.
Close Scope Q_scope. Open Scope nat_scope.

Section Spec.
Context {Ob Act Dist HS Pm : Type}.
Context (cell : Pm -> Ob -> HS -> (Dist * Q) * HS) (zero : HS) (log_prob : Dist -> Act -> Q) (recurrent : bool).
Notation seen := (seen Ob Act Dist HS Pm).
Notation ptr := (ptr Ob Act HS).

(** Training in n environments: the agent acts on n observations, is told n outcomes, acts, and so on.  Evaluation may come in between at any time. *)
Fixpoint proper (n : nat) (acted : bool) (tr : list seen) : Prop :=
  match tr with
  | [] => True
  | Acted true _ obs _ _ :: tr => acted = false /\ length obs = n /\ proper n true tr
  | Observed true l _ :: tr => acted = true /\ length l = n /\ proper n false tr
  | _ :: tr => proper n acted tr
  end.

(** A step as it was taken: what the agent had then (parameters, memory of the episode so far), what the network said, and what came of it. *)
Record taken := mkTaken { k_p : Pm; k_obs : Ob; k_before : HS; k_dist : Dist; k_value : Q; k_action : Act; k_reward : Q; k_next : Ob; k_done : bool }.

(** The notes of an observer: of the i-th environment, what the agent remembers ([n_mem]) and remembered before it acted ([n_before]); the last action ([n_acted]); the steps of the current episode
    since the last update ([n_current]); and the stretches that ended since the last update, in the order in which they ended. *)
Record notes := mkNotes { n_mem : nat -> HS; n_before : nat -> HS; n_acted : list (Pm * Ob * (Dist * Q) * Act); n_current : nat -> list taken; n_ended : list (list taken) }.
Definition no_notes : notes := mkNotes (fun _ => zero) (fun _ => zero) [] (fun _ => []) [].

(** The current stretch of the i-th environment with the step whose outcome is in [l]. *)
Definition grown (b : notes) (l : list (outcome Ob)) (i : nat) : list taken :=
  n_current b i ++
  match nth_error (n_acted b) i, nth_error l i with
  | Some (p, o, (d, v), a), Some (o', r, done, _) => [mkTaken p o (n_before b i) d v a r o' done]
  | _, _ => []
  end.
Definition over (l : list (outcome Ob)) (i : nat) : bool := match nth_error l i with Some y => ends y | None => false end.
Definition outcomes_in (b : notes) (l : list (outcome Ob)) : notes :=
  mkNotes (fun i => if over l i then zero else n_mem b i) (n_before b) (n_acted b) (fun i => if over l i then [] else grown b l i)
    (n_ended b ++ map (grown b l) (filter (over l) (seq 0 (length l)))).
(** All stretches since the last update. *)
Definition stretches (n : nat) (b : notes) : list (list taken) := n_ended b ++ filter (fun ks => negb (length ks =? 0)) (map (n_current b) (seq 0 n)).

Definition note (b : notes) (x : seen) : notes :=
  match x with
  | Acted true p obs ys actions =>
      mkNotes (fun i => match nth_error obs i with Some o => if recurrent then snd (cell p o (n_mem b i)) else zero | None => n_mem b i end) (n_mem b)
        (map (fun x => (p, fst (fst x), snd (fst x), snd x)) (combine (combine obs ys) actions)) (n_current b) (n_ended b)
  | Observed true l u =>
      let b' := outcomes_in b l in
      match u with None => b' | Some _ => mkNotes (n_mem b') (n_before b') (n_acted b') (fun _ => []) [] end
  | _ => b
  end.
Definition noted (tr : list seen) : notes := fold_left note tr no_notes.

(** What the agent remembers of the i-th environment of evaluation: what the network made of the observations of the current evaluation episode, and nothing else. *)
Definition seen_in_evaluation (m : nat -> HS) (x : seen) : nat -> HS :=
  match x with
  | Acted false p obs _ _ => fun i => match nth_error obs i with Some o => if recurrent then snd (cell p o (m i)) else zero | None => m i end
  | Observed false l _ => fun i => if over l i then zero else m i
  | _ => m
  end.
Definition evaluation_memory (tr : list seen) : nat -> HS := fold_left seen_in_evaluation tr (fun _ => zero).
(** Evaluation in m environments. *)
Definition evaluated_in (m : nat) (x : seen) : Prop :=
  match x with Acted false _ obs _ _ => length obs = m | Observed false l _ => length l = m | _ => True end.

(** A transition of a dataset tells of a step: what happened, the recurrent state it was taken in, and the log-probability and the value as they were when it was taken. *)
Definition tells (x : ptr) (k : taken) : Prop :=
  p_state x = k_obs k /\ p_action x = k_action k /\ p_reward x = k_reward k /\ p_next_state x = k_next k /\ p_nonterminal x = (if k_done k then 0%Q else 1%Q) /\
  hid zero (p_rs x) = k_before k /\ p_log_prob x = log_prob (k_dist k) (k_action k) /\ p_v x = k_value k.
End Spec.
