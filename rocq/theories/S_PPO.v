(** Specification vocabulary for PPO and TRPO data handling. *)
From Coq Require Import QArith Qpower Permutation.
From Verif Require Import Base M_PPO.
Open Scope nat_scope.

(** f 0 + c f 1 + ... + c^(n-1) f (n-1) *)
Definition discounted_sum (c : Q) (f : nat -> Q) (n : nat) : Q :=
  fold_right (fun l acc => (Qpower c (Z.of_nat l) * f l + acc)%Q) 0%Q (seq 0 n).

(** [pieces] is obtained from [ss] by cutting its sequences at some places, keeping the order. *)
Inductive cut {T} : list (list T) -> list (list T) -> Prop :=
| cut_nil : cut [] []
| cut_whole s ps ss : cut ps ss -> cut (s :: ps) (s :: ss)
| cut_more a b p ps ss : cut (p :: ps) (b :: ss) -> cut (a :: p :: ps) ((a ++ b) :: ss).

Section Store.
  Context {Ob Act : Type}.
  Notation tr := (transition Ob Act).

  (** The transitions of one environment, each with the mark "this one ended the episode", grouped into episodes (the last group may be
      an episode still going on). *)
  Fixpoint segments {T} (l : list (T * bool)) : list (list T) :=
    match l with
    | [] => []
    | (x, ended) :: t =>
      if ended then [x] :: segments t
      else match segments t with [] => [[x]] | s :: ss => (x :: s) :: ss end
    end.

  (** The reference: per environment, the transitions not yet used, in order.  *)
  Record pending := { acted : list (Ob * Act); pend : list (list (tr * bool)) }.
  Definition pending_init (n : nat) : pending := {| acted := []; pend := repeat [] n |}.

  Definition experience (sa : Ob * Act) (r : Q) (next : Ob) (done reset : bool) : tr * bool :=
    ({| t_state := fst sa; t_action := snd sa; t_reward := r; t_next_state := next; t_nonterminal := if done then 0%Q else 1%Q |},
     done || reset).

  Fixpoint add_experiences (p : list (list (tr * bool))) sas rs nexts dones resets : list (list (tr * bool)) :=
    match p, sas, rs, nexts, dones, resets with
    | e :: p, sa :: sas, r :: rs, nx :: nexts, d :: dones, z :: resets => (e ++ [experience sa r nx d z]) :: add_experiences p sas rs nexts dones resets
    | _, _, _, _, _, _ => []
    end.

  (** An act remembers states and actions; an observe adds one transition per environment; when at least [update_interval] are
      pending, everything pending is handed over, grouped into episodes, and nothing stays pending. *)
  Definition ref_call (update_interval : nat) (p : pending) (o : op Ob Act) : pending * option (list (list tr)) :=
    match o with
    | BatchAct true obs acts => ({| acted := combine obs acts; pend := pend p |}, None)
    | BatchObserve true obs rs dones resets =>
      let l := add_experiences (pend p) (acted p) rs obs dones resets in
      if update_interval <=? length (concat l)
      then ({| acted := []; pend := map (fun _ => []) l |}, Some (concat (map segments l)))
      else ({| acted := []; pend := l |}, None)
    | BatchAct false _ _ | BatchObserve false _ _ _ _ => (p, None)
    end.

  (** The training calls alternate act, observe on [n] environments; evaluation calls may come anywhere. *)
  Fixpoint alternating (n : nat) (observe_next : bool) (ops : list (op Ob Act)) : Prop :=
    match ops with
    | [] => True
    | BatchAct true obs acts :: t => observe_next = false /\ length obs = n /\ length acts = n /\ alternating n true t
    | BatchObserve true obs rs dones resets :: t =>
      observe_next = true /\ length obs = n /\ length rs = n /\ length dones = n /\ length resets = n /\ alternating n false t
    | BatchAct false _ _ :: t | BatchObserve false _ _ _ _ :: t => alternating n observe_next t
    end.

  (** The dataset contains exactly these episodes: in some order of the episodes, each kept in one piece and in time order; for a
      recurrent agent with a length limit, cut into pieces of at most that length. *)
  Definition dataset_of (recurrent : option (option nat)) (d : dataset Ob Act) (episodes : list (list tr)) : Prop :=
    exists segs, Permutation segs episodes /\
      match recurrent, d with
      | None, Flat l => l = concat segs
      | Some None, Sequences l => l = segs
      | Some (Some m), Sequences l => cut l segs /\ Forall (fun s => 0 < length s <= m) l
      | _, _ => False
      end.

  Definition same_update (recurrent : option (option nat)) (r : result (option (dataset Ob Act))) (u : option (list (list tr))) : Prop :=
    match r, u with
    | Ok None, None => True
    | Ok (Some d), Some episodes => dataset_of recurrent d episodes
    | _, _ => False
    end.
End Store.

(** All transitions observed in training mode, over a whole history. *)
Section History.
  Context {Ob Act : Type}.
  Fixpoint zip_experiences (sas : list (Ob * Act)) rs nexts dones resets : list (transition Ob Act) :=
    match sas, rs, nexts, dones, resets with
    | sa :: sas, r :: rs, nx :: nexts, d :: dones, z :: resets => fst (experience sa r nx d z) :: zip_experiences sas rs nexts dones resets
    | _, _, _, _, _ => []
    end.
  Fixpoint observed (sas : list (Ob * Act)) (ops : list (op Ob Act)) : list (transition Ob Act) :=
    match ops with
    | [] => []
    | BatchAct true obs acts :: t => observed (combine obs acts) t
    | BatchObserve true obs rs dones resets :: t => zip_experiences sas rs obs dones resets ++ observed [] t
    | BatchAct false _ _ :: t | BatchObserve false _ _ _ _ :: t => observed sas t
    end.
  Definition used (r : result (option (dataset Ob Act))) : list (transition Ob Act) :=
    match r with Ok (Some (Flat l)) => l | Ok (Some (Sequences l)) => concat l | _ => [] end.
End History.
