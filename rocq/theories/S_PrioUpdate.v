(** Specification for C124: what the priorities, probabilities and weights of a prioritized replay buffer are to be, from the history of
    a training run alone. *)
From Coq Require Import QArith Qminmax.
From Verif Require Import Base M_Prioritized M_PriorityWeights M_ReplayBuffer S_ReplayBuffer M_PrioUpdate.
Local Open Scope nat_scope.

(** The experience of a transition is named by its first transition. *)
Definition name (w : nwindow) : nat := match w with t :: _ => payload t | [] => 0 end.

(** The transitions of a run, numbered in the order in which they were observed. *)
Fixpoint observed (next : nat) (ops : list pop) : list (rb_op nat) :=
  match ops with
  | [] => []
  | PlAct e term :: t => RAppend e (mkTrans next term) :: observed (S next) t
  | PlStop e :: t => RStop e :: observed next t
  | PlUpdate _ _ _ :: t => observed next t
  end.

(** The history of a run: experiences become available, and the agent learns from experiences with certain errors. *)
Inductive event := Stored (i : nat) | Learned (i : nat) (error : Q).

(** The experiences that become available with an observation. *)
Definition newly (n : nat) (past : list (rb_op nat)) (o : rb_op nat) : list nwindow :=
  skipn (length (stored n (env_of o) past)) (stored n (env_of o) (past ++ [o])).

(** The history, latest event first.  [lessons] is what was learned from with each operation: experience, weight and error. *)
Fixpoint history_from (n next : nat) (past : list (rb_op nat)) (h : list event) (ops : list pop) (lessons : list (list (nwindow * Q * Q))) : list event :=
  match ops, lessons with
  | PlUpdate _ _ _ :: ops, l :: ls =>
      history_from n next past (rev (map (fun x => Learned (name (fst (fst x))) (snd x)) l) ++ h) ops ls
  | PlAct e term :: ops, _ :: ls => let o := RAppend e (mkTrans next term) in
      history_from n (S next) (past ++ [o]) (rev (map (fun w => Stored (name w)) (newly n past o)) ++ h) ops ls
  | PlStop e :: ops, _ :: ls => let o := RStop e in
      history_from n next (past ++ [o]) (rev (map (fun w => Stored (name w)) (newly n past o)) ++ h) ops ls
  | _, _ => h
  end.
Definition history n ops lessons := history_from n 0 [] [] ops lessons.

(** The priority that an error gives. *)
Definition clipped (lo hi : option Q) (e : Q) : Q :=
  let e := match lo with Some m => Qmax m e | None => e end in match hi with Some m => Qmin m e | None => e end.
Definition priority_of_error (pow : Q -> Q -> Q) (w : qpwe) (e : Q) : Q :=
  pow (clipped (qerror_min w) (qerror_max w) e + qeps w)%Q (qalpha w).

(** The highest priority given so far; 1 in the beginning. *)
Fixpoint highest (pr : Q -> Q) (h : list event) : Q :=
  match h with
  | [] => 1%Q
  | Stored _ :: t => highest pr t
  | Learned _ e :: t => let m := highest pr t in if Qlt_le_dec m (pr e) then pr e else m
  end.

(** The priority of experience [i]: that of its latest error, or the highest priority at the time it was stored. *)
Fixpoint priority (pr : Q -> Q) (h : list event) (i : nat) : option Q :=
  match h with
  | [] => None
  | Stored j :: t => if j =? i then Some (highest pr t) else priority pr t i
  | Learned j e :: t => if j =? i then Some (pr e) else priority pr t i
  end.

(** [m] is the least element of [l]. *)
Definition least (m : Q) (l : list Q) : Prop := (exists x, In x l /\ m == x)%Q /\ forall x, In x l -> (m <= x)%Q.

(** What a probability is compared with in its weight: the least probability in the batch or in the memory, or the uniform one. *)
Definition baseline (nm : normalize) (batch memory : list Q) (base : Q) : Prop :=
  match nm with
  | NormBatch => least base batch
  | NormMemory => least base memory
  | NoNorm => (base == 1 / inject_Z (Z.of_nat (length memory)))%Q
  end.

(** Contracts: the numbers drawn are in [0, 1), errors are not negative, at least one experience is drawn. *)
Definition pop_ok (op : pop) : Prop :=
  match op with
  | PlUpdate n o err => 0 < n /\ length (so_fracs o) = n /\ so_uniform o = [] /\ Forall (fun f => 0 <= f < 1)%Q (so_fracs o) /\ forall x, (0 <= err x)%Q
  | _ => True
  end.
(** eps is positive and errors are not clipped below zero. *)
Definition config_ok (w : qpwe) : Prop := (0 < qeps w)%Q /\ match qerror_max w with Some m => (0 <= m)%Q | None => True end.
(** The power function: positive for positive bases, and a function of the values. *)
Definition pow_ok (pow : Q -> Q -> Q) : Prop :=
  (forall x y, 0 < x -> 0 < pow x y)%Q /\ (forall x x' y y', x == x' -> y == y' -> pow x y == pow x' y')%Q.
