(** Specification side for module graphs: reachability, and the network as a tree of classes. *)
From Verif Require Import Base M_Modules.

(** [child h x y]: module [y] is a direct child of module [x]. *)
Definition child (h : heap) (x y : nat) : Prop :=
  exists n name, nth_error h x = Some n /\ In (name, y) (n_children n).

(** [y] is [x] or a descendant of [x] (torch's [x.modules()]). *)
Inductive part_of (h : heap) : nat -> nat -> Prop :=
| part_self : forall x, part_of h x x
| part_child : forall x y z, child h x y -> part_of h y z -> part_of h x z.

(** The module graph below [x] is finite: following children ends after at most [d] steps. *)
Fixpoint depth_le (h : heap) (d : nat) (x : nat) : Prop :=
  match d with
  | O => False
  | S d' => exists n, nth_error h x = Some n /\ forall name c, In (name, c) (n_children n) -> depth_le h d' c
  end.

Definition mode_of (h : heap) (x : nat) : option bool := option_map n_training (nth_error h x).

(** The class and the children of every module are the same in both heaps. *)
Definition same_structure (h h' : heap) : Prop :=
  length h = length h'
  /\ forall x, option_map n_kind (nth_error h x) = option_map n_kind (nth_error h' x)
               /\ option_map n_children (nth_error h x) = option_map n_children (nth_error h' x).

(** What a network looks like from outside: classes and names, without identities. *)
Inductive tree := T (k : kind) (children : list (nat * tree)).

Fixpoint sequence {A} (l : list (option A)) : option (list A) :=
  match l with
  | [] => Some []
  | Some a :: l' => match sequence l' with Some r => Some (a :: r) | None => None end
  | None :: _ => None
  end.

Fixpoint view (d : nat) (h : heap) (x : nat) : option tree :=
  match d with
  | O => None
  | S d' =>
      match nth_error h x with
      | None => None
      | Some n =>
          option_map (T (n_kind n))
            (sequence (map (fun p => option_map (pair (fst p)) (view d' h (snd p))) (n_children n)))
      end
  end.

(** A noisy layer with the sizes of a linear one. *)
Definition noisy_tree (i o : nat) (b : bool) : tree :=
  T (Noisy i o b) [(0, T (Linear i o b) []); (1, T (Linear i o b) [])].

(** The network with every linear layer made noisy. *)
Fixpoint made_noisy (t : tree) : tree :=
  match t with
  | T (Linear i o b) _ => noisy_tree i o b
  | T k cs => T k (map (fun p => (fst p, made_noisy (snd p))) cs)
  end.

(** No linear layer is left outside noisy layers, and every noisy layer consists of two plain linear layers
    (what its forward computation reads: [mu.weight], [sigma.weight]). *)
Fixpoint all_noisy (t : tree) : Prop :=
  match t with
  | T (Linear _ _ _) _ => False
  | T (Noisy i o b) cs => cs = [(0, T (Linear i o b) []); (1, T (Linear i o b) [])]
  | T (Other _) cs => (fix all (l : list (nat * tree)) : Prop :=
                         match l with [] => True | (_, t') :: l' => all_noisy t' /\ all l' end) cs
  end.

(** All occurrences of modules in the network below [x], with repetitions. *)
Fixpoint occurrences (d : nat) (h : heap) (x : nat) : list nat :=
  match d with
  | O => []
  | S d' =>
      x :: match nth_error h x with
           | None => []
           | Some n => flat_map (fun p => occurrences d' h (snd p)) (n_children n)
           end
  end.

(** The dictionaries of a network's modules have distinct keys. *)
Definition names_ok (d : nat) (h : heap) (x : nat) : Prop :=
  forall y n, In y (occurrences d h x) -> nth_error h y = Some n -> NoDup (map fst (n_children n)).

(** A network without noisy layers. *)
Fixpoint plain (t : tree) : Prop :=
  match t with
  | T (Noisy _ _ _) _ => False
  | T (Linear _ _ _) _ => True
  | T (Other _) cs => (fix all (l : list (nat * tree)) : Prop :=
                         match l with [] => True | (_, t') :: l' => plain t' /\ all l' end) cs
  end.
