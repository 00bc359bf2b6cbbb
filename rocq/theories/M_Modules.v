(** Model of code that walks over a network's module graph:
    pfrl/utils/contexts.py (evaluating), pfrl/nn/noisy_chain.py (to_factorized_noisy) and the constructor of
    pfrl/nn/noisy_linear.py (FactorizedNoisyLinear).

    Modules are objects with identity: a heap maps object identities (positions) to modules, and a module's
    [_modules] dictionary is a list of (name, identity of the child) in insertion order.  The same module may
    occur under several names.  Parameters, buffers and forward computations are not represented here, only
    the class of each module, its [training] flag and its children. *)
From Verif Require Import Base.

(** The classes the modelled code distinguishes: torch.nn.Linear (in_features, out_features, has bias),
    FactorizedNoisyLinear (same data), and any other module class. *)
Inductive kind :=
| Linear (i o : nat) (b : bool)
| Noisy (i o : nat) (b : bool)
| Other (tag : nat).

Record node := { n_kind : kind; n_training : bool; n_children : list (nat * nat) }.

Definition heap := list node.

Definition set_training (h : heap) (x : nat) (m : bool) : heap :=
  match nth_error h x with
  | Some n => list_set h x {| n_kind := n_kind n; n_training := m; n_children := n_children n |}
  | None => h
  end.

(** torch's [Module.named_children()]: the items of [_modules], leaving out every module that was already
    yielded under an earlier name. *)
Fixpoint named_children (seen : list nat) (l : list (nat * nat)) : list (nat * nat) :=
  match l with
  | [] => []
  | (name, c) :: l' =>
      if existsb (Nat.eqb c) seen then named_children seen l'
      else (name, c) :: named_children (c :: seen) l'
  end.

(** torch's [Module.train(mode)]: [self.training = mode; for module in self.children(): module.train(mode)].
    The fuel bounds the depth of the recursion; [OutOfFuel] stands for Python's RecursionError. *)
Fixpoint train (fuel : nat) (h : heap) (x : nat) (mode : bool) : result heap :=
  match fuel with
  | O => Err OutOfFuel
  | S f =>
      match nth_error h x with
      | None => Err AttributeError
      | Some n =>
          (fix go (l : list (nat * nat)) (h : heap) : result heap :=
             match l with
             | [] => Ok h
             | (_, c) :: l' => h' <- train f h c mode ;; go l' h'
             end) (named_children [] (n_children n)) (set_training h x mode)
      end
  end.

(** pfrl/utils/contexts.py:4-13, [with evaluating(net): body].  The body runs on the heap with the network in
    evaluation mode and returns the heap it leaves, together with the exception it raised, if any.  The
    [finally] clause runs in both cases. *)
Definition evaluating (fuel : nat) (net : nat) (body : heap -> heap * option exn) (h : heap)
  : result (heap * option exn) :=
  match nth_error h net with
  | None => Err AttributeError
  | Some n =>
      let istrain := n_training n in
      h1 <- train fuel h net false ;;
      let (h2, e) := body h1 in
      if istrain then h3 <- train fuel h2 net true ;; Ok (h3, e) else Ok (h2, e)
  end.

(** pfrl/nn/noisy_linear.py:34-51, the constructor: fresh Linear modules [mu] (name 0) and [sigma] (name 1) of
    the given link's sizes, inside a new module.  All three are in training mode, torch's default.  Initial
    weights are not represented. *)
Definition new_noisy (h : heap) (i o : nat) (b : bool) : heap * nat :=
  let lin := {| n_kind := Linear i o b; n_training := true; n_children := [] |} in
  let mu := length h in
  (h ++ [lin; lin; {| n_kind := Noisy i o b; n_training := true; n_children := [(0, mu); (1, S mu)] |}],
   S (S mu)).

(** [module._modules[name] = new_child] for a name that is already present. *)
Definition set_child (h : heap) (x name c : nat) : heap :=
  match nth_error h x with
  | Some n =>
      list_set h x
        {| n_kind := n_kind n; n_training := n_training n;
           n_children := map (fun p => if Nat.eqb (fst p) name then (name, c) else p) (n_children n) |}
  | None => h
  end.

(** pfrl/nn/noisy_chain.py:11-33, [to_factorized_noisy] and [_map_modules] with [func_to_factorized_noisy]
    inlined.  The children are listed once, before the loop; the loop of the code reads the dictionary while
    replacing the value of the current key only, which lists the same items. *)
Fixpoint map_modules (fuel : nat) (h : heap) (x : nat) : result heap :=
  match fuel with
  | O => Err OutOfFuel
  | S f =>
      match nth_error h x with
      | None => Err AttributeError
      | Some n =>
          (fix go (l : list (nat * nat)) (h : heap) : result heap :=
             match l with
             | [] => Ok h
             | (name, c) :: l' =>
                 match nth_error h c with
                 | None => Err AttributeError
                 | Some cn =>
                     match n_kind cn with
                     | Linear i o b => let (h', c') := new_noisy h i o b in go l' (set_child h' x name c')
                     | _ => h' <- map_modules f h c ;; go l' h'
                     end
                 end
             end) (named_children [] (n_children n)) h
      end
  end.

Definition to_factorized_noisy (fuel : nat) (h : heap) (x : nat) : result heap := map_modules fuel h x.
