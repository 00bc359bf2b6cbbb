(** Model of AttributeSavingMixin: pfrl/agent.py:73-144.  Objects live in a heap (identity matters for the loop check).  [St] is the content
    of a module or optimizer, i.e. its state_dict; contents of different objects are taken to be disjoint.  File "<dir>/<attr>.pt" is
    represented by the path dir ++ [attr]; torch.save/torch.load keep the content (map_location changes only the device). *)
From Verif Require Import Base.

Section Saving.
  Context {St : Type}.
  Notation name := nat.

  Inductive attr := AMissing | ANone | ARef (id : nat).
  Inductive obj :=
  | Leaf (content : St)                                      (* has state_dict and load_state_dict *)
  | Wrap (module : nat)                                      (* DataParallel or DistributedDataParallel *)
  | Mixin (saved_attributes : list name) (getattr : name -> attr).   (* an AttributeSavingMixin *)
  Definition heap := list obj.
  Definition files := list (list name * St).

  Definition path_eqb (p q : list name) : bool := if list_eq_dec Nat.eq_dec p q then true else false.
  Definition read (fs : files) (p : list name) : result St :=
    match find (fun f => path_eqb (fst f) p) fs with Some f => Ok (snd f) | None => Err RuntimeError (* FileNotFoundError *) end.
  Definition deref (h : heap) (i : nat) : result obj := match nth_error h i with Some o => Ok o | None => Err RuntimeError end.

  (** 97-103 and 131-137: .module if wrapped; only one level is taken off *)
  Definition unwrap (h : heap) (i : nat) : result nat := o <- deref h i ;; match o with Wrap m => Ok m | _ => Ok i end.
  Definition state_dict (h : heap) (i : nat) : result St := o <- deref h i ;; match o with Leaf c => Ok c | _ => Err AttributeError end.
  Definition load_state_dict (h : heap) (i : nat) (c : St) : result heap := o <- deref h i ;; match o with Leaf _ => Ok (list_set h i (Leaf c)) | _ => Err AttributeError end.

  (** 85-108 __save; [fuel] bounds the depth of recursion.  [save_attrs] is the loop over saved_attributes, [rec] the recursive call. *)
  Fixpoint save_attrs (rec : files -> list name -> nat -> result files) (h : heap) (dirname : list name) (ancestors : list nat) (getattr : name -> attr)
      (names : list name) (fs : files) : result files :=
    match names with
    | [] => Ok fs
    | a :: names =>
        fs <- match getattr a with
              | AMissing => Err AssertionError
              | ANone => Ok fs
              | ARef v =>
                  ov <- deref h v ;;
                  match ov with
                  | Mixin _ _ =>
                      _ <- passert (negb (existsb (Nat.eqb v) ancestors)) ;;
                      rec fs (dirname ++ [a]) v
                  | _ => m <- unwrap h v ;; c <- state_dict h m ;; Ok ((dirname ++ [a], c) :: fs)
                  end
              end ;;
        save_attrs rec h dirname ancestors getattr names fs
    end.
  Fixpoint save_ (fuel : nat) (h : heap) (ancestors : list nat) (fs : files) (dirname : list name) (self : nat) : result files :=
    match fuel with
    | 0 => Err OutOfFuel
    | S fuel =>
        o <- deref h self ;;
        match o with
        | Mixin saved getattr =>
            let ancestors := ancestors ++ [self] in
            save_attrs (save_ fuel h ancestors) h dirname ancestors getattr saved fs
        | _ => Err AttributeError
        end
    end.
  (** 81-83 *)
  Definition save (h : heap) (fs : files) (dirname : list name) (self : nat) : result files := save_ (S (length h)) h [] fs dirname self.

  (** 114-144 __load.  Nested objects are loaded through the public [load], which starts with no ancestors (110-112). *)
  Fixpoint load_attrs (rec : heap -> list name -> nat -> result heap) (fs : files) (dirname : list name) (ancestors : list nat) (getattr : name -> attr)
      (names : list name) (h : heap) : result heap :=
    match names with
    | [] => Ok h
    | a :: names =>
        h <- match getattr a with
             | AMissing => Err AssertionError
             | ANone => Ok h
             | ARef v =>
                 ov <- deref h v ;;
                 match ov with
                 | Mixin _ _ =>
                     _ <- passert (negb (existsb (Nat.eqb v) ancestors)) ;;
                     rec h (dirname ++ [a]) v
                 | _ => m <- unwrap h v ;; c <- read fs (dirname ++ [a]) ;; load_state_dict h m c
                 end
             end ;;
        load_attrs rec fs dirname ancestors getattr names h
    end.
  Fixpoint load_ (fuel : nat) (fs : files) (h : heap) (dirname : list name) (self : nat) : result heap :=
    match fuel with
    | 0 => Err OutOfFuel
    | S fuel =>
        o <- deref h self ;;
        match o with
        | Mixin saved getattr => load_attrs (load_ fuel fs) fs dirname [self] getattr saved h
        | _ => Err AttributeError
        end
    end.
  Definition load (h : heap) (fs : files) (dirname : list name) (self : nat) : result heap := load_ (S (length h)) fs h dirname self.
End Saving.
Arguments attr : clear implicits. Arguments obj : clear implicits. Arguments heap : clear implicits. Arguments files : clear implicits.
