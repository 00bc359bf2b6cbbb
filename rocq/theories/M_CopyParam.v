(** Model of pfrl/utils/copy_param.py:4-23 and 38-42.  A module's state_dict maps names to tensors; a tensor is identified by its storage, which
    two names may share (tied parameters).  [heap] gives the tensors.  Floats are rationals (no rounding); copying between tensors of
    different dtypes is [cast]. *)
From Coq Require Import QArith.
From Verif Require Import Base Vec.
Open Scope nat_scope.

Inductive dtype := F16 | F32 | F64 | BF16 | I64 | Bool.
Definition is_floating (d : dtype) : bool := match d with F16 | F32 | F64 | BF16 => true | _ => false end.
Record tensor := mkT { dt : dtype; shape : list nat; data : vec }.
Definition heap := list tensor.
(** state_dict(): an ordered dict from names to (detached) tensors sharing the storage of the module's *)
Definition dict := list (nat * nat).
Definition lookup (d : dict) (k : nat) : option nat := option_map snd (find (fun e => fst e =? k) d).
Definition shape_eqb (a b : list nat) : bool := if list_eq_dec Nat.eq_dec a b then true else false.
Definition get (h : heap) (r : nat) : result tensor := match nth_error h r with Some t => Ok t | None => Err RuntimeError end.

Section Copy.
  Context (cast : dtype -> dtype -> Q -> Q).

  (** torch.nn.Module.load_state_dict with strict=True: entries of the same name and shape are copied into the module's tensors (param.copy_);
      then any missing or unexpected name, or differing shape, is reported as a RuntimeError. *)
  Fixpoint load_items (h : heap) (target source : dict) : result heap :=
    match target with
    | [] => Ok h
    | (k, r) :: target =>
        match lookup source k with
        | None => load_items h target source
        | Some s =>
            ts <- get h s ;; tt' <- get h r ;;
            if shape_eqb (shape tt') (shape ts)
            then load_items (list_set h r (mkT (dt tt') (shape tt') (map (cast (dt ts) (dt tt')) (data ts)))) target source
            else load_items h target source
        end
    end.
  Definition mismatch (h : heap) (target source : dict) : bool :=
    existsb (fun e => match lookup source (fst e) with
                      | None => true
                      | Some s => match nth_error h (snd e), nth_error h s with Some a, Some b => negb (shape_eqb (shape a) (shape b)) | _, _ => true end
                      end) target
    || existsb (fun e => match lookup target (fst e) with None => true | Some _ => false end) source.
  (** the heap after the call, and whether it raised *)
  Definition load_state_dict (h : heap) (target source : dict) : result (heap * bool) :=
    h' <- load_items h target source ;; Ok (h', mismatch h target source).

  (** 4-6 *)
  Definition copy_param (h : heap) (target source : dict) : result (heap * bool) := load_state_dict h target source.

  (** 9-23; the loop runs over the items of target_dict.  In the last branch only the (temporary) dict is changed, which no heap content depends on. *)
  Definition soft_item (h : heap) (source : dict) (tau : Q) (k r : nat) : result heap :=
    match lookup source k with
    | None => Err KeyError
    | Some s =>
        source_value <- get h s ;; target_value <- get h r ;;
        match dt source_value with
        | F32 | F64 | F16 =>
            _ <- passert (shape_eqb (shape target_value) (shape source_value)) ;;
            (* mul_ and add_ on an integer tensor with a float: RuntimeError *)
            _ <- (if is_floating (dt target_value) then Ok tt else Err RuntimeError) ;;
            let h := list_set h r (mkT (dt target_value) (shape target_value) (vscale (1 - tau) (data target_value))) in
            source_value <- get h s ;; target_value <- get h r ;;
            Ok (list_set h r (mkT (dt target_value) (shape target_value) (vadd (data target_value) (map (cast (dt source_value) (dt target_value)) (vscale tau (data source_value))))))
        | _ => Ok h
        end
    end.
  Fixpoint soft_copy_param (h : heap) (target source : dict) (tau : Q) : result heap :=
    match target with
    | [] => Ok h
    | (k, r) :: target => h <- soft_item h source tau k r ;; soft_copy_param h target source tau
    end.
  (** 38-42 *)
  Inductive method := Hard | Soft (tau : Q).
  Definition synchronize_parameters (h : heap) (src dst : dict) (m : method) : result (heap * bool) :=
    match m with Hard => copy_param h dst src | Soft tau => h <- soft_copy_param h dst src tau ;; Ok (h, false) end.
End Copy.
