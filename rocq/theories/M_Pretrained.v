(** Model of pfrl/utils/pretrained_models.py: several processes asking for pretrained models that share one models directory.
    Modelled: the order of all file operations and lock operations of [cached_download] and [download_and_store_model]; exceptions
    and the death of a process at any point.  One label is one file operation.
    Simplified: the names of directories are left out (one archive per model, md5 taken to be injective); the extraction of one member
    is one step; making directories, progress output and temporary directories leave no trace; [shutil.move] and [os.rename] are
    atomic (same file system); the operating system releases a file lock when its owner dies; servers always send the same archive. *)
From Verif Require Import Base.

Section Pretrained.
(** [model]: the triple (alg, env, model_type); [byte], [member]: contents. *)
Context {byte member : Type}.
(** The archive on the server, what unzipping a file gives ([None]: zipfile.BadZipFile), and the assertions of [download_model] (lines 171-174). *)
Variable remote : nat -> list byte.
Variable unzip : list byte -> option (list member).
Variable supported : nat -> bool.

(** Where a process is.  The model it was asked for is the first argument. *)
Inductive pc :=
| Idle
| WaitModels (k : nat)              (* pretrained_models.py:146: FileLock(models.lock) *)
| HasModels (k : nat)               (* 147-151: holds models.lock; tests whether the archive is there *)
| WaitCache1 (k : nat)              (* 112: FileLock(_dl_lock) *)
| HasCache1 (k : nat)               (* 113-114: tests whether the cache is there *)
| Fetching (k : nat) (got : list byte) (* 115-121: urlretrieve into a temporary file *)
| WaitCache2 (k : nat) (got : list byte) (* 122 *)
| HasCache2 (k : nat) (got : list byte)  (* 123: shutil.move(temp_path, cache_path) *)
| Renaming (k : nat)                (* 154: os.rename(cache_path, path) *)
| Opening (k : nat)                 (* 155: zipfile.ZipFile(path) *)
| Unpacking (k : nat) (todo : list member) (* 156: extractall(root) *)
| Returned (k : nat) (is_cached : bool)    (* 157 *)
| Raised
| Dead.

Record st := mkSt {
  s_models : option nat;   (* the owner of models.lock *)
  s_dl : option nat;       (* the owner of _dl_lock *)
  s_cache : nat -> option (list byte);   (* the file at cache_path *)
  s_zip : nat -> option (list byte);     (* the file at path *)
  s_unpacked : nat -> list member;       (* members extracted *)
  s_fetched : list nat;                  (* ghost: completed downloads *)
  s_pc : nat -> pc }.

Definition upd {X} (f : nat -> X) (i : nat) (x : X) : nat -> X := fun j => if Nat.eqb j i then x else f j.
Definition goto (s : st) (p : nat) (c : pc) : st := mkSt (s_models s) (s_dl s) (s_cache s) (s_zip s) (s_unpacked s) (s_fetched s) (upd (s_pc s) p c).
Definition lock_models (s : st) (o : option nat) : st := mkSt o (s_dl s) (s_cache s) (s_zip s) (s_unpacked s) (s_fetched s) (s_pc s).
Definition lock_dl (s : st) (o : option nat) : st := mkSt (s_models s) o (s_cache s) (s_zip s) (s_unpacked s) (s_fetched s) (s_pc s).
Definition set_cache (s : st) (k : nat) (c : option (list byte)) : st := mkSt (s_models s) (s_dl s) (upd (s_cache s) k c) (s_zip s) (s_unpacked s) (s_fetched s) (s_pc s).
Definition set_zip (s : st) (k : nat) (c : list byte) : st := mkSt (s_models s) (s_dl s) (s_cache s) (upd (s_zip s) k (Some c)) (s_unpacked s) (s_fetched s) (s_pc s).
Definition unpack (s : st) (k : nat) (m : member) : st := mkSt (s_models s) (s_dl s) (s_cache s) (s_zip s) (upd (s_unpacked s) k (s_unpacked s k ++ [m])) (s_fetched s) (s_pc s).
Definition fetched (s : st) (k : nat) : st := mkSt (s_models s) (s_dl s) (s_cache s) (s_zip s) (s_unpacked s) (k :: s_fetched s) (s_pc s).
Definition free (o : option nat) : bool := match o with None => true | Some _ => false end.
(** Leaving the [with] blocks, or dying: the process owns no lock any more. *)
Definition disown (o : option nat) (p : nat) : option nat := match o with Some q => if Nat.eqb q p then None else o | None => None end.
Definition leave (s : st) (p : nat) : st := lock_dl (lock_models s (disown (s_models s) p)) (disown (s_dl s) p).

(** What happens next: [Call]: download_model is called; [Go]: the next operation of the process; [Chunk]: at most [n] more bytes arrive;
    [Fail]: the operation raises an exception (connection error, ContentTooShortError, full disk, BadZipFile, KeyboardInterrupt); [Kill]: the process dies. *)
Inductive label := Call (p k : nat) | Go (p : nat) | Chunk (p n : nat) | Fail (p : nat) | Kill (p : nat).

Definition busy (c : pc) : bool := match c with Idle | Returned _ _ | Raised | Dead => false | _ => true end.

(** pretrained_models.py:160-177 (download_model), 130-157 (download_and_store_model), 89-127 (cached_download). *)
Definition step (s : st) (l : label) : option st :=
  match l with
  | Call p k => match s_pc s p with
                | Idle | Returned _ _ | Raised => Some (goto s p (if supported k then WaitModels k else Raised))
                | _ => None end
  | Go p => match s_pc s p with
            | WaitModels k => if free (s_models s) then Some (goto (lock_models s (Some p)) p (HasModels k)) else None
            | HasModels k => match s_zip s k with
                             | Some _ => Some (goto (leave s p) p (Returned k true))
                             | None => Some (goto s p (WaitCache1 k)) end
            | WaitCache1 k => if free (s_dl s) then Some (goto (lock_dl s (Some p)) p (HasCache1 k)) else None
            | HasCache1 k => match s_cache s k with
                             | Some _ => Some (goto (lock_dl s None) p (Renaming k))
                             | None => Some (goto (lock_dl s None) p (Fetching k [])) end
            | Fetching k got => if Nat.eqb (length got) (length (remote k)) then Some (goto (fetched s k) p (WaitCache2 k got)) else None
            | WaitCache2 k got => if free (s_dl s) then Some (goto (lock_dl s (Some p)) p (HasCache2 k got)) else None
            | HasCache2 k got => Some (goto (lock_dl (set_cache s k (Some got)) None) p (Renaming k))
            | Renaming k => match s_cache s k with
                            | Some c => Some (goto (set_zip (set_cache s k None) k c) p (Opening k))
                            | None => Some (goto (leave s p) p Raised) end
            | Opening k => match s_zip s k with
                           | Some c => match unzip c with
                                       | Some ms => Some (goto s p (Unpacking k ms))
                                       | None => Some (goto (leave s p) p Raised) end
                           | None => Some (goto (leave s p) p Raised) end
            | Unpacking k (m :: ms) => Some (goto (unpack s k m) p (Unpacking k ms))
            | Unpacking k [] => Some (goto (leave s p) p (Returned k false))
            | _ => None end
  | Chunk p n => match s_pc s p with
                 | Fetching k got => Some (goto s p (Fetching k (got ++ firstn n (skipn (length got) (remote k)))))
                 | _ => None end
  | Fail p => if busy (s_pc s p) then Some (goto (leave s p) p Raised) else None
  | Kill p => Some (goto (leave s p) p Dead)
  end.
Fixpoint steps (s : st) (ls : list label) : option st :=
  match ls with [] => Some s | l :: t => match step s l with Some s' => steps s' t | None => None end end.

(** An empty models directory, no process inside. *)
Definition start : st := mkSt None None (fun _ => None) (fun _ => None) (fun _ => []) [] (fun _ => Idle).
End Pretrained.
