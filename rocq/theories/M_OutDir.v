(** Model of pfrl/experiments/prepare_output_dir.py. *)
From Verif Require Import Base.
From Coq Require Export String Ascii.
Open Scope nat_scope.

(** A file system: directories by path; a directory is a list of files (name relative to the directory, content).  Subdirectories are names
    containing slashes; permissions, links and times are not modelled. *)
Definition dir := list (string * string).
Definition fs := list (string * dir).
Fixpoint lookup {X} (k : string) (l : list (string * X)) : option X := match l with [] => None | (k', x) :: l => if String.eqb k k' then Some x else lookup k l end.
Fixpoint put {X} (k : string) (x : X) (l : list (string * X)) : list (string * X) :=
  match l with [] => [(k, x)] | (k', y) :: l => if String.eqb k k' then (k, x) :: l else (k', y) :: put k x l end.
Definition get (s : fs) (d f : string) : option string := match lookup d s with Some x => lookup f x | None => None end.

(** Atomic changes: make a directory, set the content of a file, append to a file (both create it if need be). *)
Inductive op := MkDir (d : string) | Set_ (d f c : string) | Append (d f c : string).
Definition apply (o : op) (s : fs) : fs :=
  match o with
  | MkDir d => match lookup d s with Some _ => s | None => put d [] s end
  | Set_ d f c => match lookup d s with Some x => put d (put f c x) s | None => s end
  | Append d f c => match lookup d s with Some x => put d (put f (match lookup f x with Some c0 => c0 | None => EmptyString end ++ c)%string x) s | None => s end
  end.
Definition apply_all (os : list op) (s : fs) : fs := fold_left (fun s o => apply o s) os s.

(** Exceptions of the standard library: shutil.copytree and subprocess, json. *)
Inductive failure := FileExistsError | CalledProcessError | NotSerializable.

(** What the function reads: the answers of git (None: the command fails), the clock (timestamp and, later, the time for start.txt),
    environment variables and sys.argv, at import and now. *)
Record inputs := mkIn { i_git : bool; i_head : option string; i_status : option string; i_log : option string; i_diff : option string;
  i_timestamp : string; i_time : string; i_environ : string; i_argv_import : list string; i_argv_now : list string }.
(** Arguments.  [p_args] is the JSON text of args, None if it cannot be serialized. *)
Record params := mkParams { p_args : option string; p_basedir : string; p_exp_id : option string; p_argv : option (list string); p_make_backup : bool }.

Section Prepare.
(** crc32 in hexadecimal; pickle.dumps; bytes.strip. *)
Context (crc : string -> string) (dumps : list string -> string) (strip : string -> string).
Open Scope string_scope.

(** 19-47: argv is a default argument, so that it is the value of sys.argv when the module was imported. *)
Definition generate_exp_id (I : inputs) (argv : list string) : string + failure :=
  match i_head I with
  | None => inr CalledProcessError
  | Some head => match i_diff I with None => inr CalledProcessError | Some diff => inl (strip head ++ "-" ++ crc diff ++ "-" ++ crc (dumps argv)) end
  end.

(** A program: changes in order, and the exception that ends it. *)
Definition prog := (list op * option failure)%type.
Definition andthen (p q : prog) : prog := match snd p with Some e => p | None => ((fst p ++ fst q)%list, snd q) end.
Definition do_ (os : list op) : prog := (os, None).
(** with open(f, "w"): truncated first; [c] is None if computing the content raises. *)
Definition overwrite (d f : string) (c : option string) (e : failure) : prog :=
  match c with Some c => ([Set_ d f ""; Set_ d f c], None) | None => ([Set_ d f ""], Some e) end.
(** 50-65 *)
Definition save_git_information (I : inputs) (d : string) : prog :=
  andthen (overwrite d "git-head.txt" (i_head I) CalledProcessError)
  (andthen (overwrite d "git-status.txt" (i_status I) CalledProcessError)
  (andthen (overwrite d "git-log.txt" (i_log I) CalledProcessError) (overwrite d "git-diff.txt" (i_diff I) CalledProcessError))).
(** shutil.copytree *)
Definition copytree (s : fs) (src dst : string) : prog :=
  match lookup dst s with
  | Some _ => ([], Some FileExistsError)
  | None => do_ (MkDir dst :: map (fun fc => Set_ dst (fst fc) (snd fc)) (match lookup src s with Some x => x | None => [] end))%list
  end.
(** 114-122 *)
Definition outdir (I : inputs) (P : params) : string + failure :=
  match p_exp_id P with
  | Some id => inl (p_basedir P ++ "/" ++ id)
  | None => if i_git I then match generate_exp_id I (i_argv_import I) with inl id => inl (p_basedir P ++ "/" ++ id) | inr e => inr e end
            else inl (p_basedir P ++ "/" ++ i_timestamp I)
  end.
Definition backup_dir (I : inputs) (d : string) : string := d ++ "." ++ i_timestamp I ++ ".backup".
Definition newline : string := String (ascii_of_nat 10) EmptyString.
(** 114-162; [Ok] of the path of the output directory. *)
Definition prepare (I : inputs) (P : params) (s : fs) : prog * option string :=
  match outdir I P with
  | inr e => (([], Some e), None)
  | inl d =>
      let p :=
        andthen (match lookup d s with Some _ => if p_make_backup P then copytree s d (backup_dir I d) else do_ [] | None => do_ [] end)
        (andthen (do_ [MkDir d; Append d "start.txt" (i_time I ++ newline)])
        (andthen (overwrite d "args.txt" (p_args P) NotSerializable)
        (andthen (overwrite d "environ.txt" (Some (i_environ I)) NotSerializable)
        (andthen (overwrite d "command.txt" (Some (String.concat " " (match p_argv P with Some a => a | None => i_argv_now I end))) NotSerializable)
                 (if i_git I then save_git_information I d else do_ []))))) in
      (p, match snd p with None => Some d | Some _ => None end)
  end.
End Prepare.
