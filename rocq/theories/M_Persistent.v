(** Model of pfrl/collections/persistent_collections.py at the level of bytes in files. *)
From Verif Require Import Base M_RandomAccessQueue M_Batch.
Open Scope nat_scope.

(** struct.pack of an unsigned integer: [n] bytes, least significant first.  Range errors are not modelled (the theorems
    assume the fields fit). *)
Fixpoint le_bytes (n : nat) (z : Z) : list Z := match n with O => [] | S n => (z mod 256)%Z :: le_bytes n (z / 256)%Z end.
Fixpoint le_value (l : list Z) : Z := match l with [] => 0%Z | b :: t => (b + 256 * le_value t)%Z end.

(** Index record "QQQIi": gen, offset, length, crc, 0 (persistent_collections.py:98, 138; 32 bytes). *)
Record irec := mkIrec { i_gen : Z; i_off : Z; i_len : Z; i_crc : Z }.
Definition pack_index (r : irec) : list Z :=
  le_bytes 8 (i_gen r) ++ le_bytes 8 (i_off r) ++ le_bytes 8 (i_len r) ++ le_bytes 4 (i_crc r) ++ le_bytes 4 0.
Definition unpack_index (b : list Z) : irec :=
  mkIrec (le_value (firstn 8 b)) (le_value (firstn 8 (skipn 8 b))) (le_value (firstn 8 (skipn 16 b))) (le_value (firstn 4 (skipn 24 b))).
Definition index_format_size : nat := 32.

(** The contents of the meta file that matter (224-265): maxlen, comm_size, ancestor (a directory, see [disk]). *)
Record pmeta := mkMeta { m_maxlen : option nat; m_comm_size : nat; m_ancestor : option nat }.

(** A queue directory: meta.pkl, whether rank0/ exists, and in it chunk.g.idx and chunk.g.data (None: no such file). *)
Definition chunkfile := (option (list Z) * option (list Z))%type.
Record store := mkStore { st_meta : option (list Z); st_dir : bool; st_files : list chunkfile }.
Definition empty_store : store := mkStore None false [].

(** Effects on the directory, one at a time: creating (truncating) a file, or one more byte in a file. *)
Inductive micro := CMeta | WMeta (b : Z) | MkDir | CIdx (g : nat) | CDat (g : nat) | WIdx (g : nat) (b : Z) | WDat (g : nat) (b : Z).
Fixpoint update_at (files : list chunkfile) (g : nat) (f : chunkfile -> chunkfile) : list chunkfile :=
  match g, files with
  | O, [] => [f (None, None)]
  | O, x :: t => f x :: t
  | S g, [] => (None, None) :: update_at [] g f
  | S g, x :: t => x :: update_at t g f
  end.
Definition add_byte (b : Z) (o : option (list Z)) : option (list Z) := option_map (fun l => l ++ [b]) o.
Definition apply_micro (s : store) (m : micro) : store :=
  match m with
  | CMeta => mkStore (Some []) (st_dir s) (st_files s)
  | WMeta b => mkStore (add_byte b (st_meta s)) (st_dir s) (st_files s)
  | MkDir => mkStore (st_meta s) true (st_files s)
  | CIdx g => mkStore (st_meta s) (st_dir s) (update_at (st_files s) g (fun x => (Some [], snd x)))
  | CDat g => mkStore (st_meta s) (st_dir s) (update_at (st_files s) g (fun x => (fst x, Some [])))
  | WIdx g b => mkStore (st_meta s) (st_dir s) (update_at (st_files s) g (fun x => (add_byte b (fst x), snd x)))
  | WDat g b => mkStore (st_meta s) (st_dir s) (update_at (st_files s) g (fun x => (fst x, add_byte b (snd x))))
  end.
Definition apply_all (l : list micro) (s : store) : store := fold_left apply_micro l s.

(** The pickle of items and of the meta dict, and binascii.crc32, are parameters. *)
Record codec (V : Type) := mkCodec {
  dumps : V -> list Z; loads : list Z -> result V; crc32 : list Z -> Z;
  dumps_meta : pmeta -> list Z; loads_meta : list Z -> result pmeta; chunksize : Z }.
Arguments mkCodec {V}. Arguments dumps {V}. Arguments loads {V}. Arguments crc32 {V}. Arguments dumps_meta {V}.
Arguments loads_meta {V}. Arguments chunksize {V}.

Section Persist.
Context {V : Type} (K : codec V).

(** 26-41 [read_chunk_index]: whole records until the rest is shorter than a record; [fuel] at least the length. *)
Fixpoint parse_index (fuel : nat) (b : list Z) : list irec :=
  match fuel with
  | O => []
  | S n =>
      let buf := firstn index_format_size b in
      if negb (length buf =? index_format_size) then []
      else unpack_index buf :: parse_index n (skipn index_format_size b)
  end.
Definition read_chunk_index (idata : list Z) : list irec := parse_index (length idata) idata.

(** 43-58 [read_chunk]. *)
Definition read_item (cdata : list Z) (r : irec) : result V :=
  let data := firstn (Z.to_nat (i_len r)) (skipn (Z.to_nat (i_off r)) cdata) in
  _ <- passert (crc32 K data =? i_crc r)%Z ;; loads K data.
Definition read_chunk (idata cdata : list Z) : result (list V) := rmapM (read_item cdata) (read_chunk_index idata).

(** 60-71 [_count_all_chunks]: generation, number of index records, and the two files. *)
Fixpoint count_all_chunks (gen : nat) (files : list chunkfile) : list (nat * nat * (list Z * list Z)) :=
  match files with
  | (Some i, Some d) :: t => (gen, length (read_chunk_index i), (i, d)) :: count_all_chunks (S gen) t
  | _ => []
  end.

(** 79-86: the loop over the reversed chunk list. *)
Fixpoint select_chunks (maxlen : option nat) (remain : Z) (chunks : list (nat * nat * (list Z * list Z))) :=
  match chunks with
  | [] => []
  | (gen, count, f) :: t =>
      match maxlen with
      | None => (gen, count, f) :: select_chunks maxlen remain t
      | Some _ => if (0 <? remain)%Z then (gen, count, f) :: select_chunks maxlen (remain - Z.of_nat count)%Z t else []
      end
  end.

(** 73-93 [read_chunks]: the items of each chunk read, oldest first, and the next generation. *)
Definition read_chunks (maxlen : option nat) (files : list chunkfile) : result (list (list V) * nat) :=
  let gens := rev (select_chunks maxlen (match maxlen with None => 0 | Some m => Z.of_nat m end)%Z (rev (count_all_chunks 0 files))) in
  ds <- rmapM (fun c : nat * nat * (list Z * list Z) => read_chunk (fst (snd c)) (snd (snd c))) gens ;;
  Ok (ds, match gens with [] => 0 | _ => S (list_max (map (fun c => fst (fst c)) gens)) end).

(** buf.extend(...) chunk by chunk. *)
Fixpoint extend_all (q : raq V) (l : list (list V)) : result (raq V) :=
  match l with [] => Ok q | xs :: t => q' <- raq_extend q xs ;; extend_all q' t end.

(** 100-119 [_ChunkWriter.__init__]. *)
Record writer := mkW { w_gen : nat; w_off : Z; w_full : bool }.
Definition new_writer (gen : nat) : result (writer * list micro) :=
  _ <- passert (0 <? chunksize K)%Z ;; Ok (mkW gen 0 (chunksize K <? 0)%Z, [CIdx gen; CDat gen]).

(** 124-154 [_ChunkWriter.append]: data bytes, then index bytes. *)
Definition writer_append (w : writer) (v : V) : result (writer * list micro) :=
  if w_full w then Err RuntimeError
  else
    let data := dumps K v in
    let len := Z.of_nat (length data) in
    let index := pack_index (mkIrec (Z.of_nat (w_gen w)) (w_off w) len (crc32 K data)) in
    let off := (w_off w + len)%Z in
    Ok (mkW (w_gen w) off (chunksize K <? off)%Z, map (WDat (w_gen w)) data ++ map (WIdx (w_gen w)) index).

Record pq := mkPq { q_buf : raq V; q_gen : nat; q_tail : writer; q_maxlen : option nat }.

(** 223-262 [_load_meta]: comm_size is 1. *)
Definition load_meta (st : store) (maxlen ancestor : option nat) : result (pmeta * list micro) :=
  match st_meta st with
  | Some bytes => m <- loads_meta K bytes ;; _ <- passert (m_comm_size m =? 1) ;; Ok (m, [])
  | None => let m := mkMeta maxlen 1 ancestor in Ok (m, CMeta :: map WMeta (dumps_meta K m))
  end.

(** 186-221 [__init__] with the buffer after ancestors have been loaded. *)
Definition pq_open_from (buf : raq V) (st : store) (maxlen ancestor : option nat) : result (pq * list micro) :=
  '(m, tr_meta) <- load_meta st maxlen ancestor ;;
  '(buf, gen, tr_dir) <-
     (if st_dir st
      then '(ds, gen) <- read_chunks maxlen (st_files st) ;; b <- extend_all buf ds ;; Ok (b, gen, [])
      else Ok (buf, 0, [MkDir])) ;;
  '(w, tr_w) <- new_writer gen ;;
  Ok (mkPq buf (S gen) w (m_maxlen m), tr_meta ++ tr_dir ++ tr_w).
Definition check_maxlen (maxlen : option nat) : bool := match maxlen with None => true | Some m => 0 <? m end.
Definition pq_open (st : store) (maxlen : option nat) : result (pq * list micro) :=
  _ <- passert (check_maxlen maxlen) ;;
  pq_open_from (mkRaq maxlen [] []) st maxlen None.

(** 268-284 [_append], [append]. *)
Definition pq_append (q : pq) (v : V) : result (pq * list micro) :=
  '(tail, gen, tr) <-
     (if w_full (q_tail q)
      then '(w, tr) <- new_writer (q_gen q) ;; Ok (w, S (q_gen q), tr)
      else Ok (q_tail q, q_gen q, [])) ;;
  '(tail, tr') <- writer_append tail v ;;
  buf <- raq_append (q_buf q) v ;;
  Ok (mkPq buf gen tail (q_maxlen q), tr ++ tr').

Fixpoint pq_appends (q : pq) (vs : list V) : result (pq * list (list micro)) :=
  match vs with
  | [] => Ok (q, [])
  | v :: t => '(q1, tr) <- pq_append q v ;; '(q2, trs) <- pq_appends q1 t ;; Ok (q2, tr :: trs)
  end.

(** ** Ancestors.  A disk is a list of queue directories; a path is a position in it. *)
Definition disk := list store.

(** 371-381: number of index records of all chunk index files. *)
Fixpoint count_index (files : list chunkfile) : nat :=
  match files with
  | (Some i, _) :: t => length (read_chunk_index i) + count_index t
  | _ => 0
  end.

(** 353-401 [_load_ancestor] (comm_size 1: one data directory).  [fuel] bounds the chain; missing files are an error. *)
Fixpoint load_ancestor (fuel : nat) (dk : disk) (p : nat) (needed : option Z) (buf : raq V) : result (raq V * pmeta) :=
  match fuel with
  | O => Err OutOfFuel
  | S n =>
      match nth_error dk p with
      | None => Err RuntimeError
      | Some st =>
          match st_meta st with
          | None => Err RuntimeError
          | Some bytes =>
              m <- loads_meta K bytes ;;
              match needed with
              | None => Err TypeError
              | Some need =>
                  let len := Z.of_nat (count_index (st_files st)) in
                  buf <- (match m_ancestor m with
                          | Some a => if (len <? need)%Z then '(b, _) <- load_ancestor n dk a (Some (need - len)%Z) buf ;; Ok b else Ok buf
                          | None => Ok buf
                          end) ;;
                  let maxlen := (need - Z.of_nat (raq_len buf))%Z in
                  if (maxlen <=? 0)%Z then Ok (buf, m)
                  else '(ds, _) <- read_chunks (Some (Z.to_nat maxlen)) (st_files st) ;;
                       b <- raq_extend buf (concat ds) ;; Ok (b, m)
              end
          end
      end
  end.

Definition pq_open_ancestor (fuel : nat) (dk : disk) (st : store) (maxlen : option nat) (ancestor : nat) : result (pq * list micro) :=
  _ <- passert (check_maxlen maxlen) ;;
  '(buf, _) <- load_ancestor fuel dk ancestor (option_map Z.of_nat maxlen) (mkRaq maxlen [] []) ;;
  pq_open_from buf st maxlen (Some ancestor).
End Persist.
Arguments mkPq {V}. Arguments q_buf {V}. Arguments q_gen {V}. Arguments q_tail {V}. Arguments q_maxlen {V}.
