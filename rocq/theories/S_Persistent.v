(** Specification for C07, C08, C56. *)
From Verif Require Import Base M_RandomAccessQueue M_Persistent.
Open Scope nat_scope.

(** What is assumed of pickle, crc32 and sizes. *)
Record codec_ok {V} (K : codec V) : Prop := {
  k_loads : forall v, loads K (dumps K v) = Ok v;
  k_meta : forall m, loads_meta K (dumps_meta K m) = Ok m;
  k_crc : forall d, (0 <= crc32 K d < 2 ^ 32)%Z;
  k_len : forall v, (Z.of_nat (length (dumps K v)) < 2 ^ 64)%Z;
  k_chunk : (0 < chunksize K < 2 ^ 64)%Z }.

(** Items all of whose writes are among the first [k] effects. *)
Fixpoint completed {V} (k : nat) (items : list V) (trs : list (list micro)) : list V :=
  match items, trs with
  | v :: items, tr :: trs => if length tr <=? k then v :: completed (k - length tr) items trs else []
  | _, _ => []
  end.

(** Opening a directory, possibly with an ancestor (found on some disk). *)
Definition opens {V} (K : codec V) (anc : option nat) (st : store) (maxlen : option nat) (q : pq) (tr : list micro) : Prop :=
  match anc with
  | None => pq_open K st maxlen = Ok (q, tr)
  | Some a => exists fuel dk, pq_open_ancestor K fuel dk st maxlen a = Ok (q, tr)
  end.

(** Directories that can arise: any number of sessions, each opening the directory (any maxlen, always the same ancestor
    argument), appending items, and being killed after the first [k] effects on the directory, not during the writing of the
    meta file.  The list collects the items whose append had been written completely. *)
Inductive history {V} (K : codec V) (anc : option nat) : store -> list V -> Prop :=
| h_new : history K anc empty_store []
| h_session st past maxlen items k q tr q' trs :
    history K anc st past ->
    opens K anc st maxlen q tr -> pq_appends K q items = Ok (q', trs) ->
    (k = 0 \/ st_meta st <> None \/ length (dumps_meta K (mkMeta maxlen 1 anc)) < k) ->
    history K anc (apply_all (firstn k (tr ++ concat trs)) st) (past ++ completed (k - length tr) items trs).

(** [chain K dk p ds]: the ancestor chain starting at directory [p] holds the items [ds], nearest directory first. *)
Inductive chain {V} (K : codec V) (dk : disk) : nat -> list (list V) -> Prop :=
| ch_last p st d : nth_error dk p = Some st -> history K None st d -> st_meta st <> None -> chain K dk p [d]
| ch_next p st d a ds : nth_error dk p = Some st -> history K (Some a) st d -> st_meta st <> None -> chain K dk a ds ->
    chain K dk p (d :: ds).

(** A concrete codec for the examples: items are integers, three "bytes" each. *)
Definition opt_z (o : option nat) : Z := match o with None => (-1)%Z | Some n => Z.of_nat n end.
Definition z_opt (z : Z) : option nat := if (z <? 0)%Z then None else Some (Z.to_nat z).
Definition toy (c : Z) : codec Z := {|
  dumps := fun z => [z; (z + 1)%Z; 9%Z];
  loads := fun b => match b with [z; _; _] => Ok z | _ => Err ValueError end;
  crc32 := fun b => (fold_left Z.add b 0 mod 2 ^ 32)%Z;
  dumps_meta := fun m => [opt_z (m_maxlen m); Z.of_nat (m_comm_size m); opt_z (m_ancestor m)];
  loads_meta := fun b => match b with [x; y; z] => Ok (mkMeta (z_opt x) (Z.to_nat y) (z_opt z)) | _ => Err RuntimeError end;
  chunksize := c |}.

(** A whole session without a crash, and a session cut after [k] effects. *)
Definition whole_session {V} (K : codec V) (opened : result (pq * list micro)) (items : list V) (st : store) : result store :=
  '(q, tr) <- opened ;; '(_, trs) <- pq_appends K q items ;; Ok (apply_all (tr ++ concat trs) st).
Definition cut_session {V} (K : codec V) (opened : result (pq * list micro)) (items : list V) (k : nat) (st : store) : result store :=
  '(q, tr) <- opened ;; '(_, trs) <- pq_appends K q items ;; Ok (apply_all (firstn k (tr ++ concat trs)) st).
