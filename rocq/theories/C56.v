(** C56: a process killed at any moment leaves the persistent queue directory openable. *)
From Verif Require Import Base M_RandomAccessQueue M_Persistent S_Persistent P_Persistent.

(** REFUTED: killed right after the meta file has been created in the very first session, the directory can never be opened
    again, with any maxlen (whatever the pickle of the meta file, as long as an empty file is not a pickle). *)
Theorem C56_any_crash_reopens_refuted {V} (K : codec V) (ml : option nat) e :
  codec_ok K -> check_maxlen ml = true -> loads_meta K [] = Err e ->
  exists q tr, pq_open K empty_store ml = Ok (q, tr) /\
    forall ml', check_maxlen ml' = true -> pq_open K (apply_all (firstn 1 tr) empty_store) ml' = Err e.
Proof. intros HK. exact (torn_meta_fails K HK ml e). Qed.

(** What holds: a crash outside the writing of the meta file (see C07). *)
Theorem C56_crash_outside_meta_partial {V} (K : codec V) st past maxlen items k q tr q' trs ml :
  codec_ok K -> history K None st past -> pq_open K st maxlen = Ok (q, tr) -> pq_appends K q items = Ok (q', trs) ->
  (k = 0 \/ st_meta st <> None \/ length (dumps_meta K (mkMeta maxlen 1 None)) < k) -> check_maxlen ml = true ->
  exists r, pq_open K (apply_all (firstn k (tr ++ concat trs)) st) ml = Ok r.
Proof. intros HK. exact (crash_reopens K HK st past maxlen items k q tr q' trs ml). Qed.

Example C56_ex :
  map (fun k => is_ok (s <- cut_session (toy 7) (pq_open (toy 7) empty_store None) [1; 2]%Z k empty_store ;; pq_open (toy 7) s (Some 4)))
    [0; 1; 2; 3; 4; 5; 6; 7; 20; 100] =
    [true; false; false; false; true; true; true; true; true; true].
Proof. vm_compute. reflexivity. Qed.
Print Assumptions C56_any_crash_reopens_refuted.
Print Assumptions C56_crash_outside_meta_partial.
