(** C07: a crash at any byte of the data and index files leaves the persistent queue recoverable. *)
From Verif Require Import Base M_RandomAccessQueue M_Persistent S_Persistent P_Persistent.

(** For every history of sessions, each killed after any number of effects (file creations and single bytes; not inside the
    writing of the meta file), opening the directory succeeds, the queue holds exactly the items whose append was complete (the
    last [maxlen] of them), and appending to it works and is again recoverable (the directory is again in [history]). *)
Theorem C07_crash_recovery {V} (K : codec V) (st : store) (past : list V) (ml : option nat) :
  codec_ok K -> history K None st past -> check_maxlen ml = true ->
  exists q tr, pq_open K st ml = Ok (q, tr) /\ raq_iter (q_buf q) = trunc ml past /\
    forall items, exists q' trs, pq_appends K q items = Ok (q', trs) /\ raq_iter (q_buf q') = trunc ml (past ++ items) /\
      history K None (apply_all (tr ++ concat trs) st) (past ++ items).
Proof. intros HK. exact (recovery K HK st past ml). Qed.

(** Two sessions on one directory, chunks of about three items; the first dies within the writing of its fifth item, the second
    in the index record of its second item.  The third opening sees items 1-4 and 11. *)
Example C07_crash_recovery_ex :
  ( s1 <- cut_session (toy 7) (pq_open (toy 7) empty_store None) [1; 2; 3; 4; 5]%Z (3 + 1 + 3 + 4 * 35 + 2 + 20) empty_store ;;
    s2 <- cut_session (toy 7) (pq_open (toy 7) s1 (Some 2)) [11; 12; 13]%Z (2 + 35 + 30) s1 ;;
    '(q, _) <- pq_open (toy 7) s2 None ;;
    '(q', _) <- pq_open (toy 7) s2 (Some 2) ;;
    Ok (raq_iter (q_buf q), raq_iter (q_buf q'), length (st_files s2)) ) =
  Ok ([1; 2; 3; 4; 11]%Z, [4; 11]%Z, 3).
Proof. vm_compute. reflexivity. Qed.
Print Assumptions C07_crash_recovery.

(** The limit a reopened queue reports is the one of the session that created the directory; a new queue reports its own. *)
Theorem C07_reported_limit {V} (K : codec V) (st : store) (ml : option nat) q tr : pq_open K st ml = Ok (q, tr) ->
  match st_meta st with
  | Some bytes => exists m, loads_meta K bytes = Ok m /\ q_maxlen q = m_maxlen m
  | None => q_maxlen q = ml
  end.
Proof.
  unfold pq_open, pq_open_from, load_meta. destruct (passert (check_maxlen ml)); cbn [rbind]; [|discriminate].
  destruct (st_meta st) as [bytes|].
  - destruct (loads_meta K bytes) as [m|]; cbn [rbind]; [|discriminate]. destruct (passert _); cbn [rbind]; [|discriminate]. intros H. exists m. split; [reflexivity|].
    destruct (if st_dir st then _ else _) as [[[b g] t]|]; cbn [rbind] in H; [|discriminate]. destruct (new_writer _) as [[w tw]|]; cbn [rbind] in H; [|discriminate]. injection H as <- _. reflexivity.
  - cbn [rbind]. intros H. destruct (if st_dir st then _ else _) as [[[b g] t]|]; cbn [rbind] in H; [|discriminate]. destruct (new_writer _) as [[w tw]|]; cbn [rbind] in H; [|discriminate]. injection H as <- _. reflexivity.
Qed.
(** Created with the limit 3, reopened with the limit 2: the queue keeps two items and reports 3. *)
Example C07_reported_limit_ex :
  ( s1 <- cut_session (toy 7) (pq_open (toy 7) empty_store (Some 3)) [1; 2; 3; 4]%Z 1000 empty_store ;;
    '(q, _) <- pq_open (toy 7) s1 (Some 2) ;;
    Ok (raq_iter (q_buf q), q_maxlen q) ) = Ok ([3; 4]%Z, Some 3).
Proof. vm_compute. reflexivity. Qed.
Print Assumptions C07_reported_limit.
