(** C08: opening a persistent queue with an ancestor. *)
From Verif Require Import Base M_RandomAccessQueue M_Persistent S_Persistent P_Persistent.

(** REFUTED: the newest [maxlen] items of the chain are not what is loaded in general.  Chain: grand-ancestor 1..5, ancestor
    6,7, maxlen 3.  The loaded items are 3,4,5: the whole chunk of the grand-ancestor fills the buffer, and the ancestor is
    skipped. *)
Theorem C08_newest_data_refuted :
  ~ (forall V (K : codec V) dk p ds st past M fuel, codec_ok K -> chain K dk p ds -> history K (Some p) st past -> 0 < M ->
       length ds <= fuel ->
       exists q tr, pq_open_ancestor K fuel dk st (Some M) p = Ok (q, tr) /\ raq_iter (q_buf q) = lastn M (concat (rev ds) ++ past)).
Proof. exact ancestor_newest_false. Qed.

(** What holds: chains that fit in [maxlen] are loaded whole and in order, followed by the directory's own items. *)
Theorem C08_chain_that_fits_partial {V} (K : codec V) dk p ds st past M fuel :
  codec_ok K -> chain K dk p ds -> history K (Some p) st past -> 0 < M -> length (concat ds) <= M -> length ds <= fuel ->
  exists q tr, pq_open_ancestor K fuel dk st (Some M) p = Ok (q, tr) /\ raq_iter (q_buf q) = lastn M (concat (rev ds) ++ past).
Proof. intros HK. exact (ancestor_fits K HK dk p ds st past M fuel). Qed.

(** And: if there is one ancestor only, or the nearest ancestor alone holds [maxlen] items, the newest items are loaded. *)
Theorem C08_near_ancestor_partial {V} (K : codec V) dk p d ds st past M fuel :
  codec_ok K -> chain K dk p (d :: ds) -> history K (Some p) st past -> 0 < M -> (ds = [] \/ M <= length d) -> 0 < fuel ->
  exists q tr, pq_open_ancestor K fuel dk st (Some M) p = Ok (q, tr) /\ raq_iter (q_buf q) = lastn M (concat (rev (d :: ds)) ++ past).
Proof. intros HK. exact (ancestor_near K HK dk p d ds st past M fuel). Qed.

(** An unbounded queue (maxlen None) cannot be opened with an ancestor at all. *)
Theorem C08_unbounded_with_ancestor_refuted {V} (K : codec V) dk p (ds : list (list V)) st fuel :
  codec_ok K -> chain K dk p ds -> 0 < fuel -> pq_open_ancestor K fuel dk st None p = Err TypeError.
Proof. intros HK. exact (ancestor_unbounded K HK dk p ds st fuel). Qed.

(** The chain of the refutation, loaded with maxlen 7 (fits), 2 (the ancestor suffices) and 3 (the defect). *)
Example C08_ex_chain : chain (toy 100) [exG; exA] 1 [[6; 7]; [1; 2; 3; 4; 5]]%Z.
Proof. exact ex_chain. Qed.
Example C08_ex :
  map (fun M => '(q, _) <- pq_open_ancestor (toy 100) 2 [exG; exA] empty_store (Some M) 1 ;; Ok (raq_iter (q_buf q))) [7; 2; 3] =
  [Ok [1; 2; 3; 4; 5; 6; 7]%Z; Ok [6; 7]%Z; Ok [3; 4; 5]%Z].
Proof. vm_compute. reflexivity. Qed.
Print Assumptions C08_newest_data_refuted.
Print Assumptions C08_chain_that_fits_partial.
Print Assumptions C08_near_ancestor_partial.
Print Assumptions C08_unbounded_with_ancestor_refuted.
