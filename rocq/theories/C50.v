(** C50: prioritized episodic buffer. *)
From Verif Require Import Base M_RandomAccessQueue M_Prioritized M_ReplayBuffer S_ReplayBuffer M_Episodic S_Episodic P_PrioritizedEpisodic.
From Coq Require Import Lqa.

(** Claim about the flat memory: it holds the transitions of the stored episodes. *)
Definition C50_flat_claim : Prop := forall T cap wait (ops : list (pe_op T)) b0 b,
  peb_init cap wait = Ok b0 -> peb_run None b0 ops = Ok b ->
  raq_iter (pe_memory b) = concat (data (pe_episodic b)).
(** False: the flat memory evicts single transitions, the episode store evicts whole episodes. *)
Theorem C50_flat_memory_refuted : ~ C50_flat_claim.
Proof. exact (fun H => flat_memory_differs (H nat)). Qed.
Print Assumptions C50_flat_memory_refuted.

(** After every run without exception (appends, episode ends, sampling, error updates in any order): the stored episodes
    are the newest finished ones that fit; capacity accounting is exact; the flat memory holds the newest transitions,
    and ends with those of the stored episodes. *)
Theorem C50_accounting_partial : forall T cap wait prio (ops : list (pe_op T)) b0 b,
  peb_init cap wait = Ok b0 -> peb_run prio b0 ops = Ok b ->
  let fin := finished (storing ops) in
  kept_within cap fin (data (pe_episodic b)) /\
  raq_iter (pe_memory b) = trunc cap (concat fin) /\
  (exists pre, raq_iter (pe_memory b) = pre ++ concat (data (pe_episodic b))) /\
  capacity_left b = option_map (fun c => Z.of_nat c - Z.of_nat (total (data (pe_episodic b))))%Z cap.
Proof. exact @prioritized_episodic_accounting. Qed.
Print Assumptions C50_accounting_partial.

(** Storing never raises, for positive default priorities. *)
Theorem C50_storing_never_fails : forall T cap wait prio (ops : list (rb_op T)),
  (forall f ep, prio = Some f -> (0 < f ep)%Q) ->
  exists b0 b, peb_init cap wait = Ok b0 /\
    peb_run prio b0 (map (fun o => match o with RAppend e t => PEAppend e t | RStop e => PEStop e end) ops) = Ok b.
Proof. exact @prioritized_episodic_never_fails. Qed.
Print Assumptions C50_storing_never_fails.

(** Capacity 3; sampling and an update between episodes. *)
Example C50_case :
  (b0 <- peb_init (Some 3) true ;;
   b <- peb_run None b0
     [PEAppend 0 (mkTrans 1 true); PEAppend 0 (mkTrans 2 false); PEAppend 0 (mkTrans 3 true);
      PESample (mkSo [] [1 # 2]%Q) 0%Q; PEUpdate [5 # 1]%Q; PEAppend 1 (mkTrans 4 true)] ;;
   Ok (map (map payload) (data (pe_episodic b)), map payload (raq_iter (pe_memory b)), capacity_left b))
  = Ok ([[2; 3]; [4]], [2; 3; 4], Some 0%Z).
Proof. vm_compute. reflexivity. Qed.
