(** Model of pfrl/replay_buffers/episodic.py, of the episodic part of persistent.py and of prioritized_episodic.py. *)
From Verif Require Import Base M_RandomAccessQueue M_SampleNK M_Prioritized M_ReplayBuffer.

Section Ep.
Context {T : Type}.

(** episodic.py:13-17.  [persistent] selects persistent.py:109-130: both queues are then PersistentRandomAccessQueue with
    maxlen=capacity, whose in-memory effect is that of a RandomAccessQueue (persistent_collections.py:282-310), except
    that popleft returns None (306-307).  The files they write are modelled in M_Persistent. *)
Record ebuf := mkEb {
  persistent : bool; e_cap : option nat; current : nat -> list (trans T);
  episodic_memory : raq (list (trans T)); e_memory : raq (list (trans T)) }.

(** episodic.py:13-17 / persistent.py:119-130. *)
Definition eb_init (pers : bool) (cap : option nat) : result ebuf :=
  let ml := if pers then cap else None in
  em <- raq_init ml [] ;; m <- raq_init ml [] ;;
  Ok (mkEb pers cap (fun _ => []) em m).

(** episodic.py:91-92. *)
Fixpoint append_each (q : raq (list (trans T))) (ts : list (trans T)) : result (raq (list (trans T))) :=
  match ts with [] => Ok q | t :: r => q' <- raq_append q [t] ;; append_each q' r end.

(** episodic.py:96-97. *)
Fixpoint popleft_n (k : nat) (q : raq (list (trans T))) : result (raq (list (trans T))) :=
  match k with O => Ok q | S k => '(q', _) <- raq_popleft q ;; popleft_n k q' end.

(** episodic.py:94-97.  Each round removes an episode, so more rounds than stored episodes end with popleft's error;
    fuel is one more than the number of episodes. *)
Fixpoint evict (fuel cap : nat) (pers : bool) (em m : raq (list (trans T)))
  : result (raq (list (trans T)) * raq (list (trans T))) :=
  if cap <? raq_len m then
    match fuel with
    | O => Err OutOfFuel
    | S f =>
        '(em', ep) <- raq_popleft em ;;
        if pers then Err TypeError                                  (* len(None) *)
        else m' <- popleft_n (length ep) m ;; evict f cap pers em' m'
    end
  else Ok (em, m).

(** episodic.py:87-98 [stop_current_episode]. *)
Definition eb_stop (b : ebuf) (e : nat) : result ebuf :=
  match current b e with
  | [] => Ok b
  | ep =>
      em <- raq_append (episodic_memory b) ep ;;
      m <- append_each (e_memory b) ep ;;
      '(em, m) <- (match e_cap b with
                   | None => Ok (em, m)
                   | Some c => evict (S (raq_len em)) c (persistent b) em m
                   end) ;;
      Ok (mkEb (persistent b) (e_cap b) (upd (current b) e []) em m)
  end.

(** episodic.py:19-42 [append]. *)
Definition eb_append (b : ebuf) (e : nat) (t : trans T) : result ebuf :=
  let b := mkEb (persistent b) (e_cap b) (upd (current b) e (current b e ++ [t])) (episodic_memory b) (e_memory b) in
  if terminal t then eb_stop b e else Ok b.

Definition eb_step (b : ebuf) (o : rb_op T) : result ebuf :=
  match o with RAppend e t => eb_append b e t | RStop e => eb_stop b e end.
Fixpoint eb_run (b : ebuf) (ops : list (rb_op T)) : result ebuf :=
  match ops with [] => Ok b | o :: t => b' <- eb_step b o ;; eb_run b' t end.

(** episodic.py:63-71 [save] and [load] of the current format: the pair of queues, with their maxlen. *)
Definition eb_save (b : ebuf) := (e_memory b, episodic_memory b).
Definition eb_load (b : ebuf) (saved : raq (list (trans T)) * raq (list (trans T))) : ebuf :=
  mkEb (persistent b) (e_cap b) (current b) (snd saved) (fst saved).
End Ep.
Arguments ebuf : clear implicits.

(** replay_buffer.py (pfrl/replay_buffers) 85-94 [save], [load]: the queue with its maxlen, or a v0.2 deque. *)
Inductive saved_memory (A : Type) := SavedQueue (q : raq A) | SavedDeque (ml : option nat) (l : list A).
Arguments SavedQueue {A} q. Arguments SavedDeque {A} ml l.
Definition rb_save {T A} (b : rbuf T (raq A)) : saved_memory A := SavedQueue (memory b).
Definition rb_load {T A} (b : rbuf T (raq A)) (s : saved_memory A) : result (rbuf T (raq A)) :=
  m <- (match s with SavedQueue q => Ok q | SavedDeque ml l => raq_init ml l end) ;;
  Ok (mkRb (num_steps b) m (last_n b)).

(** episodic.py:72-85 [load] of a v0.2 file: a plain sequence of stored items.  The loop collects items into episodes
    that end at terminal items; what follows the last terminal item stays only in [memory].  (In that format an item is
    a transition, not a one-element list; the model stores the one-element list.) *)
Fixpoint recover {T} (ep : list (trans T)) (items : list (trans T)) : list (list (trans T)) :=
  match items with
  | [] => []
  | t :: r => if terminal t then (ep ++ [t]) :: recover [] r else recover (ep ++ [t]) r
  end.
Definition eb_load_v02 {T} (b : ebuf T) (items : list (trans T)) : result (ebuf T) :=
  m <- raq_init None (map (fun t => [t]) items) ;;
  em <- raq_init None (recover [] items) ;;
  Ok (mkEb (persistent b) (e_cap b) (current b) em m).

(** pfrl/replay_buffer.py:149-154 [random_subseq]; [rnd k] is the outcome of np.random.randint(0, k). *)
Definition random_subseq {A} (rnd : nat -> nat) (l : list A) (L : nat) : list A :=
  if length l <=? L then l else firstn L (skipn (rnd (length l - L + 1)) l).

(** episodic.py:51-52: [offs j] is the generator at the j-th sampled episode. *)
Fixpoint subseqs {A} (j : nat) (offs : nat -> nat -> nat) (eps : list (list A)) (L : nat) : list (list A) :=
  match eps with [] => [] | ep :: r => random_subseq (offs j) ep L :: subseqs (S j) offs r L end.
(** episodic.py:48-54 [sample_episodes]. *)
Definition eb_sample_episodes {T} (fuel : nat) (o : oracle) (offs : nat -> nat -> nat) (b : ebuf T) (n : nat)
  (max_len : option nat) : result (list (list (trans T))) :=
  _ <- passert (n <=? raq_len (episodic_memory b)) ;;
  eps <- raq_sample fuel o (episodic_memory b) (Z.of_nat n) ;;
  Ok (match max_len with None => eps | Some L => subseqs 0 offs eps L end).

(** prioritized_episodic.py.  [capacity_left] is None or an integer. *)
Section PEp.
Context {T : Type}.
Record pebuf := mkPeb {
  pe_current : nat -> list (trans T); pe_episodic : pbuf (list (trans T)); pe_memory : raq (trans T);
  capacity_left : option Z }.

(** prioritized_episodic.py:25-30. *)
Definition peb_init (cap : option nat) (wait : bool) : result pebuf :=
  m <- raq_init cap [] ;;
  Ok (mkPeb (fun _ => []) (pb_init None wait 1%Q) m (option_map Z.of_nat cap)).

(** prioritized_episodic.py:74-76; the loop removes an episode per round. *)
Fixpoint pe_evict (fuel : nat) (lft : Z) (em : pbuf (list (trans T))) : result (pbuf (list (trans T)) * Z) :=
  if (lft <? 0)%Z then
    match fuel with
    | O => Err OutOfFuel
    | S f => '(em', ep) <- pb_popleft em ;; pe_evict f (lft + Z.of_nat (length ep)) em'
    end
  else Ok (em, lft).

(** prioritized_episodic.py:62-77 [stop_current_episode]; [prio] is default_priority_func (None if not given). *)
Definition peb_stop (prio : option (list (trans T) -> Q)) (b : pebuf) (e : nat) : result pebuf :=
  match pe_current b e with
  | [] => Ok b
  | ep =>
      m <- raq_extend (pe_memory b) ep ;;
      em <- pb_append (pe_episodic b) ep (option_map (fun f => f ep) prio) ;;
      '(em, lft) <- (match capacity_left b with
                      | None => Ok (em, None)
                      | Some lft =>
                          '(em, l) <- pe_evict (S (length (data em))) (lft - Z.of_nat (length ep)) em ;; Ok (em, Some l)
                      end) ;;
      Ok (mkPeb (upd (pe_current b) e []) em m lft)
  end.

(** episodic.py:19-42 [append], inherited. *)
Definition peb_append (prio : option (list (trans T) -> Q)) (b : pebuf) (e : nat) (t : trans T) : result pebuf :=
  let b := mkPeb (upd (pe_current b) e (pe_current b e ++ [t])) (pe_episodic b) (pe_memory b) (capacity_left b) in
  if terminal t then peb_stop prio b e else Ok b.

(** Operations: also sample_episodes and update_errors (prioritized_episodic.py:45-60); the weights returned by
    sample_episodes are modelled in M_PriorityWeights. *)
Inductive pe_op := PEAppend (e : nat) (t : trans T) | PEStop (e : nat)
| PESample (o : soracle) (uniform_ratio : Q) | PEUpdate (ps : list Q).
Definition peb_step (prio : option (list (trans T) -> Q)) (b : pebuf) (o : pe_op) : result pebuf :=
  match o with
  | PEAppend e t => peb_append prio b e t
  | PEStop e => peb_stop prio b e
  | PESample o u => '(em, _) <- pb_sample (pe_episodic b) o u ;; Ok (mkPeb (pe_current b) em (pe_memory b) (capacity_left b))
  | PEUpdate ps => em <- pb_set_last_priority (pe_episodic b) ps ;; Ok (mkPeb (pe_current b) em (pe_memory b) (capacity_left b))
  end.
(** A failing operation (an exception) leaves the buffer as it was in this model; Python's exceptions of sample and
    update_errors are raised before any change. *)
Fixpoint peb_run (prio : option (list (trans T) -> Q)) (b : pebuf) (ops : list pe_op) : result pebuf :=
  match ops with [] => Ok b | o :: t => b' <- peb_step prio b o ;; peb_run prio b' t end.
End PEp.
Arguments pebuf : clear implicits.
Arguments pe_op : clear implicits.
