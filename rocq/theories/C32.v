(** C32: splitting sequences and forming minibatches. *)
From Coq Require Import Permutation.
From Verif Require Import Base P_Base P_PrioritizedProps M_PPO S_PPO P_PPO.
Open Scope nat_scope.

(** Splitting to a maximal length: consecutive pieces of every sequence, in order, nonempty, of at most that length, and as few as
    possible (ceil(length / max) for each sequence); concatenating the pieces gives back the data. *)
Theorem C32_limit {T} (ss : list (list T)) (m : nat) : 0 < m -> Forall (fun s => 0 < length s) ss ->
  exists ps, limit_sequence_length ss m = Ok ps /\ cut ps ss /\ concat ps = concat ss /\ Forall (fun p => 0 < length p <= m) ps /\
    length ps = fold_right (fun s n => (length s + m - 1) / m + n) 0 ss.
Proof.
  intros Hm H. unfold limit_sequence_length. destruct (Nat.ltb_spec 0 m) as [_|]; [|lia]. cbn [passert rbind].
  destruct (limit_loop_ok m ss Hm H []) as (ps & E & C & F & N). exists ps. split; [exact E|]. split; [exact C|]. split; [apply cut_concat; exact C|]. split; [exact F|exact N].
Qed.

(** Minibatches of a flat dataset, for every outcome of the shuffles: all of exactly the minibatch size; every transition is used at
    least [epochs] times; no transition is used more than once more than another; and no minibatch more than needed is produced. *)
Theorem C32_minibatches {T} (eq_dec : forall x y : T, {x = y} + {x <> y}) (D : list T) (size epochs : nat) (perms bs : list (list T)) :
  0 < size -> NoDup D -> Forall (fun p => Permutation D p) perms -> yield_minibatches D size epochs perms = Ok bs ->
  Forall (fun b => length b = size /\ incl b D) bs /\
  (forall x, In x D -> epochs <= count_occ eq_dec (concat bs) x) /\
  (forall x y, In x D -> In y D -> count_occ eq_dec (concat bs) x <= count_occ eq_dec (concat bs) y + 1) /\
  length D * epochs <= length bs * size /\ (bs <> [] -> (length bs - 1) * size < length D * epochs).
Proof.
  intros Hs Hnd Hp H. unfold yield_minibatches in H. destruct (Nat.ltb_spec 0 (length D)) as [HD|]; [|discriminate]. cbn [passert rbind] in H.
  destruct (minibatch_loop_stream size _ _ _ _ _ _ Hs H) as (F & L & E & G1 & G2). cbn in G1, G2.
  assert (C : forall x, In x D -> length bs * size / length D <= count_occ eq_dec (concat bs) x <= length bs * size / length D + 1).
  { intros x Hx. rewrite <- (count_perm_concat eq_dec bs x), E. unfold stream. cbn [rev app]. apply (count_stream eq_dec D perms x Hnd Hx Hp). rewrite stream_len in L. cbn in L. lia. }
  split; [|split; [|split; [|split; [exact G1|exact G2]]]].
  - apply Forall_forall. intros b Hb. split; [rewrite Forall_forall in F; apply F; exact Hb|]. intros x Hx.
    assert (Hx' : In x (concat (map (@rev T) bs))) by (apply in_concat; exists (rev b); split; [apply in_map; exact Hb|apply in_rev; rewrite rev_involutive; exact Hx]).
    rewrite E in Hx'. assert (Hx2 : In x (stream [] perms)) by (rewrite <- (firstn_skipn (length bs * size)); apply in_or_app; left; exact Hx').
    unfold stream in Hx2. cbn [rev app] in Hx2. apply in_concat in Hx2. destruct Hx2 as (q & Hq & Hxq). apply in_map_iff in Hq. destruct Hq as (p & <- & Hq). apply in_rev in Hxq.
    rewrite Forall_forall in Hp. apply (Permutation_in _ (Permutation_sym (Hp p Hq))). exact Hxq.
  - intros x Hx. specialize (C x Hx). assert (epochs <= length bs * size / length D); [|lia]. apply Nat.div_le_lower_bound; lia.
  - intros x y Hx Hy. pose proof (C x Hx). pose proof (C y Hy). lia.
Qed.

(** With enough shuffles at hand (a real generator never runs out) the minibatches are produced without an exception. *)
Theorem C32_minibatches_total {T} (D : list T) (size epochs : nat) (perms : list (list T)) :
  0 < size -> 0 < length D -> length D * epochs + size <= length (concat perms) -> exists bs, yield_minibatches D size epochs perms = Ok bs.
Proof.
  intros Hs HD H. unfold yield_minibatches. destruct (Nat.ltb_spec 0 (length D)) as [_|]; [|lia]. cbn [passert rbind]. apply minibatch_loop_ok; cbn; lia.
Qed.

(** Minibatches for a recurrent model: each has exactly the requested number of transitions; together, in order, they are the given
    sequences cut at some places, except for a rest of fewer transitions than one minibatch; no empty sequence is made. *)
Theorem C32_subsets {T} (ss : list (list T)) (n : nat) : 0 < n ->
  exists ys dropped, yield_subset ss n = Ok ys /\ cut (concat ys ++ dropped) ss /\ concat (concat ys) ++ concat dropped = concat ss /\
    Forall (fun y => length (concat y) = n) ys /\ length (concat dropped) < n /\
    (Forall (fun s => 0 < length s) ss -> Forall (Forall (fun s => 0 < length s)) ys).
Proof.
  intros Hn. unfold yield_subset. destruct (Nat.ltb_spec 0 n) as [_|]; [|lia]. cbn [passert rbind].
  destruct (subset_loop_ok n Hn (subset_fuel ss) ss) as (ys & dr & E & C & F & N & G); [reflexivity|]. exists ys, dr. split; [exact E|]. split; [exact C|].
  split; [rewrite <- concat_app; apply cut_concat; exact C|]. split; [|split; [rewrite <- n_transitions_concat; exact N|exact G]]. apply Forall_forall. intros y Hy. rewrite <- n_transitions_concat. rewrite Forall_forall in F. auto.
Qed.

(** Seven items cut at 3; five transitions, minibatches of 2, 2 epochs; recurrent minibatches of 4. *)
Example C32_ex_limit : limit_sequence_length [[1;2;3;4;5;6;7];[8;9]] 3 = Ok [[1;2;3];[4;5;6];[7];[8;9]].
Proof. reflexivity. Qed.
Example C32_ex_limit_empty : limit_sequence_length [[1];[]] 3 = Err AssertionError.
Proof. reflexivity. Qed.
Example C32_ex_minibatches : yield_minibatches [1;2;3] 2 2 [[2;1;3];[1;3;2];[3;2;1]] = Ok [[1;3];[2;2];[1;3]].
Proof. reflexivity. Qed.
Example C32_ex_subset : yield_subset [[1;2;3];[4;5;6];[7];[8;9;10]] 4 = Ok [[[1;2;3];[4]];[[5;6];[7];[8]]].
Proof. reflexivity. Qed.

Print Assumptions C32_limit.
Print Assumptions C32_minibatches.
Print Assumptions C32_minibatches_total.
Print Assumptions C32_subsets.
