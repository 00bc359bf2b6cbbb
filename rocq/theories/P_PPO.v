(** Proofs about PPO and TRPO data handling. *)
From Coq Require Import QArith Qpower Permutation Lqa.
From Verif Require Import Base P_Base P_PrioritizedProps M_PPO S_PPO.
Open Scope nat_scope.

(** * GAE *)
Section Gae.
  Variables gamma lambd : Q.
  Fixpoint grec (a0 : Q) (l : list gae_in) : Q * list (Q * Q) :=
    match l with
    | [] => (a0, [])
    | x :: t => let (a, r) := grec a0 t in let a' := (td_err gamma x + gamma * lambd * a)%Q in (a', (a', (a' + g_v x)%Q) :: r)
    end.
  Lemma gae_loop_rec l : forall a0 m acc, gae_loop gamma lambd a0 (rev l ++ m) acc = gae_loop gamma lambd (fst (grec a0 l)) m (snd (grec a0 l) ++ acc).
  Proof.
    induction l as [|x l IH]; intros a0 m acc; [reflexivity|]. cbn [rev]. rewrite <- app_assoc, IH. cbn [app gae_loop grec].
    destruct (grec a0 l) as [a r]. reflexivity.
  Qed.
  Lemma gae_rec l : gae gamma lambd l = snd (grec 0 l).
  Proof. unfold gae. rewrite <- (app_nil_r (rev l)), gae_loop_rec. cbn [gae_loop]. now rewrite app_nil_r. Qed.
  Lemma gae_len l : length (gae gamma lambd l) = length l.
  Proof. rewrite gae_rec. induction l as [|x l IH]; [reflexivity|]. cbn [grec]. destruct (grec 0 l) as [a r]. cbn in *. now rewrite IH. Qed.

  Lemma dsum_shift c f n : discounted_sum c f (S n) == f 0%nat + c * discounted_sum c (fun l => f (S l)) n.
  Proof.
    unfold discounted_sum. cbn [seq fold_right]. cbn [Z.of_nat Qpower]. rewrite Qmult_1_l. apply Qplus_comp; [reflexivity|].
    rewrite <- seq_shift. generalize (seq 0 n). intros l. induction l as [|k l IH]; [cbn; ring|]. cbn [map fold_right]. rewrite IH.
    assert (E : Qpower c (Z.of_nat (S k)) == c * Qpower c (Z.of_nat k)).
    { rewrite Nat2Z.inj_succ. unfold Z.succ. destruct (Qeq_dec c 0) as [Z|NZ].
      - rewrite Z. destruct k; [cbn; ring|]. rewrite (Qpower_0 (Z.of_nat (S k) + 1)) by lia. rewrite Qmult_0_l. reflexivity.
      - rewrite (Qpower_plus c (Z.of_nat k) 1 NZ). cbn. ring. }
    rewrite E. ring.
  Qed.
  Lemma dsum_ext c f g n : (forall l, l < n -> f l == g l) -> discounted_sum c f n == discounted_sum c g n.
  Proof.
    intros H. unfold discounted_sum. assert (G : forall l, In l (seq 0 n) -> f l == g l) by (intros l Hl; apply H; apply in_seq in Hl; lia).
    induction (seq 0 n) as [|k t IH]; [reflexivity|]. cbn [fold_right]. rewrite (G k) by (left; reflexivity). rewrite IH by (intros l Hl; apply G; right; exact Hl). reflexivity.
  Qed.

  Definition delta (ep : list gae_in) (k : nat) : Q := match nth_error ep k with Some x => td_err gamma x | None => 0 end.
  Lemma grec_sum ep : fst (grec 0 ep) == discounted_sum (gamma * lambd) (delta ep) (length ep).
  Proof.
    induction ep as [|x ep IH]; [reflexivity|]. cbn [grec length]. rewrite dsum_shift.
    destruct (grec 0 ep) as [a r]. cbn [fst] in *. rewrite IH. change (delta (x :: ep) 0) with (td_err gamma x).
    apply Qplus_comp; [reflexivity|]. apply Qmult_comp; [reflexivity|]. apply dsum_ext. intros l _. reflexivity.
  Qed.
  Lemma grec_nth ep : forall t x, nth_error ep t = Some x ->
    exists r, nth_error (snd (grec 0 ep)) t = Some (fst (grec 0 (skipn t ep)), r) /\ r = (fst (grec 0 (skipn t ep)) + g_v x)%Q.
  Proof.
    induction ep as [|y ep IH]; intros [|t] x H; try discriminate.
    - injection H as <-. cbn [grec skipn]. destruct (grec 0 ep) as [a r]. cbn. eexists. split; reflexivity.
    - cbn [nth_error] in H. destruct (IH t x H) as (r & H1 & H2). exists r. split; [|exact H2]. cbn [grec skipn]. destruct (grec 0 ep) as [a r']. exact H1.
  Qed.
  Lemma delta_skipn ep t k : delta (skipn t ep) k = delta ep (t + k).
  Proof. unfold delta. now rewrite nth_error_skipn'. Qed.
End Gae.

Lemma grec1_target gamma ep : forall x t, ep = x :: t ->
  (forall k a b, nth_error ep k = Some a -> nth_error ep (S k) = Some b -> (g_nonterminal a == 1 /\ g_next_v a == g_v b)%Q) ->
  forall z, nth_error ep (length ep - 1) = Some z ->
  (fst (grec gamma 1 0 ep) + g_v x == discounted_sum gamma (fun k => match nth_error ep k with Some y => g_reward y | None => 0 end) (length ep)
     + Qpower gamma (Z.of_nat (length ep)) * g_nonterminal z * g_next_v z)%Q.
Proof.
  induction ep as [|y ep IH]; intros x t E C z Hz; [discriminate|]. injection E as -> <-. cbn [length]. rewrite dsum_shift.
  destruct ep as [|w ep].
  - cbn in Hz. injection Hz as <-. cbn [grec fst]. unfold td_err. cbn [length discounted_sum seq fold_right nth_error Z.of_nat Pos.of_succ_nat Qpower Qpower_positive pow_pos]. ring.
  - specialize (IH w ep eq_refl). assert (C' : forall k a b, nth_error (w :: ep) k = Some a -> nth_error (w :: ep) (S k) = Some b -> (g_nonterminal a == 1 /\ g_next_v a == g_v b)%Q).
    { intros k a b Ha Hb. apply (C (S k) a b Ha Hb). }
    specialize (IH C' z). cbn [length] in Hz, IH. replace (S (length ep) - 1)%nat with (length ep) in IH by lia. replace (S (S (length ep)) - 1)%nat with (S (length ep)) in Hz by lia.
    specialize (IH Hz). destruct (C 0 x w eq_refl eq_refl) as [C1 C2].
    change (grec gamma 1 0 (x :: w :: ep)) with (let (a, r) := grec gamma 1 0 (w :: ep) in let a' := (td_err gamma x + gamma * 1 * a)%Q in (a', (a', (a' + g_v x)%Q) :: r)).
    destruct (grec gamma 1 0 (w :: ep)) as [a r]. cbn [fst] in *. unfold td_err. rewrite C1, C2. cbn [nth_error].
    set (D := discounted_sum gamma _ (S (length ep))) in *.
    assert (E2 : Qpower gamma (Z.of_nat (S (S (length ep)))) == gamma * Qpower gamma (Z.of_nat (S (length ep)))).
    { rewrite (Nat2Z.inj_succ (S (length ep))). unfold Z.succ. destruct (Qeq_dec gamma 0) as [Z0|NZ].
      - rewrite Z0. rewrite (Qpower_0 (Z.of_nat (S (length ep)) + 1)) by lia. ring.
      - rewrite (Qpower_plus gamma _ 1 NZ). cbn [Qpower Qpower_positive pow_pos]. ring. }
    rewrite E2. assert (IH' : (a == D + Qpower gamma (Z.of_nat (S (length ep))) * g_nonterminal z * g_next_v z - g_v w)%Q) by (rewrite <- IH; ring).
    change (length (w :: ep)) with (S (length ep)). fold D. rewrite IH'. ring.
Qed.

(** * Cutting sequences *)
Section Cut.
  Context {T : Type}.
  Implicit Types (s : list T) (ss ps : list (list T)).
  Lemma cut_concat ps ss : cut ps ss -> concat ps = concat ss.
  Proof.
    induction 1 as [|s ps ss H IH|a b p ps ss H IH]; [reflexivity| |].
    - cbn [concat]. now rewrite IH.
    - cbn [concat] in *. rewrite <- app_assoc, IH. reflexivity.
  Qed.
  Lemma cut_refl ss : cut ss ss.
  Proof. induction ss; constructor; auto. Qed.
  Lemma cut_app ps ss ps' ss' : cut ps ss -> cut ps' ss' -> cut (ps ++ ps') (ss ++ ss').
  Proof.
    intros H H'. induction H as [|s ps ss H IH|a b p ps ss H IH]; [exact H'| |].
    - cbn. now constructor.
    - cbn in *. now constructor.
  Qed.

  Lemma n_transitions_concat ss : n_transitions ss = length (concat ss).
  Proof. induction ss as [|s ss IH]; [reflexivity|]. cbn. now rewrite app_length, IH. Qed.
  Lemma n_transitions_app ss ss' : n_transitions (ss ++ ss') = n_transitions ss + n_transitions ss'.
  Proof. rewrite !n_transitions_concat, concat_app, app_length. reflexivity. Qed.

  Definition ceil_div (a m : nat) : nat := (a + m - 1) / m.
  Lemma ceil_step a m : 0 < m -> m < a -> ceil_div a m = S (ceil_div (a - m) m).
  Proof.
    intros Hm Ha. unfold ceil_div. replace (a + m - 1) with ((a - m + m - 1) + 1 * m) by lia. rewrite Nat.div_add by lia. lia.
  Qed.
  Lemma ceil_one a m : 0 < a <= m -> ceil_div a m = 1.
  Proof. intros H. unfold ceil_div. replace (a + m - 1) with ((a - 1) + 1 * m) by lia. rewrite Nat.div_add by lia. rewrite Nat.div_small by lia. reflexivity. Qed.

  Lemma limit_one_ok m fuel : 0 < m -> forall s acc, 0 < length s -> length s <= fuel ->
    exists ps, limit_one fuel m s acc = Ok (acc ++ ps) /\ cut ps [s] /\ Forall (fun p => 0 < length p <= m) ps /\ length ps = ceil_div (length s) m.
  Proof.
    intros Hm. induction fuel as [|f IH]; intros s acc Hs Hf; [lia|]. cbn [limit_one].
    destruct (Nat.ltb_spec m (length s)) as [L|L].
    - destruct (IH (skipn m s) (acc ++ [firstn m s])) as (ps & E & C & F & N).
      + rewrite skipn_length. lia.
      + rewrite skipn_length. lia.
      + exists (firstn m s :: ps). rewrite E, <- app_assoc. split; [reflexivity|].
        destruct ps as [|p ps]; [inversion C|]. rewrite skipn_length in N. split; [|split].
        * rewrite <- (firstn_skipn m s) at 2. now constructor.
        * constructor; [rewrite firstn_length; lia|exact F].
        * cbn [length] in *. rewrite (ceil_step (length s) m Hm L). lia.
    - destruct (Nat.ltb_spec 0 (length s)) as [_|]; [|lia]. destruct (Nat.leb_spec (length s) m) as [_|]; [|lia]. cbn [andb].
      exists [s]. split; [reflexivity|]. split; [apply cut_refl|]. split; [repeat constructor; lia|]. symmetry. apply ceil_one. lia.
  Qed.
  Lemma limit_loop_ok m ss : 0 < m -> Forall (fun s => 0 < length s) ss -> forall acc,
    exists ps, limit_loop m ss acc = Ok (acc ++ ps) /\ cut ps ss /\ Forall (fun p => 0 < length p <= m) ps /\
      length ps = fold_right (fun s n => ceil_div (length s) m + n) 0 ss.
  Proof.
    intros Hm H. induction H as [|s ss Hs H IH]; intros acc; cbn [limit_loop].
    - exists []. rewrite app_nil_r. repeat split; constructor.
    - destruct (limit_one_ok m (length s) Hm s acc Hs (le_n _)) as (p1 & E1 & C1 & F1 & N1). rewrite E1. cbn [rbind].
      destruct (IH (acc ++ p1)) as (p2 & E2 & C2 & F2 & N2). exists (p1 ++ p2). rewrite E2, <- app_assoc. split; [reflexivity|].
      split; [apply (cut_app p1 [s] p2 ss C1 C2)|]. split; [apply Forall_app; auto|]. rewrite app_length. cbn [fold_right]. lia.
  Qed.

  (** ** Recurrent minibatches *)
  Lemma take_subset_spec n (stack : list (list T)) : forall count subset,
    exists taken rest, stack = taken ++ rest /\
      take_subset n count stack subset = (count + n_transitions taken, rest, subset ++ taken) /\
      (count < n -> forall t0 l, taken = t0 ++ [l] -> count + n_transitions t0 < n) /\
      (n <= count -> taken = []) /\
      (rest <> [] -> n <= count + n_transitions taken).
  Proof.
    induction stack as [|s stack IH]; intros count subset; cbn [take_subset].
    - exists [], []. cbn. rewrite Nat.add_0_r, app_nil_r. split; [reflexivity|]. split; [reflexivity|]. split; [|split; [reflexivity|congruence]].
      intros _ t0 l E. destruct t0; discriminate.
    - destruct (Nat.ltb_spec count n) as [L|L].
      + destruct (IH (count + length s) (subset ++ [s])) as (taken & rest & E1 & E2 & E3 & E4 & E5). exists (s :: taken), rest.
        split; [cbn; now rewrite E1|]. split; [rewrite E2; cbn; now rewrite Nat.add_assoc, <- app_assoc|]. split; [|split].
        * intros _ t0 l E. destruct t0 as [|s0 t0]; [cbn; lia|]. injection E as <- E. cbn.
          destruct (Nat.lt_ge_cases (count + length s) n) as [L'|L'].
          -- specialize (E3 L' t0 l E). lia.
          -- specialize (E4 L'). subst taken. destruct t0; discriminate.
        * intros. lia.
        * intros Hr. specialize (E5 Hr). cbn. lia.
      + exists [], (s :: stack). cbn. rewrite Nat.add_0_r, app_nil_r. split; [reflexivity|]. split; [reflexivity|]. split; [lia|]. split; [reflexivity|]. intros _. lia.
  Qed.

  Lemma cut_join (pre : list (list T)) (a b : list T) post : cut (pre ++ a :: b :: post) (pre ++ (a ++ b) :: post).
  Proof. apply cut_app; [apply cut_refl|]. constructor. apply cut_refl. Qed.
  Lemma cut_cons_inv ps s (ss : list (list T)) : cut ps (s :: ss) -> exists p ps', ps = p :: ps'.
  Proof. intros H; inversion H; subst; eauto. Qed.
  Lemma cut_trans_head pre a ps (ss : list (list T)) b : cut ps (b :: ss) -> cut (pre ++ a :: ps) (pre ++ (a ++ b) :: ss).
  Proof.
    intros H. destruct (cut_cons_inv _ _ _ H) as (p & ps' & ->). apply cut_app; [apply cut_refl|]. now constructor.
  Qed.

  Lemma subset_loop_ok n : 0 < n -> forall fuel (stack : list (list T)), length stack + n_transitions stack <= fuel ->
    exists ys dropped, subset_loop fuel n stack = Ok ys /\ cut (concat ys ++ dropped) stack /\
      Forall (fun y => n_transitions y = n) ys /\ n_transitions dropped < n /\
      (Forall (fun s => 0 < length s) stack -> Forall (Forall (fun s => 0 < length s)) ys).
  Proof.
    intros Hn. induction fuel as [|f IH]; intros stack Hf.
    - destruct stack; [|cbn in Hf; lia]. exists [], []. cbn. repeat split; try constructor. lia.
    - destruct stack as [|s0 stack0]; [exists [], []; cbn; repeat split; try constructor; lia|].
      set (stack := s0 :: stack0) in *. assert (Hne : stack <> []) by discriminate. cbn [subset_loop]. unfold stack at 1. fold stack.
      change (match s0 :: stack0 with [] => Ok [] | _ :: _ => ?x end) with (match stack with [] => Ok [] | _ => x end).
      destruct (take_subset_spec n stack 0 []) as (taken & rest & E1 & E2 & E3 & E4 & E5). rewrite E2. cbn [app plus].
      specialize (E3 Hn). assert (Ht : taken <> []). { intros ->. cbn in *. subst rest. specialize (E5 Hne). lia. }
      destruct (Nat.ltb_spec n (n_transitions taken)) as [L|L].
      + (* split *)
        destruct (exists_last Ht) as (t0 & l & ->). specialize (E3 t0 l eq_refl). rewrite n_transitions_app in L. cbn [n_transitions] in L.
        rewrite n_transitions_app. cbn [n_transitions]. set (k := n_transitions t0 + (length l + 0) - n).
        destruct (Nat.ltb_spec 0 k) as [_|]; [|unfold k in *; lia]. cbn [passert rbind]. rewrite py_pop_app. cbn [rbind].
        assert (N1 : n_transitions (t0 ++ [firstn (length l - k) l]) = n). { rewrite n_transitions_app. cbn [n_transitions]. rewrite firstn_length. unfold k. lia. }
        rewrite N1, Nat.eqb_refl.
        destruct (IH (lastn k l :: rest)) as (ys & dr & F1 & F2 & F3 & F4 & F5).
        { rewrite E1 in Hf. rewrite app_length, n_transitions_app in Hf. rewrite app_length, n_transitions_app in Hf. cbn [n_transitions length] in Hf |- *.
          rewrite lastn_length. unfold k.
          assert (length l > 0) by lia. destruct (Nat.eq_dec (length t0) 0) as [Z|NZ]; [|lia]. destruct t0; [|cbn in Z; lia]. cbn in *. lia. }
        rewrite F1. cbn [rbind]. exists ((t0 ++ [firstn (length l - k) l]) :: ys), dr. split; [reflexivity|]. split; [|split; [constructor; assumption|split; [exact F4|]]].
        2:{ intros Hst. rewrite E1 in Hst. apply Forall_app in Hst. destruct Hst as [Hst1 Hst2]. apply Forall_app in Hst1. destruct Hst1 as [Hst1 Hl]. constructor.
            - apply Forall_app. split; [exact Hst1|]. constructor; [|constructor]. rewrite firstn_length. unfold k. lia.
            - apply F5. constructor; [|exact Hst2]. rewrite lastn_length. unfold k. lia. }
        cbn [concat]. rewrite E1, <- !app_assoc. cbn [app]. pose proof (cut_trans_head t0 (firstn (length l - k) l) _ rest _ F2) as X. unfold lastn in X. rewrite firstn_skipn in X. exact X.
      + cbn [rbind]. destruct (Nat.eqb_spec (n_transitions taken) n) as [E|NE].
        * destruct (IH rest) as (ys & dr & F1 & F2 & F3 & F4 & F5).
          { rewrite E1 in Hf. rewrite app_length, n_transitions_app in Hf. destruct taken; [congruence|]. cbn [length] in Hf. lia. }
          rewrite F1. cbn [rbind]. exists (taken :: ys), dr. split; [reflexivity|]. split; [|split; [constructor; assumption|split; [exact F4|]]].
          2:{ intros Hst. rewrite E1 in Hst. apply Forall_app in Hst. destruct Hst as [Hst1 Hst2]. constructor; [exact Hst1|apply F5; exact Hst2]. }
          cbn [concat]. rewrite <- app_assoc, E1. apply cut_app; [apply cut_refl|exact F2].
        * destruct rest as [|r rest]; [|assert (r :: rest <> []) as X by discriminate; specialize (E5 X); lia]. cbn.
          exists [], taken. split; [reflexivity|]. rewrite E1, app_nil_r. cbn. split; [apply cut_refl|]. split; [constructor|]. split; [lia|constructor].
  Qed.
End Cut.

(** * Flat minibatches *)
Section Minibatches.
  Context {T : Type}.
  Implicit Types (buf : list T) (perms : list (list T)).
  Definition stream buf perms : list T := rev buf ++ concat (map (@rev T) perms).
  Lemma stream_len buf perms : length (stream buf perms) = length buf + length (concat perms).
  Proof.
    unfold stream. rewrite app_length, rev_length. f_equal. induction perms as [|p perms IH]; [reflexivity|]. cbn. now rewrite !app_length, rev_length, IH.
  Qed.
  Lemma fill_buf_stream m perms : forall buf b p, fill_buf m buf perms = Ok (b, p) -> m <= length b /\ stream b p = stream buf perms.
  Proof.
    induction perms as [|q perms IH]; intros buf b p H; cbn [fill_buf] in H; destruct (Nat.ltb_spec (length buf) m).
    - discriminate.
    - injection H as <- <-. split; [lia|reflexivity].
    - apply IH in H. destruct H as [H1 H2]. split; [exact H1|]. rewrite H2. unfold stream. cbn [map concat]. rewrite rev_app_distr, app_assoc. reflexivity.
    - injection H as <- <-. split; [lia|reflexivity].
  Qed.
  Lemma fill_buf_ok m perms : forall buf, m <= length buf + length (concat perms) -> exists b p, fill_buf m buf perms = Ok (b, p).
  Proof.
    induction perms as [|q perms IH]; intros buf H; cbn [fill_buf]; destruct (Nat.ltb_spec (length buf) m); eauto.
    - cbn in H. lia.
    - apply IH. cbn in H. rewrite app_length in *. lia.
  Qed.
  Lemma rev_lastn n buf : rev (lastn n buf) = firstn n (rev buf).
  Proof. unfold lastn. rewrite firstn_rev. reflexivity. Qed.
  Lemma take_stream m buf perms : m <= length buf ->
    stream (firstn (length buf - m) buf) perms = skipn m (stream buf perms) /\ rev (lastn m buf) = firstn m (stream buf perms).
  Proof.
    intros H. split.
    - unfold stream. rewrite skipn_app, rev_length. replace (m - length buf) with 0 by lia. cbn [skipn]. f_equal. rewrite skipn_rev. reflexivity.
    - unfold stream. rewrite firstn_app, rev_length. replace (m - length buf) with 0 by lia. cbn [firstn]. rewrite app_nil_r. apply rev_lastn.
  Qed.

  Lemma minibatch_loop_stream m total : forall fuel n buf perms bs, 0 < m -> minibatch_loop fuel total m n buf perms = Ok bs ->
    Forall (fun b => length b = m) bs /\ length bs * m <= length (stream buf perms) /\
    concat (map (@rev T) bs) = firstn (length bs * m) (stream buf perms) /\
    total <= n + length bs * m /\ (bs <> [] -> n + (length bs - 1) * m < total).
  Proof.
    induction fuel as [|f IH]; intros n buf perms bs Hm H; cbn [minibatch_loop] in H; destruct (Nat.ltb_spec n total) as [L|L].
    - discriminate.
    - injection H as <-. cbn. repeat split; try constructor; try lia; try congruence.
    - apply rbind_ok in H. destruct H as ((b & p) & E1 & H). apply rbind_ok in H. destruct H as ([] & E2 & H). apply rbind_ok in H. destruct H as (rest & E3 & H).
      injection H as <-. destruct (fill_buf_stream _ _ _ _ _ E1) as [G1 G2]. destruct (take_stream m b p G1) as [G3 G4].
      apply (IH _ _ _ _ Hm) in E3. destruct E3 as (I1 & I2 & I3 & I4 & I5). rewrite G3 in *. rewrite <- G2. clear IH.
      assert (Lb : length (lastn m b) = m) by (rewrite lastn_length; lia).
      assert (Ls : m <= length (stream b p)) by (rewrite stream_len; lia). rewrite skipn_length in I2.
      split; [constructor; assumption|]. cbn [length map concat]. split; [lia|]. split; [|split; [lia|]].
      + rewrite I3, G4. rewrite <- (firstn_skipn m (stream b p)) at 3. rewrite firstn_app, firstn_firstn, firstn_length.
        replace (Nat.min (S (length rest) * m) m) with m by lia. f_equal. f_equal. lia.
      + intros _. destruct rest as [|r rest]; [cbn; lia|]. assert (X : r :: rest <> []) by discriminate. specialize (I5 X). cbn [length] in *. lia.
    - injection H as <-. cbn. repeat split; try constructor; try lia; try congruence.
  Qed.

  Lemma minibatch_loop_ok m total : forall fuel n buf perms, 0 < m -> total - n <= fuel -> (total - n) + m <= length buf + length (concat perms) ->
    exists bs, minibatch_loop fuel total m n buf perms = Ok bs.
  Proof.
    induction fuel as [|f IH]; intros n buf perms Hm Hf Hs; cbn [minibatch_loop]; destruct (Nat.ltb_spec n total) as [L|L]; eauto.
    - lia.
    - destruct (fill_buf_ok m perms buf) as (b & p & E); [lia|]. rewrite E. cbn [rbind]. destruct (fill_buf_stream _ _ _ _ _ E) as [G1 G2].
      destruct (Nat.leb_spec m (length b)) as [_|]; [|lia]. cbn [passert rbind].
      assert (LL : length b + length (concat p) = length buf + length (concat perms)) by (rewrite <- !stream_len; now rewrite G2).
      destruct (Nat.lt_ge_cases (n + m) total) as [L2|L2].
      + destruct (IH (n + m) (firstn (length b - m) b) p Hm) as (bs & E2); [lia| |rewrite E2; cbn; eauto].
        rewrite firstn_length. lia.
      + destruct f; cbn [minibatch_loop]; destruct (Nat.ltb_spec (n + m) total); try lia; cbn; eauto.
  Qed.

  Variable eq_dec : forall x y : T, {x = y} + {x <> y}.
  Notation count := (count_occ eq_dec).
  Lemma count_perm_concat bs x : count (concat (map (@rev T) bs)) x = count (concat bs) x.
  Proof.
    induction bs as [|b bs IH]; [reflexivity|]. cbn [map concat]. rewrite !count_occ_app, IH. f_equal.
    apply (Permutation_count_occ eq_dec). apply Permutation_sym, Permutation_rev.
  Qed.
  Lemma count_prefix_le1 (l : list T) n x : NoDup l -> count (firstn n l) x <= 1.
  Proof.
    intros H. rewrite (NoDup_count_occ eq_dec) in H. specialize (H x). rewrite <- (firstn_skipn n l), count_occ_app in H. lia.
  Qed.
  Lemma count_one (l : list T) x : NoDup l -> In x l -> count l x = 1.
  Proof. intros H I. apply (NoDup_count_occ' eq_dec); assumption. Qed.

  Lemma count_stream (D : list T) perms x : NoDup D -> In x D -> Forall (fun p => Permutation D p) perms -> forall N, N <= length (concat perms) ->
    N / length D <= count (firstn N (concat (map (@rev T) perms))) x <= N / length D + 1.
  Proof.
    intros Hnd Hx H. assert (HL : 0 < length D) by (destruct D; [contradiction|cbn; lia]). induction H as [|p perms Hp H IH]; intros N HN.
    - cbn in HN. assert (N = 0) as -> by lia. rewrite Nat.div_0_l by lia. cbn. lia.
    - cbn [map concat] in *. rewrite firstn_app, count_occ_app, rev_length. rewrite <- (Permutation_length Hp) in *.
      assert (Nd : NoDup (rev p)) by (apply NoDup_rev; eapply Permutation_NoDup; eauto).
      assert (Ix : In x (rev p)) by (apply in_rev; rewrite rev_involutive; eapply Permutation_in; eauto).
      rewrite app_length in HN. rewrite <- (Permutation_length Hp) in HN.
      destruct (Nat.lt_ge_cases N (length D)) as [L|L].
      + replace (N - length D) with 0 by lia. cbn [firstn count_occ]. rewrite Nat.div_small by lia. pose proof (count_prefix_le1 (rev p) N x Nd). lia.
      + rewrite (firstn_all2 (rev p)) by (rewrite rev_length, <- (Permutation_length Hp); lia). rewrite (count_one (rev p) x Nd Ix).
        specialize (IH (N - length D)). assert (E : N / length D = S ((N - length D) / length D)).
        { replace N with ((N - length D) + 1 * length D) at 1 by lia. rewrite Nat.div_add by lia. lia. }
        rewrite E. lia.
  Qed.
End Minibatches.

(** * The store *)
Section StoreProofs.
  Context {Ob Act : Type}.
  Notation tr := (transition Ob Act).

  Definition sstep {T} (co : list (list T) * list T) (xe : T * bool) : list (list T) * list T :=
    if snd xe then (fst co ++ [snd co ++ [fst xe]], []) else (fst co, snd co ++ [fst xe]).
  Definition parts {T} (l : list (T * bool)) := fold_left sstep l ([], []).
  Definition closed {T} (l : list (T * bool)) : list (list T) := fst (parts l).
  Definition open {T} (l : list (T * bool)) : list T := snd (parts l).
  Definition opt {T} (o : list T) : list (list T) := match o with [] => [] | _ => [o] end.
  Definition glue {T} (o : list T) (ss : list (list T)) := match ss with [] => opt o | s :: t => (o ++ s) :: t end.
  Lemma parts_segments {T} (l : list (T * bool)) : forall co, fst (fold_left sstep l co) ++ opt (snd (fold_left sstep l co)) = fst co ++ glue (snd co) (segments l).
  Proof.
    induction l as [|[x e] l IH]; intros [c o]; [reflexivity|]. cbn [fold_left segments]. rewrite IH. unfold sstep. cbn [fst snd]. destruct e; cbn [fst snd].
    - rewrite <- app_assoc. cbn [glue app]. f_equal. f_equal. unfold glue. destruct (segments l); reflexivity.
    - f_equal. unfold glue. destruct (segments l) as [|s ss]; cbn [opt].
      + destruct (o ++ [x]) eqn:E; [destruct o; discriminate|]. reflexivity.
      + rewrite <- app_assoc. reflexivity.
  Qed.
  Lemma segments_parts {T} (l : list (T * bool)) : segments l = closed l ++ opt (open l).
  Proof. unfold closed, open, parts. rewrite parts_segments. cbn [fst snd app]. unfold glue. destruct (segments l); reflexivity. Qed.
  Lemma open_snoc {T} (l : list (T * bool)) x e : open (l ++ [(x, e)]) = if e then [] else open l ++ [x].
  Proof. unfold open, parts. rewrite fold_left_app. cbn. unfold sstep at 1. cbn [fst snd]. destruct e; reflexivity. Qed.
  Lemma closed_snoc {T} (l : list (T * bool)) x e : closed (l ++ [(x, e)]) = closed l ++ (if e then [open l ++ [x]] else []).
  Proof. unfold closed, open, parts. rewrite fold_left_app. cbn. unfold sstep at 1. cbn [fst snd]. destruct e; cbn [fst]; [reflexivity|]. now rewrite app_nil_r. Qed.
  Lemma segments_ne {T} (l : list (T * bool)) : Forall (fun s => 0 < length s) (segments l).
  Proof.
    induction l as [|[x e] l IH]; [constructor|]. cbn [segments]. destruct e; [constructor; [cbn; lia|exact IH]|].
    destruct (segments l) as [|s ss]; [repeat constructor|]. inversion IH; subst. constructor; [cbn; lia|assumption].
  Qed.
  Lemma segments_concat {T} (l : list (T * bool)) : concat (segments l) = map fst l.
  Proof.
    induction l as [|[x e] l IH]; [reflexivity|]. cbn [segments map fst]. rewrite <- IH. destruct e; [reflexivity|]. destruct (segments l); reflexivity.
  Qed.
  Lemma parts_len {T} (l : list (T * bool)) : n_transitions (closed l) + length (open l) = length l.
  Proof.
    assert (H : length (concat (segments l)) = length l) by (rewrite segments_concat, map_length; reflexivity).
    rewrite segments_parts, concat_app, app_length, <- !n_transitions_concat in H. unfold opt in H. destruct (open l); cbn in *; lia.
  Qed.

  (** the observe loop *)
  Lemma observe_loop_ok (ps : list (list (tr * bool))) : forall sas rs nexts dones resets pre bls bla (s : store Ob Act),
    length sas = length ps -> length rs = length ps -> length nexts = length ps -> length dones = length ps -> length resets = length ps ->
    batch_last_episode s = Some (pre ++ map open ps) -> batch_last_state s = bls -> batch_last_action s = bla ->
    exists s' new, let ps' := add_experiences ps sas rs nexts dones resets in
      observe_loop (length pre) (zip6 (map (fun sa => Some (fst sa)) sas) (map (fun sa => Some (snd sa)) sas) rs nexts dones resets) s = Ok s' /\
      batch_last_episode s' = Some (pre ++ map open ps') /\ memory s' = memory s ++ new /\ last_episode s' = last_episode s /\
      Permutation (concat (map closed ps) ++ new) (concat (map closed ps')) /\
      length (batch_last_state s') = length bls /\ length (batch_last_action s') = length bla /\ length ps' = length ps /\
      length (concat ps') = length (concat ps) + length ps.
  Proof.
    induction ps as [|p ps IH]; intros sas rs nexts dones resets pre bls bla s H1 H2 H3 H4 H5 Hb Hs Ha;
      destruct sas as [|[st a] sas], rs as [|r rs], nexts as [|nx nexts], dones as [|d dones], resets as [|z resets]; try discriminate.
    - exists s, []. cbn in *. rewrite !app_nil_r in *. subst bls bla. repeat split; auto.
    - cbn [map zip6 observe_loop fst snd]. set (t := {| t_state := st; t_action := a; t_reward := r; t_next_state := nx; t_nonterminal := if d then 0%Q else 1%Q |}).
      assert (Nn : forall x, nth_error (pre ++ x :: map open ps) (length pre) = Some x) by (intros x; rewrite nth_error_app2, Nat.sub_diag by lia; reflexivity).
      assert (Sn : forall x y, list_set (pre ++ x :: map open ps) (length pre) y = pre ++ y :: map open ps) by (intros x y; rewrite list_set_app_r, Nat.sub_diag by lia; reflexivity).
      cbn [map] in Hb. set (ep := open p ++ [t]).
      set (s1 := {| memory := memory s ++ (if d || z then [ep] else []); last_episode := last_episode s;
                    batch_last_episode := Some (pre ++ open (p ++ [(t, d || z)]) :: map open ps);
                    batch_last_state := list_set (batch_last_state s) (length pre) None; batch_last_action := list_set (batch_last_action s) (length pre) None |}).
      assert (E1 : observe_one (length pre) (Some st, Some a, r, nx, d, z) s = Ok s1).
      { unfold observe_one. rewrite Hb. cbn [rbind]. rewrite Nn. cbn [rbind]. fold t. fold ep. rewrite Sn. unfold s1. rewrite open_snoc. destruct (d || z).
        - assert (X : length ep =? 0 = false) by (unfold ep; rewrite app_length; cbn; apply Nat.eqb_neq; lia). rewrite X. cbn [negb passert rbind]. rewrite Sn. reflexivity.
        - cbn [rbind]. rewrite app_nil_r. reflexivity. }
      rewrite E1. cbn [rbind].
      destruct (IH sas rs nexts dones resets (pre ++ [open (p ++ [(t, d || z)])]) (batch_last_state s1) (batch_last_action s1) s1) as (s' & new & I1 & I2 & I3 & I4 & I5 & I6 & I7 & I8 & I9);
        [cbn in *; lia..| | |reflexivity|]; [unfold s1; cbn [batch_last_episode]; rewrite <- app_assoc; reflexivity|reflexivity|].
      rewrite app_length in I1. cbn [length] in I1. rewrite Nat.add_1_r in I1.
      exists s', ((if d || z then [ep] else []) ++ new). cbn [add_experiences]. unfold experience. cbn [fst snd]. fold t. cbn [map concat].
      set (ps' := add_experiences ps sas rs nexts dones resets) in *.
      split; [exact I1|]. split; [rewrite I2, <- app_assoc; reflexivity|]. split; [rewrite I3; unfold s1; cbn [memory]; now rewrite <- app_assoc|].
      split; [rewrite I4; reflexivity|]. split.
      + rewrite closed_snoc. fold ep. rewrite <- !app_assoc. apply Permutation_app_head. set (w := if d || z then [ep] else []).
        rewrite <- I5. rewrite !app_assoc. apply Permutation_app_tail. apply Permutation_app_comm.
      + unfold s1 in I6, I7. cbn [batch_last_state batch_last_action] in I6, I7. rewrite list_set_length in I6. rewrite list_set_length in I7. subst bls bla.
        split; [exact I6|]. split; [exact I7|]. cbn [length]. split; [lia|]. rewrite !app_length. cbn [length]. lia.
  Qed.

  Lemma flush_batch_spec (bl : list (list tr)) : forall mem, flush_batch bl mem = (map (fun _ => []) bl, mem ++ concat (map opt bl)).
  Proof.
    induction bl as [|ep bl IH]; intros mem; cbn [flush_batch map concat]; [now rewrite app_nil_r|]. destruct ep as [|x ep].
    - rewrite IH. reflexivity.
    - rewrite IH. cbn [opt]. rewrite <- app_assoc. reflexivity.
  Qed.

  Definition store_ok (n : nat) (observe_next : bool) (s : store Ob Act) (p : pending) : Prop :=
    length (pend p) = n /\ last_episode s = [] /\ Permutation (memory s) (concat (map closed (pend p))) /\
    (batch_last_episode s = Some (map open (pend p)) /\ length (batch_last_state s) = n /\ length (batch_last_action s) = n \/
     batch_last_episode s = None /\ observe_next = false /\ pend p = repeat [] n /\ memory s = []) /\
    (observe_next = true -> length (acted p) = n /\ batch_last_state s = map (fun sa => Some (fst sa)) (acted p) /\
       batch_last_action s = map (fun sa => Some (snd sa)) (acted p)).

  Lemma perm_n (l l' : list (list tr)) : Permutation l l' -> n_transitions l = n_transitions l'.
  Proof. induction 1; cbn [n_transitions]; lia. Qed.
  Lemma sum_parts (ps : list (list (tr * bool))) : n_transitions (concat (map closed ps)) + n_transitions (map open ps) = length (concat ps).
  Proof.
    induction ps as [|p ps IH]; [reflexivity|]. cbn [map concat n_transitions]. rewrite n_transitions_app, app_length. pose proof (parts_len p). lia.
  Qed.
  Lemma segs_perm (ps : list (list (tr * bool))) : Permutation (concat (map closed ps) ++ concat (map opt (map open ps))) (concat (map segments ps)).
  Proof.
    induction ps as [|p ps IH]; [constructor|]. cbn [map concat]. rewrite segments_parts, <- !app_assoc. apply Permutation_app_head.
    rewrite <- IH. rewrite !app_assoc. apply Permutation_app_tail. apply Permutation_app_comm.
  Qed.
  Lemma segs_ne (ps : list (list (tr * bool))) : Forall (fun s => 0 < length s) (concat (map segments ps)).
  Proof. induction ps as [|p ps IH]; [constructor|]. cbn [map concat]. apply Forall_app. split; [apply segments_ne|exact IH]. Qed.
  Lemma map_combine_fst {A B} (l : list A) : forall (m : list B), length l = length m -> map (fun sa => Some (fst sa)) (combine l m) = map Some l /\ map (fun sa => Some (snd sa)) (combine l m) = map Some m.
  Proof. induction l as [|a l IH]; intros [|b m] H; try discriminate; [split; reflexivity|]. cbn in *. destruct (IH m) as [-> ->]; [lia|]. split; reflexivity. Qed.
  Lemma closed_nil (n : nat) : concat (map closed (repeat (@nil (tr * bool)) n)) = [].
  Proof. induction n as [|n IH]; [reflexivity|]. cbn. exact IH. Qed.
  Lemma open_nil (n : nat) : map open (repeat (@nil (tr * bool)) n) = repeat [] n.
  Proof. induction n as [|n IH]; [reflexivity|]. cbn. now rewrite IH. Qed.
  Lemma map_const {A B} (c : B) (l : list A) : map (fun _ => c) l = repeat c (length l).
  Proof. induction l as [|a l IH]; [reflexivity|]. cbn. now rewrite IH. Qed.

  Lemma update_ok recurrent U n s ps : (forall m, recurrent = Some (Some m) -> 0 < m) ->
    length ps = n -> last_episode s = [] -> Permutation (memory s) (concat (map closed ps)) -> batch_last_episode s = Some (map open ps) ->
    length (batch_last_state s) = n -> length (batch_last_action s) = n ->
    exists s' d, update_if_dataset_is_ready recurrent U s = Ok (s', d) /\
      let u := if U <=? length (concat ps) then Some (concat (map segments ps)) else None in
      let ps' := if U <=? length (concat ps) then map (fun _ => []) ps else ps in
      same_update recurrent (Ok d) u /\ store_ok n false s' {| acted := []; pend := ps' |}.
  Proof.
    intros Hr Hn Hl Hm Hb Hs Ha. unfold update_if_dataset_is_ready.
    assert (Sz : dataset_size s = length (concat ps)). { unfold dataset_size. rewrite Hl, Hb, (perm_n _ _ Hm). cbn [length]. rewrite Nat.add_0_r. apply sum_parts. }
    rewrite Sz. destruct (Nat.leb_spec U (length (concat ps))) as [L|L].
    - assert (F : flush_last_episode s = {| memory := memory s ++ concat (map opt (map open ps)); last_episode := []; batch_last_episode := Some (map (fun _ => []) (map open ps));
                     batch_last_state := batch_last_state s; batch_last_action := batch_last_action s |}).
      { unfold flush_last_episode. rewrite Hl, Hb, flush_batch_spec. reflexivity. }
      rewrite F. cbn [memory]. set (mem := memory s ++ concat (map opt (map open ps))).
      assert (Pm : Permutation mem (concat (map segments ps))). { unfold mem. rewrite Hm. apply segs_perm. }
      assert (Ne : Forall (fun s => 0 < length s) mem). { apply (Permutation_Forall (Permutation_sym Pm)). apply segs_ne. }
      set (s2 := {| memory := []; last_episode := []; batch_last_episode := Some (map (fun _ => []) (map open ps)); batch_last_state := batch_last_state s; batch_last_action := batch_last_action s |}).
      assert (St : store_ok n false s2 {| acted := []; pend := map (fun _ => []) ps |}).
      { unfold store_ok. cbn [pend acted]. rewrite !map_const, Hn. split; [apply repeat_length|]. split; [reflexivity|]. rewrite closed_nil, open_nil.
        split; [constructor|]. split; [|intros; discriminate]. left. unfold s2. cbn [batch_last_episode batch_last_state batch_last_action].
        rewrite map_const, map_length, Hn. repeat split; assumption. }
      destruct recurrent as [[m|]|]; cbn [make_dataset].
      + unfold limit_sequence_length. specialize (Hr m eq_refl). destruct (Nat.ltb_spec 0 m) as [_|]; [|lia]. cbn [passert rbind].
        destruct (limit_loop_ok m mem Hr Ne []) as (l & E & C & Fl & _). cbn [app] in E. rewrite E. cbn [rmap rbind].
        exists s2, (Some (Sequences l)). split; [reflexivity|]. cbn zeta. split; [|exact St]. cbn. exists mem. split; [exact Pm|]. split; assumption.
      + cbn [rbind]. exists s2, (Some (Sequences mem)). split; [reflexivity|]. split; [|exact St]. cbn. exists mem. split; [exact Pm|reflexivity].
      + cbn [rbind]. assert (Lm : length (concat mem) = length (concat ps)).
        { rewrite <- n_transitions_concat, (perm_n _ _ Pm), <- (perm_n _ _ (segs_perm ps)), n_transitions_app. rewrite <- sum_parts. f_equal.
          generalize (map open ps). intros l. induction l as [|o l IH]; [reflexivity|]. cbn [map concat]. rewrite n_transitions_app, IH. destruct o; cbn; lia. }
        rewrite Lm, Nat.eqb_refl. cbn [passert rbind]. exists s2, (Some (Flat (concat mem))). split; [reflexivity|]. split; [|exact St]. cbn. exists mem. split; [exact Pm|reflexivity].
    - exists s, None. split; [reflexivity|]. cbn zeta. split; [exact Logic.I|]. unfold store_ok. cbn [pend acted]. split; [exact Hn|]. split; [exact Hl|]. split; [exact Hm|]. split; [|intros; discriminate].
      left. repeat split; assumption.
  Qed.

  Theorem store_refines recurrent U n : (forall m, recurrent = Some (Some m) -> 0 < m) -> forall ops on s p, alternating n on ops -> store_ok n on s p ->
    Forall2 (same_update recurrent) (snd (run (call recurrent U) s ops)) (snd (run (ref_call U) p ops)).
  Proof.
    intros Hr. induction ops as [|o ops IH]; intros on s p Halt Hok; [constructor|]. cbn [run].
    destruct o as [[] obs acts|[] obs rs dones resets]; cbn [alternating] in Halt; cbn [call ref_call].
    - destruct Halt as (-> & H1 & H2 & Halt). destruct Hok as (K1 & K2 & K3 & K4 & _). subst n.
      set (s1 := {| memory := memory s; last_episode := last_episode s; batch_last_episode := Some (map open (pend p)); batch_last_state := map Some obs; batch_last_action := map Some acts |}).
      assert (E : batch_act_train obs acts s = Ok s1).
      { unfold batch_act_train. destruct K4 as [(B1 & B2 & B3)|(B1 & _ & B2 & B3)]; rewrite B1.
        - rewrite B1. cbn [rbind]. rewrite map_length, K1, B2, B3, Nat.eqb_refl. reflexivity.
        - cbn [initialize_batch_variables batch_last_episode batch_last_state batch_last_action rbind]. rewrite !repeat_length, Nat.eqb_refl. cbn [passert rbind memory last_episode].
          unfold s1. rewrite B2, open_nil. reflexivity. }
      rewrite E. destruct (run (call recurrent U) s1 ops) as [s2 r2] eqn:R1. destruct (run (ref_call U) {| acted := combine obs acts; pend := pend p |} ops) as [p2 q2] eqn:R2.
      cbn [snd]. constructor; [exact Logic.I|]. change r2 with (snd (s2, r2)). change q2 with (snd (p2, q2)). rewrite <- R1, <- R2. apply (IH true); [exact Halt|].
      unfold store_ok. cbn [pend acted]. unfold s1. cbn [memory last_episode batch_last_episode batch_last_state batch_last_action]. rewrite !map_length.
      split; [exact K1|]. split; [exact K2|]. split; [exact K3|]. split; [left; split; [reflexivity|]; split; [reflexivity|exact H2]|]. intros _.
      destruct (map_combine_fst obs acts) as [-> ->]; [lia|]. rewrite combine_length. split; [lia|]. split; reflexivity.
    - destruct (run (call recurrent U) s ops) as [s2 r2] eqn:R1. destruct (run (ref_call U) p ops) as [p2 q2] eqn:R2. cbn [snd]. constructor; [exact Logic.I|].
      change r2 with (snd (s2, r2)). change q2 with (snd (p2, q2)). rewrite <- R1, <- R2. apply (IH on); assumption.
    - destruct Halt as (-> & H1 & H2 & H3 & H4 & Halt). destruct Hok as (K1 & K2 & K3 & K4 & K5). destruct (K5 eq_refl) as (K6 & K7 & K8). destruct K4 as [(B1 & B2 & B3)|(_ & X & _)]; [|discriminate X].
      destruct (observe_loop_ok (pend p) (acted p) rs obs dones resets [] (batch_last_state s) (batch_last_action s) s) as (s1 & new & I1 & I2 & I3 & I4 & I5 & I6 & I7 & I8 & I9); try lia; try reflexivity; [exact B1|].
      cbn [length app] in I1, I2. rewrite <- K7, <- K8 in I1. unfold batch_observe_train. rewrite I1. cbn [rbind].
      set (l := add_experiences (pend p) (acted p) rs obs dones resets) in *.
      destruct (update_ok recurrent U n s1 l Hr) as (s2 & d & E & Su & St); try congruence.
      { rewrite I3, K3. exact I5. }
      rewrite E. cbn zeta in Su, St. destruct (U <=? length (concat l)).
      + destruct (run (call recurrent U) s2 ops) as [s3 r3] eqn:R1. destruct (run (ref_call U) {| acted := []; pend := map (fun _ => []) l |} ops) as [p3 q3] eqn:R2. cbn [snd]. constructor; [exact Su|].
        change r3 with (snd (s3, r3)). change q3 with (snd (p3, q3)). rewrite <- R1, <- R2. apply (IH false); assumption.
      + destruct (run (call recurrent U) s2 ops) as [s3 r3] eqn:R1. destruct (run (ref_call U) {| acted := []; pend := l |} ops) as [p3 q3] eqn:R2. cbn [snd]. constructor; [exact Su|].
        change r3 with (snd (s3, r3)). change q3 with (snd (p3, q3)). rewrite <- R1, <- R2. apply (IH false); assumption.
    - destruct (run (call recurrent U) s ops) as [s2 r2] eqn:R1. destruct (run (ref_call U) p ops) as [p2 q2] eqn:R2. cbn [snd]. constructor; [exact Logic.I|].
      change r2 with (snd (s2, r2)). change q2 with (snd (p2, q2)). rewrite <- R1, <- R2. apply (IH on); assumption.
  Qed.

  Lemma store_ok_init n : store_ok n false (@store_init Ob Act) (pending_init n).
  Proof.
    unfold store_ok, pending_init. cbn [pend acted]. rewrite repeat_length, closed_nil. split; [reflexivity|]. split; [reflexivity|]. split; [constructor|]. split; [|intros; discriminate].
    right. repeat split; reflexivity.
  Qed.
End StoreProofs.

Section HistoryProofs.
  Context {Ob Act : Type}.
  Notation tr := (transition Ob Act).
  Lemma add_zip (ps : list (list (tr * bool))) : forall sas rs nexts dones resets,
    length sas = length ps -> length rs = length ps -> length nexts = length ps -> length dones = length ps -> length resets = length ps ->
    Permutation (map fst (concat (add_experiences ps sas rs nexts dones resets))) (map fst (concat ps) ++ zip_experiences sas rs nexts dones resets) /\
    length (add_experiences ps sas rs nexts dones resets) = length ps.
  Proof.
    induction ps as [|p ps IH]; intros sas rs nexts dones resets H1 H2 H3 H4 H5;
      destruct sas as [|sa sas], rs as [|r rs], nexts as [|nx nexts], dones as [|d dones], resets as [|z resets]; try discriminate.
    - split; [constructor|reflexivity].
    - cbn [add_experiences zip_experiences concat]. cbn in H1, H2, H3, H4, H5. destruct (IH sas rs nexts dones resets) as [I1 I2]; try lia. split; [|cbn; lia].
      rewrite !map_app. cbn [map]. rewrite I1, <- !app_assoc. apply Permutation_app_head. cbn [app]. apply Permutation_middle.
  Qed.
  Definition upd (u : option (list (list tr))) : list tr := match u with Some e => concat e | None => [] end.
  Lemma concat_nils {A B} (l : list A) : concat (map (fun _ => @nil B) l) = [].
  Proof. induction l; auto. Qed.
  Lemma segs_concat (ps : list (list (tr * bool))) : concat (concat (map segments ps)) = map fst (concat ps).
  Proof. induction ps as [|p ps IH]; [reflexivity|]. cbn [map concat]. rewrite concat_app, segments_concat, IH, map_app. reflexivity. Qed.
  Lemma ref_once U n : forall ops on p, alternating n on ops -> length (pend p) = n -> (on = true -> length (acted p) = n) ->
    let p' := fst (run (ref_call U) p ops) in
    Permutation (map fst (concat (pend p)) ++ observed (acted p) ops) (concat (map upd (snd (run (ref_call U) p ops))) ++ map fst (concat (pend p'))) /\
    (length (concat (pend p)) < U -> length (concat (pend p')) < U).
  Proof.
    induction ops as [|o ops IH]; intros on p Halt Hp Ha; cbn zeta.
    - cbn. split; [now rewrite app_nil_r|auto].
    - cbn [run]. destruct o as [[] obs acts|[] obs rs dones resets]; cbn [alternating] in Halt; cbn [ref_call observed].
      + destruct Halt as (_ & H1 & H2 & Halt). specialize (IH true {| acted := combine obs acts; pend := pend p |} Halt Hp). cbn [acted pend] in IH.
        assert (X : true = true -> length (combine obs acts) = n) by (intros _; rewrite combine_length; lia). specialize (IH X). cbn zeta in IH.
        destruct (run (ref_call U) _ ops) as [p2 q2]. cbn [fst snd map concat upd app] in *. exact IH.
      + specialize (IH on p Halt Hp Ha). cbn zeta in IH. destruct (run (ref_call U) p ops) as [p2 q2]. cbn [fst snd map concat upd app] in *. exact IH.
      + destruct Halt as (-> & H1 & H2 & H3 & H4 & Halt). specialize (Ha eq_refl). destruct (add_zip (pend p) (acted p) rs obs dones resets) as [Z1 Z2]; try lia.
        set (l := add_experiences (pend p) (acted p) rs obs dones resets) in *. destruct (Nat.leb_spec U (length (concat l))) as [L|L].
        * specialize (IH false {| acted := []; pend := map (fun _ => []) l |} Halt). cbn [acted pend] in IH. rewrite map_length, Z2 in IH. specialize (IH Hp ltac:(discriminate)).
          cbn zeta in IH. rewrite concat_nils in IH. destruct (run (ref_call U) _ ops) as [p2 q2]. cbn [fst snd map concat upd app length] in *. destruct IH as [I1 I2]. split.
          -- rewrite app_assoc, <- Z1. rewrite segs_concat, <- app_assoc. apply Permutation_app_head. exact I1.
          -- intros H. apply I2. lia.
        * specialize (IH false {| acted := []; pend := l |} Halt). cbn [acted pend] in IH. rewrite Z2 in IH. specialize (IH Hp ltac:(discriminate)).
          cbn zeta in IH. destruct (run (ref_call U) _ ops) as [p2 q2]. cbn [fst snd map concat upd app length] in *. destruct IH as [I1 I2]. split.
          -- rewrite app_assoc, <- Z1. exact I1.
          -- intros _. apply I2. exact L.
      + specialize (IH on p Halt Hp Ha). cbn zeta in IH. destruct (run (ref_call U) p ops) as [p2 q2]. cbn [fst snd map concat upd app] in *. exact IH.
  Qed.
  Lemma same_used recurrent rs us : Forall2 (same_update recurrent) rs us -> Permutation (concat (map (@used Ob Act) rs)) (concat (map upd us)).
  Proof.
    induction 1 as [|r u rs us H F IH]; [constructor|]. cbn [map concat]. apply Permutation_app; [|exact IH]. clear F IH. unfold same_update in H. destruct r as [[d|]|e], u as [e'|]; try contradiction; [|constructor].
    destruct H as (segs & Hp & Hd). cbn [upd]. assert (P : Permutation (concat segs) (concat e')).
    { clear Hd. induction Hp; cbn; [constructor|apply Permutation_app_head; assumption|rewrite !app_assoc; apply Permutation_app_tail, Permutation_app_comm|etransitivity; eassumption]. }
    rewrite <- P. destruct recurrent as [[m|]|], d as [l|l]; try contradiction; cbn [used].
    - destruct Hd as [C _]. rewrite (cut_concat _ _ C). reflexivity.
    - now rewrite Hd.
    - now rewrite Hd.
  Qed.
End HistoryProofs.
