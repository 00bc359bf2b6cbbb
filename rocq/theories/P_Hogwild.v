(** Proofs about optimizer steps without locks. *)
From Coq Require Import Reals Lra Lia Psatz.
From Verif Require Import Base M_RMSprop S_RMSprop S_RewardFilter C84 C88 M_Hogwild S_Hogwild.
Open Scope R_scope.

Lemma subseq_nil {A : Type} (l : list A) : subseq [] l.
Proof. induction l; constructor; assumption. Qed.
Lemma subseq_app_r {A : Type} (l l' k : list A) : subseq l l' -> subseq l (l' ++ k).
Proof. induction 1; cbn [app]; [apply subseq_nil|constructor; assumption|constructor; assumption]. Qed.
Lemma subseq_snoc {A : Type} (l l' : list A) x : subseq l l' -> subseq (l ++ [x]) (l' ++ [x]).
Proof. induction 1; cbn [app]; constructor; try assumption; constructor. Qed.
Lemma subseq_in {A : Type} (l l' : list A) x : subseq l l' -> In x l -> In x l'.
Proof. induction 1; cbn [In]; intros Hx; [contradiction|right; auto|destruct Hx as [->|Hx]; [now left|right; auto]]. Qed.
Lemma subseq_length {A : Type} (l l' : list A) : subseq l l' -> (length l <= length l')%nat.
Proof. induction 1; cbn [length]; lia. Qed.
Lemma sumR_app l k : sumR (l ++ k) = sumR l + sumR k.
Proof. induction l as [|x l IH]; cbn [app sumR]; [lra|rewrite IH; lra]. Qed.
Lemma sumR_bound B l : (forall x, In x l -> Rabs x <= B) -> Rabs (sumR l) <= INR (length l) * B.
Proof.
  induction l as [|x l IH]; intros H; cbn [sumR length].
  - rewrite Rabs_R0. cbn [INR]. lra.
  - rewrite S_INR. specialize (IH (fun y Hy => H y (or_intror Hy))). specialize (H x (or_introl eq_refl)).
    pose proof (Rabs_triang x (sumR l)). lra.
Qed.

Lemma nth_error_list_set_eq {A : Type} (l : list A) i x w : nth_error l i = Some w -> nth_error (list_set l i x) i = Some x.
Proof. revert i. induction l as [|y l IH]; intros [|i] H; cbn in *; try discriminate; [reflexivity|apply IH; exact H]. Qed.
Lemma list_set_list_set {A : Type} (l : list A) i x y : list_set (list_set l i x) i y = list_set l i y.
Proof. revert i. induction l as [|z l IH]; intros [|i]; cbn; try reflexivity. f_equal. apply IH. Qed.
Lemma Forall_list_set {A : Type} (Q : A -> Prop) (l : list A) i x : Forall Q l -> Q x -> Forall Q (list_set l i x).
Proof.
  intros H Hx. revert i. induction H as [|y l Hy H IH]; intros [|i]; cbn; constructor; auto.
Qed.
Lemma list_set_same {A : Type} (l : list A) i x : nth_error l i = Some x -> list_set l i x = l.
Proof. revert i. induction l as [|y l IH]; intros [|i] H; cbn in *; try discriminate; [injection H as ->; reflexivity|f_equal; apply IH; exact H]. Qed.

(** * Any interleaving, without centering *)

Section Inv.
  Context (c : group_cfg) (x0 : R) (B : R -> Prop).
  Hypothesis Ha : 0 <= alpha c <= 1.
  Hypothesis He : 0 < eps c.
  Hypothesis Hc : centered c = false.

  (** Whatever finite numbers it reads (no negative mean square), the code writes finite numbers, does not make the mean
      square negative, only adds to the parameter, and only amounts in [B]. *)
  Fixpoint safe (k : code) : Prop :=
    match k with
    | Done => True
    | Load CSq f => forall v, 0 <= v -> safe (f (Some v))
    | Load _ f => forall v, safe (f (Some v))
    | MulTo CP _ _ => False
    | MulTo CSq a k => (exists v, a = Some v /\ 0 <= v) /\ safe k
    | MulTo _ a k => (exists v, a = Some v) /\ safe k
    | AddTo CP d k => (exists v, d = Some v /\ B v) /\ safe k
    | AddTo CSq d k => (exists v, d = Some v /\ 0 <= v) /\ safe k
    | AddTo _ d k => (exists v, d = Some v) /\ safe k
    end.

  Definition reached (moves : list R) (p : R) : Prop := exists l, subseq l moves /\ p = x0 + sumR l.

  (** What an operation in progress has read. *)
  Definition read_ok (moves : list R) (w : worker) : Prop :=
    match w_read w with
    | None => True
    | Some r =>
        match w_code w with
        | MulTo CSq _ _ | AddTo CSq _ _ => exists v, r = Some v /\ 0 <= v
        | MulTo CP _ _ | AddTo CP _ _ => exists v, r = Some v /\ reached moves v
        | _ => exists v, r = Some v
        end
    end.

  Definition inv (s : sys) : Prop :=
    exists p sq ga buf moves,
      s_mem s = {| m_p := Some p; m_sq := Some sq; m_ga := Some ga; m_buf := Some buf |} /\ 0 <= sq
      /\ s_moves s = map Some moves /\ Forall B moves /\ reached moves p
      /\ Forall (fun w => safe (w_code w) /\ read_ok moves w) (s_ws s).

  Lemma reached_app moves k p : reached moves p -> reached (moves ++ k) p.
  Proof. intros (l & H & E). exists l. split; [apply subseq_app_r; exact H|exact E]. Qed.
  Lemma read_ok_app moves k w : read_ok moves w -> read_ok (moves ++ k) w.
  Proof.
    unfold read_ok. destruct (w_read w) as [r|]; [|auto]. destruct (w_code w) as [|[] ?|[] ? ?|[] ? ?]; auto;
      intros (v & E & H); exists v; (split; [exact E|apply reached_app; exact H]).
  Qed.
  Lemma reached_snoc moves p d : reached moves p -> reached (moves ++ [d]) (p + d).
  Proof. intros (l & H & E). exists (l ++ [d]). split; [apply subseq_snoc; exact H|]. rewrite sumR_app, E. cbn [sumR]. lra. Qed.

  Lemma move_safe g v : 0 < v -> (~ 0 < momentum c -> B (- lr c * (g / sqrt v))) -> (0 < momentum c -> forall b, B b) ->
    safe (move_code c (Some g) (Some v)).
  Proof.
    intros Hv B1 B2. unfold move_code. cbn [nover_sqrt]. destruct (Rle_dec v 0) as [N|_]; [lra|].
    destruct (Rlt_dec 0 (momentum c)) as [M|M]; cbn [safe nmul].
    - split; [eauto|]. split; [eauto|]. intros b. split; [|exact I]. eexists. split; [reflexivity|]. apply B2. exact M.
    - split; [|exact I]. eexists. split; [reflexivity|]. apply B1. exact M.
  Qed.
  Lemma average_safe g : (~ 0 < momentum c -> forall v, eps c <= v -> B (- lr c * (g / sqrt v))) -> (0 < momentum c -> forall b, B b) ->
    safe (average_code c (Some g)).
  Proof.
    intros B1 B2. unfold average_code. rewrite Hc. cbn [safe nmul].
    split; [exists (alpha c); split; [reflexivity|lra]|]. split; [eexists; split; [reflexivity|]; pose proof (Rle_0_sqr g); unfold Rsqr in *; nra|].
    intros v Hv. cbn [nadd]. apply move_safe; [lra| |exact B2]. intros M. apply B1; [exact M|lra].
  Qed.

  Lemma inv_access s i : inv s -> inv (sched c s (Access i)).
  Proof.
    intros (p & sq & ga & buf & moves & Em & Hsq & El & HB & Hp & Hw). cbn [sched].
    destruct (nth_error (s_ws s) i) as [w|] eqn:Ei; [|exists p, sq, ga, buf, moves; repeat split; assumption].
    pose proof (nth_error_In _ _ Ei) as Iw. pose proof (proj1 (Forall_forall _ _) Hw w Iw) as [Hs Hr].
    destruct w as [k r]. cbn [w_code w_read] in *. unfold access. cbn [w_code w_read]. rewrite Em.
    assert (Keep : forall d k' r', safe k' -> read_ok moves {| w_code := k'; w_read := r' |} ->
      Forall (fun w => safe (w_code w) /\ read_ok (moves ++ d) w) (list_set (s_ws s) i {| w_code := k'; w_read := r' |})).
    { intros d k' r' H1 H2. apply Forall_list_set; [|split; [exact H1|apply read_ok_app; exact H2]].
      eapply Forall_impl; [|exact Hw]. intros w0 [K1 K2]. split; [exact K1|apply read_ok_app; exact K2]. }
    assert (Fin0 : forall p' sq' ga' buf' k' r', 0 <= sq' -> reached moves p' -> safe k' -> read_ok moves {| w_code := k'; w_read := r' |} ->
      inv {| s_mem := {| m_p := Some p'; m_sq := Some sq'; m_ga := Some ga'; m_buf := Some buf' |};
             s_ws := list_set (s_ws s) i {| w_code := k'; w_read := r' |}; s_moves := s_moves s ++ [] |}).
    { intros p' sq' ga' buf' k' r' H1 H2 H3 H4. exists p', sq', ga', buf', moves. cbn [s_mem s_ws s_moves]. rewrite app_nil_r.
      split; [reflexivity|]. split; [exact H1|]. split; [exact El|]. split; [exact HB|]. split; [exact H2|].
      specialize (Keep [] k' r' H3 H4). rewrite app_nil_r in Keep. exact Keep. }
    destruct k as [|a f|a z k|a z k].
    - apply Fin0; assumption.
    - apply Fin0; try assumption; [|exact I]. destruct a; cbn [mget m_p m_sq m_ga m_buf]; apply Hs; assumption.
    - destruct r as [r|].
      + destruct a; cbn [safe] in Hs; [contradiction| | |].
        * destruct Hs as [(v & -> & Hv) Hk]. cbn [read_ok w_read w_code] in Hr. destruct Hr as (y & -> & Hy). cbn [mset nmul m_p m_sq m_ga m_buf].
          apply Fin0; try assumption; [nra|exact I].
        * destruct Hs as [(v & ->) Hk]. cbn [read_ok w_read w_code] in Hr. destruct Hr as (y & ->). cbn [mset nmul m_p m_sq m_ga m_buf].
          apply Fin0; try assumption; exact I.
        * destruct Hs as [(v & ->) Hk]. cbn [read_ok w_read w_code] in Hr. destruct Hr as (y & ->). cbn [mset nmul m_p m_sq m_ga m_buf].
          apply Fin0; try assumption; exact I.
      + apply Fin0; try assumption. unfold read_ok. cbn [w_read w_code mget m_p m_sq m_ga m_buf]. destruct a; cbn; eauto.
    - destruct r as [r|].
      + destruct a; cbn [safe] in Hs.
        * destruct Hs as [(v & -> & Hv) Hk]. cbn [read_ok w_read w_code] in Hr. destruct Hr as (y & -> & Hy). cbn [mset nadd m_p m_sq m_ga m_buf].
          exists (y + v), sq, ga, buf, (moves ++ [v]). cbn [s_mem s_ws s_moves]. split; [reflexivity|]. split; [exact Hsq|].
          split; [rewrite El, map_app; reflexivity|]. split; [apply Forall_app; split; [exact HB|constructor; [exact Hv|constructor]]|].
          split; [apply reached_snoc; exact Hy|]. apply Keep; [exact Hk|exact I].
        * destruct Hs as [(v & -> & Hv) Hk]. cbn [read_ok w_read w_code] in Hr. destruct Hr as (y & -> & Hy). cbn [mset nadd m_p m_sq m_ga m_buf].
          apply Fin0; try assumption; [lra|exact I].
        * destruct Hs as [(v & ->) Hk]. cbn [read_ok w_read w_code] in Hr. destruct Hr as (y & ->). cbn [mset nadd m_p m_sq m_ga m_buf].
          apply Fin0; try assumption; exact I.
        * destruct Hs as [(v & ->) Hk]. cbn [read_ok w_read w_code] in Hr. destruct Hr as (y & ->). cbn [mset nadd m_p m_sq m_ga m_buf].
          apply Fin0; try assumption; exact I.
      + apply Fin0; try assumption. unfold read_ok. cbn [w_read w_code mget m_p m_sq m_ga m_buf]. destruct a; cbn; eauto.
  Qed.

  Lemma inv_begin s i g : safe (step_code c g) -> inv s -> inv (sched c s (Begin i g)).
  Proof.
    intros Hg (p & sq & ga & buf & moves & Em & Hsq & El & HB & Hp & Hw). cbn [sched].
    destruct (nth_error (s_ws s) i) as [w|] eqn:Ei; [|exists p, sq, ga, buf, moves; repeat split; assumption].
    destruct (w_code w); exists p, sq, ga, buf, moves; repeat split; try assumption. cbn [s_ws].
    apply Forall_list_set; [exact Hw|]. split; [exact Hg|exact I].
  Qed.

  Lemma inv_run es : forall s, (forall i g, In (Begin i g) es -> safe (step_code c g)) -> inv s -> inv (hogwild c s es).
  Proof.
    induction es as [|e es IH]; intros s H Hi; [exact Hi|]. unfold hogwild in *. cbn [fold_left]. apply IH.
    - intros i g Hin. apply (H i g). now right.
    - destruct e as [i g|i]; [apply inv_begin; [apply (H i g); now left|exact Hi]|apply inv_access; exact Hi].
  Qed.
  Lemma inv_start n : inv (start n x0).
  Proof.
    exists x0, 0, 0, 0, []. cbn [start s_mem s_ws s_moves]. split; [reflexivity|]. split; [lra|]. split; [reflexivity|]. split; [constructor|].
    split; [exists []; split; [constructor|cbn; lra]|]. apply Forall_forall. intros w Hw. apply repeat_spec in Hw. subst w. split; exact I.
  Qed.
End Inv.

Lemma step_safe_any c g : 0 <= alpha c <= 1 -> 0 < eps c -> centered c = false -> safe (fun _ => True) (step_code c g).
Proof.
  intros Ha He Hc. unfold step_code. destruct (Req_EM_T (weight_decay c) 0).
  - apply average_safe; auto.
  - cbn [safe]. intros p. cbn [nmul nadd]. apply average_safe; auto.
Qed.

Lemma step_safe_bound c G g : 0 <= alpha c <= 1 -> 0 < eps c -> centered c = false -> momentum c <= 0 -> weight_decay c = 0 -> 0 <= lr c ->
  Rabs g <= G -> safe (fun d => Rabs d <= lr c * G / sqrt (eps c)) (step_code c g).
Proof.
  intros Ha He Hc Hm Hw Hl Hg. unfold step_code. destruct (Req_EM_T (weight_decay c) 0) as [_|N]; [|contradiction].
  apply average_safe; auto; [|intros; lra]. intros _ v Hv.
  assert (S1 : 0 < sqrt (eps c)) by now apply sqrt_lt_R0. assert (S2 : sqrt (eps c) <= sqrt v) by now apply sqrt_le_1_alt.
  unfold Rdiv. rewrite Rabs_mult, Rabs_Ropp, (Rabs_right (lr c)) by lra. rewrite Rabs_mult, Rabs_inv, (Rabs_right (sqrt v)) by lra.
  rewrite Rmult_assoc. apply Rmult_le_compat_l; [exact Hl|]. apply Rmult_le_compat; [apply Rabs_pos| |exact Hg|apply Rinv_le_contravar; assumption].
  left. apply Rinv_0_lt_compat. lra.
Qed.

(** * Steps one by one *)

(** A worker's code run without interruption: memory, moves, accesses. *)
Fixpoint exec (k : code) (m : mem) : mem * list num * nat :=
  match k with
  | Done => (m, [], 0%nat)
  | Load c f => let '(m', l, n) := exec (f (mget m c)) m in (m', l, S n)
  | MulTo c a k => let '(m', l, n) := exec k (mset m c (nmul (mget m c) a)) in (m', l, S (S n))
  | AddTo c d k => let '(m', l, n) := exec k (mset m c (nadd (mget m c) d)) in (m', match c with CP => d :: l | _ => l end, S (S n))
  end.

Lemma hogwild_cons c s e es : hogwild c s (e :: es) = hogwild c (sched c s e) es.
Proof. reflexivity. Qed.
Lemma hogwild_app c s es es' : hogwild c s (es ++ es') = hogwild c (hogwild c s es) es'.
Proof. unfold hogwild. apply fold_left_app. Qed.

Lemma run_idle c i n : forall s w, nth_error (s_ws s) i = Some w -> w_code w = Done -> hogwild c s (repeat (Access i) n) = s.
Proof.
  induction n as [|n IH]; intros s w E Ew; [reflexivity|]. cbn [repeat]. rewrite hogwild_cons.
  assert (Es : sched c s (Access i) = s).
  { cbn [sched]. rewrite E. unfold access. rewrite Ew. rewrite (list_set_same _ _ _ E), app_nil_r. destruct s; reflexivity. }
  rewrite Es. apply (IH s w E Ew).
Qed.

Lemma run_exec c i : forall k s n, nth_error (s_ws s) i = Some {| w_code := k; w_read := None |} -> (snd (exec k (s_mem s)) <= n)%nat ->
  hogwild c s (repeat (Access i) n)
  = {| s_mem := fst (fst (exec k (s_mem s))); s_ws := list_set (s_ws s) i idle; s_moves := s_moves s ++ snd (fst (exec k (s_mem s))) |}.
Proof.
  induction k as [|a f IH|a z k IH|a z k IH]; intros s n E Hn; cbn [exec fst snd] in *.
  - rewrite (run_idle c i n s _ E eq_refl). fold idle in E. rewrite (list_set_same _ _ _ E), app_nil_r. destruct s; reflexivity.
  - destruct (exec (f (mget (s_mem s) a)) (s_mem s)) as [[m' l] n'] eqn:Ee. cbn [snd fst] in *.
    destruct n as [|n]; [lia|]. cbn [repeat]. rewrite hogwild_cons.
    cbn [sched]. rewrite E. unfold access. cbn [w_code w_read]. rewrite app_nil_r.
    rewrite (IH (mget (s_mem s) a)).
    + cbn [s_mem s_ws s_moves]. rewrite Ee. cbn [fst snd]. rewrite list_set_list_set. reflexivity.
    + cbn [s_ws]. eapply nth_error_list_set_eq; exact E.
    + cbn [s_mem]. rewrite Ee. cbn [snd]. lia.
  - destruct (exec k (mset (s_mem s) a (nmul (mget (s_mem s) a) z))) as [[m' l] n'] eqn:Ee. cbn [snd fst] in *.
    destruct n as [|[|n]]; [lia|lia|]. cbn [repeat]. rewrite !hogwild_cons.
    assert (E1 : sched c (sched c s (Access i)) (Access i)
      = {| s_mem := mset (s_mem s) a (nmul (mget (s_mem s) a) z); s_ws := list_set (s_ws s) i {| w_code := k; w_read := None |}; s_moves := s_moves s |}).
    { cbn [sched]. rewrite E. unfold access. cbn [w_code w_read s_ws s_mem s_moves].
      rewrite (nth_error_list_set_eq _ _ _ _ E). cbn [w_code w_read]. rewrite list_set_list_set, !app_nil_r. reflexivity. }
    rewrite E1. rewrite IH.
    + cbn [s_mem s_ws s_moves]. rewrite Ee. cbn [fst snd]. rewrite list_set_list_set. reflexivity.
    + cbn [s_ws]. eapply nth_error_list_set_eq; exact E.
    + cbn [s_mem]. rewrite Ee. cbn [snd]. lia.
  - destruct (exec k (mset (s_mem s) a (nadd (mget (s_mem s) a) z))) as [[m' l] n'] eqn:Ee. cbn [snd fst] in *.
    destruct n as [|[|n]]; [lia|lia|]. cbn [repeat]. rewrite !hogwild_cons.
    assert (E1 : sched c (sched c s (Access i)) (Access i)
      = {| s_mem := mset (s_mem s) a (nadd (mget (s_mem s) a) z); s_ws := list_set (s_ws s) i {| w_code := k; w_read := None |};
           s_moves := s_moves s ++ match a with CP => [z] | _ => [] end |}).
    { cbn [sched]. rewrite E. unfold access. cbn [w_code w_read s_ws s_mem s_moves].
      rewrite (nth_error_list_set_eq _ _ _ _ E). cbn [w_code w_read]. rewrite list_set_list_set, app_nil_r. reflexivity. }
    rewrite E1. rewrite IH.
    + cbn [s_mem s_ws s_moves]. rewrite Ee. cbn [fst snd]. rewrite list_set_list_set. f_equal. rewrite <- app_assoc. destruct a; reflexivity.
    + cbn [s_ws]. eapply nth_error_list_set_eq; exact E.
    + cbn [s_mem]. rewrite Ee. cbn [snd]. lia.
Qed.

Lemma mem_eta m : {| m_p := m_p m; m_sq := m_sq m; m_ga := m_ga m; m_buf := m_buf m |} = m.
Proof. destruct m; reflexivity. Qed.

(** The sequential optimizer's step, in terms of the memory. *)
Lemma exec_step c h p st m g : good c -> p_state p = Some st -> tracks c h p -> entry_is m p ->
  exists p', step c p (Some g) = Ok p' /\ tracks c (advance c h (Some g)) p'
    /\ entry_is (fst (fst (exec (step_code c g) m))) p' /\ (snd (exec (step_code c g) m) <= 18)%nat
    /\ snd (fst (exec (step_code c g) m)) = [Some (p_data p' - p_data p)].
Proof.
  intros Hc Est Ht (Ep & st0 & Est0 & Esq & Ega & Ebuf). rewrite Est in Est0. injection Est0 as <-.
  destruct (step_tracks c h p (Some g) Ht) as (p' & E & Ht'). exists p'. split; [exact E|]. split; [exact Ht'|].
  pose proof Ht as [Hx [Hs [Hg Hm]]]. pose proof Ht' as [Hx' [Hs' [Hg' Hm']]]. rewrite Est in Hs, Hg, Hm.
  unfold step in E. rewrite Est in E.
  set (e := decayed c (p_data p) g) in *.
  assert (K : exec (step_code c g) m = let '(m', l, n) := exec (average_code c (Some e)) m in (m', l, if Req_EM_T (weight_decay c) 0 then n else S n)).
  { unfold step_code, e, decayed. destruct (Req_EM_T (weight_decay c) 0).
    - destruct (exec (average_code c (Some g)) m) as [[? ?] ?]. reflexivity.
    - cbn [exec mget]. rewrite Ep. cbn [nmul nadd]. reflexivity. }
  assert (Kn : (snd (exec (average_code c (Some e)) m) <= 17)%nat -> (snd (exec (step_code c g) m) <= 18)%nat).
  { rewrite K. destruct (exec (average_code c (Some e)) m) as [[? ?] n]. cbn [snd]. destruct (Req_EM_T _ _); lia. }
  assert (Km : fst (fst (exec (step_code c g) m)) = fst (fst (exec (average_code c (Some e)) m))) by (rewrite K; destruct (exec (average_code c (Some e)) m) as [[? ?] n]; reflexivity).
  assert (Kl : snd (fst (exec (step_code c g) m)) = snd (fst (exec (average_code c (Some e)) m))) by (rewrite K; destruct (exec (average_code c (Some e)) m) as [[? ?] n]; reflexivity).
  rewrite Km, Kl. clear K Km Kl.
  cut (entry_is (fst (fst (exec (average_code c (Some e)) m))) p' /\ (snd (exec (average_code c (Some e)) m) <= 17)%nat
       /\ snd (fst (exec (average_code c (Some e)) m)) = [Some (p_data p' - p_data p)]).
  { intros (H1 & H2 & H3). split; [exact H1|]. split; [apply Kn; exact H2|exact H3]. }
  clear Kn.
  (* what is under the root is positive *)
  set (v := if centered c then square_avg st * alpha c + (1 - alpha c) * (e * e)
              - (match grad_avg st with Some a => a | None => 0 end * alpha c + (1 - alpha c) * e) * (match grad_avg st with Some a => a | None => 0 end * alpha c + (1 - alpha c) * e)
            else square_avg st * alpha c + (1 - alpha c) * (e * e)).
  assert (Hv : 0 <= v).
  { assert (Ee : e = g + weight_decay c * h_x h) by (unfold e, decayed; rewrite Hx; destruct (Req_EM_T (weight_decay c) 0) as [->|_]; ring).
    assert (Ev : v = spread c (h_used h ++ [e])).
    { unfold v, spread. rewrite Hs, Hg. destruct (centered c).
      - rewrite evar_moments. unfold ema. rewrite !weighted_snoc. ring.
      - rewrite weighted_snoc. ring. }
    rewrite Ev. apply spread_nonneg. exact Hc. }
  destruct Hc as [Ha He]. unfold average_code, move_code. unfold v in Hv. clear v.
  destruct m as [mp msq mga mbuf]. cbn [m_p m_sq m_ga m_buf] in *. subst mp msq. clear Hs' Hg' Hm' Ht' Hx'.
  destruct (centered c) eqn:Ec.
  - rewrite Hg in *. specialize (Ega _ eq_refl). subst mga.
    cbn [exec mget mset m_p m_sq m_ga m_buf nadd nmul fst snd]. cbn [rbind] in E.
    set (a' := ema (1 - alpha c) (h_used h) * alpha c + (1 - alpha c) * e) in *.
    set (q := square_avg st * alpha c + (1 - alpha c) * (e * e)) in *.
    replace (q + -1 * (a' * a') + eps c) with (q - a' * a' + eps c) by ring. cbn [nover_sqrt].
    destruct (Rle_dec (q - a' * a' + eps c) 0) as [N|_]; [lra|].
    destruct (Rlt_dec 0 (momentum c)) as [M|M].
    + rewrite Hm in *. specialize (Ebuf _ eq_refl). subst mbuf. cbn [rbind] in E. injection E as <-.
      cbn [exec mget mset m_p m_sq m_ga m_buf nadd nmul fst snd p_data p_state]. split; [|split; [lia|do 2 f_equal; lra]].
      split; [reflexivity|]. eexists. split; [reflexivity|]. cbn [square_avg grad_avg momentum_buffer m_sq m_ga m_buf]. repeat split; congruence.
    + rewrite Hm in *. cbn [rbind] in E. injection E as <-.
      cbn [exec mget mset m_p m_sq m_ga m_buf nadd nmul fst snd p_data p_state]. split; [|split; [lia|do 2 f_equal; lra]].
      split; [reflexivity|]. eexists. split; [reflexivity|]. cbn [square_avg grad_avg momentum_buffer m_sq m_ga m_buf]. repeat split; congruence.
  - rewrite Hg in *.
    cbn [exec mget mset m_p m_sq m_ga m_buf nadd nmul fst snd]. cbn [rbind] in E.
    set (q := square_avg st * alpha c + (1 - alpha c) * (e * e)) in *. cbn [nover_sqrt].
    destruct (Rle_dec (q + eps c) 0) as [N|_]; [lra|].
    destruct (Rlt_dec 0 (momentum c)) as [M|M].
    + rewrite Hm in *. specialize (Ebuf _ eq_refl). subst mbuf. cbn [rbind] in E. injection E as <-.
      cbn [exec mget mset m_p m_sq m_ga m_buf nadd nmul fst snd p_data p_state]. split; [|split; [lia|do 2 f_equal; lra]].
      split; [reflexivity|]. eexists. split; [reflexivity|]. cbn [square_avg grad_avg momentum_buffer m_sq m_ga m_buf]. repeat split; congruence.
    + rewrite Hm in *. cbn [rbind] in E. injection E as <-.
      cbn [exec mget mset m_p m_sq m_ga m_buf nadd nmul fst snd p_data p_state]. split; [|split; [lia|do 2 f_equal; lra]].
      split; [reflexivity|]. eexists. split; [reflexivity|]. cbn [square_avg grad_avg momentum_buffer m_sq m_ga m_buf]. repeat split; congruence.
Qed.

Lemma serial_run c steps : good c -> forall h p s, tracks c h p -> p_state p <> None -> entry_is (s_mem s) p ->
  Forall (fun w => w = idle) (s_ws s) -> Forall (fun ig => fst ig < length (s_ws s))%nat steps ->
  exists p', run c p (map (fun ig => Some (snd ig)) steps) = Ok p' /\ entry_is (s_mem (hogwild c s (one_by_one steps))) p'
    /\ length (s_moves (hogwild c s (one_by_one steps))) = (length (s_moves s) + length steps)%nat
    /\ s_ws (hogwild c s (one_by_one steps)) = s_ws s.
Proof.
  intros Hc. induction steps as [|[i g] steps IH]; intros h p s Ht Hn Hm Hw Hi.
  - exists p. split; [reflexivity|]. split; [exact Hm|]. split; [cbn; lia|reflexivity].
  - inversion Hi as [|? ? Hi1 Hi2]; subst. cbn [fst] in Hi1. cbn [map run snd one_by_one].
    destruct (p_state p) as [st|] eqn:Est; [|congruence].
    destruct (exec_step c h p st (s_mem s) g Hc Est Ht Hm) as (p1 & E1 & Ht1 & Hm1 & Hk & Hl). rewrite E1. cbn [rbind].
    destruct (nth_error (s_ws s) i) as [w|] eqn:Ei; [|apply nth_error_None in Ei; lia].
    assert (w = idle) by (eapply (proj1 (Forall_forall _ _) Hw); eapply nth_error_In; exact Ei). subst w.
    rewrite hogwild_cons. cbn [sched]. rewrite Ei. cbn [w_code idle]. rewrite hogwild_app.
    assert (Ei' : nth_error (s_ws {| s_mem := s_mem s; s_ws := list_set (s_ws s) i {| w_code := step_code c g; w_read := None |}; s_moves := s_moves s |}) i = Some {| w_code := step_code c g; w_read := None |}).
    { cbn [s_ws]. eapply nth_error_list_set_eq; exact Ei. }
    rewrite (run_exec c i _ _ 18 Ei') by exact Hk. cbn [s_mem s_ws s_moves].
    rewrite list_set_list_set, (list_set_same _ _ _ Ei), Hl.
    match goal with |- context [hogwild c ?s1 _] => destruct (IH _ p1 s1 Ht1) as (p' & E2 & H2 & H3 & H4) end.
    + destruct Hm1 as (_ & st1 & Est1 & _). congruence.
    + exact Hm1.
    + exact Hw.
    + exact Hi2.
    + exists p'. split; [exact E2|]. split; [exact H2|]. split; [rewrite H3; cbn [s_moves]; rewrite app_length; cbn [length]; lia|exact H4].
Qed.

(** * A step moves the parameter at most once *)
Fixpoint once (k : code) : Prop :=
  match k with
  | Done => True
  | Load _ f => forall v, once (f v)
  | MulTo _ _ k => once k
  | AddTo CP _ k => k = Done
  | AddTo _ _ k => once k
  end.
Lemma step_once c g : once (step_code c g).
Proof.
  assert (M : forall g v, once (move_code c g v)) by (intros; unfold move_code; destruct (Rlt_dec 0 (momentum c)); cbn [once]; auto).
  assert (A : forall g, once (average_code c g)) by (intros; unfold average_code; destruct (centered c); cbn [once]; intros; apply M).
  unfold step_code. destruct (Req_EM_T (weight_decay c) 0); cbn [once]; intros; apply A.
Qed.
Definition busy (w : worker) : nat := match w_code w with Done => 0%nat | _ => 1%nat end.
Fixpoint busies (ws : list worker) : nat := match ws with [] => 0%nat | w :: t => (busy w + busies t)%nat end.
Lemma busies_set : forall ws i w w', nth_error ws i = Some w -> (busies (list_set ws i w') + busy w = busies ws + busy w')%nat.
Proof.
  induction ws as [|y ws IH]; intros [|i] w w' E; cbn in *; try discriminate.
  - injection E as ->. lia.
  - specialize (IH i w w' E). lia.
Qed.
Lemma busy_le w : (busy w <= 1)%nat.
Proof. unfold busy. destruct (w_code w); lia. Qed.

Definition counted (n : nat) (s : sys) : Prop :=
  Forall (fun w => once (w_code w)) (s_ws s) /\ (length (s_moves s) + busies (s_ws s) <= n)%nat.
Lemma counted_sched c n s e : counted n s -> counted (begins [e] + n) (sched c s e).
Proof.
  intros [Ho Hn]. destruct e as [i g|i]; cbn [sched begins].
  - destruct (nth_error (s_ws s) i) as [w|] eqn:Ei; [|split; [exact Ho|lia]].
    destruct (w_code w) eqn:Ew; try (split; [exact Ho|lia]). split; cbn [s_ws s_moves].
    + apply Forall_list_set; [exact Ho|apply step_once].
    + pose proof (busies_set _ _ _ {| w_code := step_code c g; w_read := None |} Ei) as K.
      pose proof (busy_le {| w_code := step_code c g; w_read := None |}). lia.
  - destruct (nth_error (s_ws s) i) as [w|] eqn:Ei; [|split; [exact Ho|lia]].
    pose proof (proj1 (Forall_forall _ _) Ho w (nth_error_In _ _ Ei)) as Hw. destruct w as [k r]. cbn [w_code] in Hw.
    unfold access. cbn [w_code w_read].
    assert (G : forall m' k' r' l, once k' -> (length l + busy {| w_code := k'; w_read := r' |} <= busy {| w_code := k; w_read := r |})%nat ->
      counted (0 + n) {| s_mem := m'; s_ws := list_set (s_ws s) i {| w_code := k'; w_read := r' |}; s_moves := s_moves s ++ l |}).
    { intros m' k' r' l Hk Hl. split; cbn [s_ws s_moves]; [apply Forall_list_set; [exact Ho|exact Hk]|].
      pose proof (busies_set _ _ _ {| w_code := k'; w_read := r' |} Ei) as K. rewrite app_length. lia. }
    destruct k as [|a f|a z k|a z k]; cbn [once] in Hw.
    + apply G; [exact I|cbn; lia].
    + apply G; [apply Hw|]. cbn [length]. pose proof (busy_le {| w_code := f (mget (s_mem s) a); w_read := None |}). unfold busy in *. cbn [w_code] in *. lia.
    + destruct r as [r|]; apply G; try exact Hw; cbn [length]; unfold busy; cbn [w_code]; [destruct k; lia|lia].
    + destruct r as [r|]; [|apply G; [exact Hw|cbn; lia]].
      destruct a; [subst k; apply G; [exact I|cbn; lia]|..]; (apply G; [exact Hw|cbn [length]; unfold busy; cbn [w_code]; destruct k; lia]).
Qed.
Lemma counted_run c es : forall n s, counted n s -> counted (begins es + n) (hogwild c s es).
Proof.
  induction es as [|e es IH]; intros n s H; [exact H|]. rewrite hogwild_cons.
  replace (begins (e :: es) + n)%nat with (begins es + (begins [e] + n))%nat by (destruct e; cbn [begins]; lia).
  apply IH. apply counted_sched. exact H.
Qed.
Lemma counted_start n x : counted 0 (start n x).
Proof.
  split; cbn [start s_ws s_moves length].
  - apply Forall_forall. intros w Hw. apply repeat_spec in Hw. subst w. exact I.
  - induction n as [|n IH]; cbn; [lia|exact IH].
Qed.
