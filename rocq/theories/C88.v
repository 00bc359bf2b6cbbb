(** C88: RMSprop with eps inside the square root. *)
From Coq Require Import Reals Lra Lia Psatz.
From Verif Require Import Base S_PPOLoss P_PPOLoss S_RewardFilter C84 M_RMSprop S_RMSprop.
Open Scope R_scope.

Definition good (c : group_cfg) : Prop := 0 < alpha c < 1 /\ 0 < eps c.

Lemma accumulated_snoc m us u : accumulated m (us ++ [u]) = m * accumulated m us + u.
Proof.
  unfold accumulated. rewrite app_length. cbn [length]. rewrite Nat.add_1_r, seq_S, total_app. cbn [total Nat.add].
  rewrite app_nth2 by lia. rewrite Nat.sub_diag. cbn [nth]. replace (S (length us) - 1 - length us)%nat with 0%nat by lia. cbn [pow].
  rewrite <- total_scale. rewrite Rplus_0_r, Rmult_1_l. f_equal. apply total_ext. intros i Hi. apply in_seq in Hi.
  rewrite app_nth1 by lia. replace (S (length us) - 1 - i)%nat with (S (length us - 1 - i)) by lia. cbn [pow]. ring.
Qed.

Lemma spread_nonneg c used : good c -> 0 <= spread c used.
Proof.
  intros [Ha _]. unfold spread. destruct (centered c); [apply evar_nonneg; lra|]. apply weighted_nonneg; [lra|intros; apply Rle_0_sqr].
Qed.

(** The optimizer's state represents the history. *)
Definition represents (c : group_cfg) (h : hist) (st : pstate) : Prop :=
  square_avg st = weighted (1 - alpha c) (fun g => g * g) (h_used h)
  /\ grad_avg st = (if centered c then Some (ema (1 - alpha c) (h_used h)) else None)
  /\ momentum_buffer st = (if Rlt_dec 0 (momentum c) then Some (accumulated (momentum c) (h_norm h)) else None).
Definition tracks (c : group_cfg) (h : hist) (p : param) : Prop :=
  p_data p = h_x h /\ represents c h (match p_state p with None => init_state c | Some st => st end).

Lemma tracks_new c x : tracks c {| h_x := x; h_used := []; h_norm := [] |} (new_lazy x)
  /\ tracks c {| h_x := x; h_used := []; h_norm := [] |} (new_shared c x).
Proof.
  assert (G : represents c {| h_x := x; h_used := []; h_norm := [] |} (init_state c)).
  { unfold represents, init_state, ema, weighted, accumulated. cbn. destruct (centered c), (Rlt_dec 0 (momentum c)); repeat split; reflexivity. }
  split; (split; [reflexivity|exact G]).
Qed.

Lemma step_tracks c h p g : tracks c h p -> exists p', step c p g = Ok p' /\ tracks c (advance c h g) p'.
Proof.
  intros [Hx [Hs [Hg Hm]]]. destruct g as [g|]; [|exists p; split; [reflexivity|]; split; [exact Hx|]; split; [exact Hs|]; split; assumption].
  unfold step. set (st := match p_state p with None => init_state c | Some st => st end) in *.
  assert (E : decayed c (p_data p) g = g + weight_decay c * h_x h).
  { unfold decayed. rewrite Hx. destruct (Req_EM_T (weight_decay c) 0) as [->|_]; ring. }
  rewrite E. set (e := g + weight_decay c * h_x h). set (used := h_used h ++ [e]).
  assert (Esq : square_avg st * alpha c + (1 - alpha c) * (e * e) = weighted (1 - alpha c) (fun g => g * g) used).
  { rewrite Hs. unfold used. rewrite weighted_snoc. ring. }
  rewrite Esq. clear Esq.
  assert (Ega : forall ga, grad_avg st = Some ga -> centered c = true -> ga * alpha c + (1 - alpha c) * e = ema (1 - alpha c) used).
  { intros ga H1 H2. rewrite Hg, H2 in H1. injection H1 as <-. unfold ema, used. rewrite weighted_snoc. ring. }
  assert (Elast : last used 0 = e) by (unfold used; apply last_last).
  unfold advance. fold e. fold used. rewrite Elast.
  set (u := e / sqrt (spread c used + eps c)).
  assert (Hstep : forall ga, ga = (if centered c then Some (ema (1 - alpha c) used) else None) ->
    exists p', (' (buf, d) <- (if Rlt_dec 0 (momentum c)
                     then match momentum_buffer st with
                          | None => Err KeyError
                          | Some b => let b := b * momentum c + u in Ok (Some b, - lr c * b)
                          end
                     else Ok (momentum_buffer st, - lr c * u)) ;;
      Ok {| p_data := p_data p + d;
            p_state := Some {| st_step := S (st_step st); square_avg := weighted (1 - alpha c) (fun g => g * g) used; momentum_buffer := buf; grad_avg := ga |} |}) = Ok p'
    /\ tracks c {| h_x := h_x h - lr c * (if Rlt_dec 0 (momentum c) then accumulated (momentum c) (h_norm h ++ [u]) else u);
         h_used := used; h_norm := h_norm h ++ [u] |} p').
  { intros ga Hga. rewrite Hm. destruct (Rlt_dec 0 (momentum c)) as [M|M]; cbn [rbind].
    - eexists. split; [reflexivity|]. split; [cbn [p_data h_x]; rewrite Hx, accumulated_snoc; ring|].
      unfold represents. cbn [p_state square_avg grad_avg momentum_buffer h_used h_norm]. split; [reflexivity|]. split; [exact Hga|].
      destruct (Rlt_dec 0 (momentum c)) as [_|N]; [|contradiction]. f_equal. rewrite accumulated_snoc. ring.
    - eexists. split; [reflexivity|]. split; [cbn [p_data h_x]; rewrite Hx; ring|].
      unfold represents. cbn [p_state square_avg grad_avg momentum_buffer h_used h_norm]. split; [reflexivity|]. split; [exact Hga|].
      destruct (Rlt_dec 0 (momentum c)) as [N|_]; [contradiction|]. reflexivity. }
  destruct (centered c) eqn:Ec.
  - rewrite Hg in *. cbn [rbind]. rewrite (Ega _ eq_refl eq_refl).
    assert (Es : weighted (1 - alpha c) (fun g => g * g) used - ema (1 - alpha c) used * ema (1 - alpha c) used = spread c used) by (unfold spread; rewrite Ec; symmetry; apply evar_moments).
    rewrite Es. apply Hstep. reflexivity.
  - cbn [rbind]. assert (Es : weighted (1 - alpha c) (fun g => g * g) used = spread c used) by (unfold spread; rewrite Ec; reflexivity).
    assert (Eu : e / sqrt (weighted (1 - alpha c) (fun g => g * g) used + eps c) = u) by (unfold u; rewrite <- Es; reflexivity).
    rewrite !Eu. apply Hstep. exact Hg.
Qed.

Lemma run_tracks c gs : forall h p, tracks c h p -> exists p', run c p gs = Ok p' /\ tracks c (fold_left (advance c) gs h) p'.
Proof.
  induction gs as [|g gs IH]; intros h p H; cbn [run fold_left]; [exists p; split; [reflexivity|exact H]|].
  destruct (step_tracks c h p g H) as (p' & E & H'). rewrite E. cbn [rbind]. apply IH. exact H'.
Qed.

(** For all options, initial values and sequences of gradients (missing ones included): the optimizer never fails and
    the parameter's value is given by the formulas; with lazy and with immediate state initialisation alike. *)
Theorem C88_formula : forall c x gs,
  exists p p', run c (new_lazy x) gs = Ok p /\ run c (new_shared c x) gs = Ok p'
    /\ p_data p = h_x (follow c x gs) /\ p_data p' = h_x (follow c x gs).
Proof.
  intros c x gs. destruct (tracks_new c x) as [T1 T2].
  destruct (run_tracks c gs _ _ T1) as (p & E & H & _). destruct (run_tracks c gs _ _ T2) as (p' & E' & H' & _).
  exists p, p'. repeat split; assumption.
Qed.

Lemma step_params_tracks c : forall ps gs (H : nat -> hist), length gs = length ps ->
  (forall j p, nth_error ps j = Some p -> tracks c (H j) p) ->
  exists ps', step_params c ps gs = Ok ps' /\ length ps' = length ps
    /\ forall j p, nth_error ps' j = Some p -> tracks c (advance c (H j) (nth j gs None)) p.
Proof.
  induction ps as [|p ps IH]; intros [|g gs] H L T; cbn [length] in L; try discriminate.
  - exists []. split; [reflexivity|]. split; [reflexivity|]. intros [|j] p E; discriminate.
  - cbn [step_params]. destruct (step_tracks c (H 0%nat) p g (T 0%nat p eq_refl)) as (p' & E & T').
    destruct (IH gs (fun j => H (S j)) ltac:(congruence)) as (ps' & E2 & L2 & T2); [intros j q Hq; apply (T (S j)); exact Hq|].
    rewrite E. cbn [rbind]. rewrite E2. cbn [rbind]. eexists. split; [reflexivity|]. split; [cbn; congruence|].
    intros [|j] q Hq; cbn [nth_error nth] in *; [injection Hq as <-; exact T'|apply T2; exact Hq].
Qed.

(** Gradients in the shape of the groups. *)
Definition fits (l : list (group_cfg * list param)) (gs : list (list (option R))) : Prop :=
  Forall2 (fun cp g => length g = length (snd cp)) l gs.

Lemma step_groups_tracks : forall l gs (H : nat -> nat -> hist), fits l gs ->
  (forall i c ps, nth_error l i = Some (c, ps) -> forall j p, nth_error ps j = Some p -> tracks c (H i j) p) ->
  exists l', step_groups l gs = Ok l' /\ map (fun cp => (fst cp, length (snd cp))) l' = map (fun cp => (fst cp, length (snd cp))) l
    /\ forall i c ps, nth_error l' i = Some (c, ps) -> forall j p, nth_error ps j = Some p ->
         tracks c (advance c (H i j) (nth j (nth i gs []) None)) p.
Proof.
  intros l gs H F. revert H. induction F as [|[c ps] g l gs L F IH]; intros H T.
  - exists []. split; [reflexivity|]. split; [reflexivity|]. intros [|i] c ps E; discriminate.
  - cbn [step_groups snd] in *. destruct (step_params_tracks c ps g (H 0%nat) L) as (ps' & E & L' & T'); [intros j p Hp; eapply (T 0%nat); [reflexivity|exact Hp]|].
    destruct (IH (fun i => H (S i))) as (l' & E2 & M2 & T2); [intros i c' ps0 Hi; apply (T (S i)); exact Hi|].
    rewrite E. cbn [rbind]. rewrite E2. cbn [rbind]. eexists. split; [reflexivity|]. split; [cbn [map fst snd]; rewrite L', M2; reflexivity|].
    intros [|i] c' ps0 Hi; cbn [nth_error nth] in *; [injection Hi as <- <-; exact T'|apply T2; exact Hi].
Qed.

Lemma fits_shape l l' gs : map (fun cp : group_cfg * list param => (fst cp, length (snd cp))) l' = map (fun cp => (fst cp, length (snd cp))) l -> fits l gs -> fits l' gs.
Proof.
  intros E F. revert l' E. induction F as [|[c ps] g l gs L F IH]; intros [|[c' ps'] l'] E; cbn [map] in E; try discriminate; constructor.
  - cbn [snd] in *. injection E as _ E _. congruence.
  - apply IH. injection E as _ _ E. exact E.
Qed.

(** Every parameter of every group is treated by itself: in a whole optimizer, lazy or shared, each value is the one
    given by the formulas for its own gradients and its own group's options. *)
Theorem C88_groups : forall (xs : list (group_cfg * list R)) (gss : list (list (list (option R)))) (shared : bool),
  let l := map (fun cx => (fst cx, map (if shared then new_shared (fst cx) else new_lazy) (snd cx))) xs in
  (forall gs, In gs gss -> fits l gs) ->
  exists l', run_groups l gss = Ok l'
    /\ forall i j c x, (exists ys, nth_error xs i = Some (c, ys) /\ nth_error ys j = Some x) ->
       exists ps p, nth_error l' i = Some (c, ps) /\ nth_error ps j = Some p
         /\ p_data p = h_x (follow c x (map (fun gs => nth j (nth i gs []) None) gss)).
Proof.
  intros xs gss shared l F.
  assert (G : forall gss l0 (H : nat -> nat -> hist), (forall gs, In gs gss -> fits l0 gs) ->
    (forall i c ps, nth_error l0 i = Some (c, ps) -> forall j p, nth_error ps j = Some p -> tracks c (H i j) p) ->
    exists l', run_groups l0 gss = Ok l' /\ map (fun cp => (fst cp, length (snd cp))) l' = map (fun cp => (fst cp, length (snd cp))) l0
      /\ forall i c ps, nth_error l' i = Some (c, ps) -> forall j p, nth_error ps j = Some p ->
           tracks c (fold_left (advance c) (map (fun gs => nth j (nth i gs []) None) gss) (H i j)) p).
  { clear. induction gss as [|gs gss IH]; intros l0 H F T.
    - exists l0. split; [reflexivity|]. split; [reflexivity|]. exact T.
    - cbn [run_groups]. destruct (step_groups_tracks l0 gs H (F gs (or_introl eq_refl)) T) as (l1 & E1 & M1 & T1). rewrite E1. cbn [rbind].
      assert (C1 : forall i c ps, nth_error l1 i = Some (c, ps) -> exists ps0, nth_error l0 i = Some (c, ps0)).
      { intros i c ps Hi. assert (K : nth_error (map (fun cp : group_cfg * list param => (fst cp, length (snd cp))) l0) i = Some (c, length ps)) by (rewrite <- M1; apply (map_nth_error (fun cp : group_cfg * list param => (fst cp, length (snd cp))) _ _ Hi)).
        rewrite nth_error_map in K. destruct (nth_error l0 i) as [[c0 ps0]|]; [|discriminate]. cbn in K. injection K as -> _. now exists ps0. }
      (* the configuration of group i is the one in l0 *)
      set (H1 := fun i j => match nth_error l0 i with Some (c, _) => advance c (H i j) (nth j (nth i gs []) None) | None => H i j end).
      destruct (IH l1 H1) as (l' & E2 & M2 & T2).
      + intros g Hg. eapply fits_shape; [exact M1|]. apply F. now right.
      + intros i c ps Hi j p Hp. destruct (C1 i c ps Hi) as (ps0 & E0). unfold H1. rewrite E0. eapply T1; eassumption.
      + exists l'. split; [exact E2|]. split; [congruence|]. intros i c ps Hi j p Hp. cbn [map fold_left].
        assert (E0 : exists ps0, nth_error l0 i = Some (c, ps0)).
        { assert (K : nth_error (map (fun cp : group_cfg * list param => (fst cp, length (snd cp))) l0) i = Some (c, length ps)) by (rewrite <- M1, <- M2; apply (map_nth_error (fun cp : group_cfg * list param => (fst cp, length (snd cp))) _ _ Hi)).
          rewrite nth_error_map in K. destruct (nth_error l0 i) as [[c0 ps0]|]; [|discriminate]. cbn in K. injection K as -> _. now exists ps0. }
        destruct E0 as (ps0 & E0). specialize (T2 i c ps Hi j p Hp). unfold H1 in T2. rewrite E0 in T2. exact T2. }
  set (H := fun i j => match nth_error xs i with Some (_, ys) => {| h_x := nth j ys 0; h_used := []; h_norm := [] |} | None => {| h_x := 0; h_used := []; h_norm := [] |} end).
  destruct (G gss l H F) as (l' & E & M & T).
  { intros i c ps Hi j p Hp. unfold l in Hi. rewrite nth_error_map in Hi. destruct (nth_error xs i) as [[c0 ys]|] eqn:Ex; [|discriminate]. cbn in Hi. injection Hi as <- <-.
    rewrite nth_error_map in Hp. destruct (nth_error ys j) as [x|] eqn:Ey; [|discriminate]. cbn in Hp. injection Hp as <-. unfold H. rewrite Ex.
    rewrite (nth_error_nth _ _ 0 Ey). destruct (tracks_new c0 x) as [T1 T2]. destruct shared; assumption. }
  exists l'. split; [exact E|]. intros i j c x (ys & Hi & Hj).
  assert (K : nth_error (map (fun cp : group_cfg * list param => (fst cp, length (snd cp))) l') i = Some (c, length ys)).
  { rewrite M. unfold l. rewrite map_map. rewrite nth_error_map, Hi. cbn. rewrite map_length. reflexivity. }
  rewrite nth_error_map in K. destruct (nth_error l' i) as [[c' ps]|] eqn:E'; [|discriminate]. cbn in K. injection K as -> L.
  assert (Hp : exists p, nth_error ps j = Some p).
  { destruct (nth_error ps j) as [p|] eqn:Ep; [now exists p|]. apply nth_error_None in Ep. assert (nth_error ys j <> None) by congruence. apply nth_error_Some in H0. lia. }
  destruct Hp as (p & Hp). exists ps, p. split; [reflexivity|]. split; [exact Hp|].
  destruct (T i c ps E' j p Hp) as [D _]. rewrite D. unfold H. rewrite Hi. rewrite (nth_error_nth _ _ 0 Hj). reflexivity.
Qed.

(** The divisor is never zero: for positive eps and alpha between 0 and 1, whatever the gradients, the number under the
    root is at least eps.  Without centering no normalised gradient exceeds 1 / sqrt (1 - alpha), and a step without
    momentum moves the parameter by at most lr / sqrt (1 - alpha). *)
Theorem C88_bounded : forall c x gs, good c ->
  (forall used, eps c <= spread c used + eps c)
  /\ (centered c = false -> forall u, In u (h_norm (follow c x gs)) -> Rabs u <= / sqrt (1 - alpha c))
  /\ (centered c = false -> momentum c <= 0 -> 0 <= lr c -> forall g,
        Rabs (h_x (advance c (follow c x gs) g) - h_x (follow c x gs)) <= lr c / sqrt (1 - alpha c)).
Proof.
  intros c x gs Hc.
  assert (B : centered c = false -> forall used e, Rabs (e / sqrt (spread c (used ++ [e]) + eps c)) <= / sqrt (1 - alpha c)).
  { intros Ec used e. unfold spread. rewrite Ec, weighted_snoc. destruct Hc as [Ha He].
    pose proof (weighted_nonneg (1 - alpha c) (fun g => g * g) used ltac:(lra) (fun r => Rle_0_sqr r)) as W.
    set (w := weighted _ _ _) in *. set (s := (1 - (1 - alpha c)) * w + (1 - alpha c) * (e * e) + eps c).
    assert (Hs : (1 - alpha c) * (e * e) <= s /\ 0 < s) by (unfold s; pose proof (Rle_0_sqr e); unfold Rsqr in *; split; nra).
    destruct Hs as [H1 H2]. assert (S1 : 0 < sqrt s) by now apply sqrt_lt_R0. assert (S2 : 0 < sqrt (1 - alpha c)) by (apply sqrt_lt_R0; lra).
    unfold Rdiv. rewrite Rabs_mult, Rabs_inv, (Rabs_right (sqrt s)) by lra.
    assert (Hq : sqrt (1 - alpha c) * Rabs e <= sqrt s).
    { rewrite <- (sqrt_Rsqr_abs e). rewrite <- sqrt_mult_alt by lra. apply sqrt_le_1_alt. exact H1. }
    apply (Rmult_le_reg_l (sqrt (1 - alpha c))); [exact S2|]. rewrite Rinv_r by lra. apply (Rmult_le_reg_r (sqrt s)); [exact S1|].
    rewrite Rmult_1_l. replace (sqrt (1 - alpha c) * (Rabs e * / sqrt s) * sqrt s) with (sqrt (1 - alpha c) * Rabs e) by (field; lra). exact Hq. }
  assert (S2 : 0 < / sqrt (1 - alpha c)) by (apply Rinv_0_lt_compat, sqrt_lt_R0; destruct Hc; lra).
  split; [|split].
  - intros used. pose proof (spread_nonneg c used Hc). lra.
  - intros Ec. unfold follow. set (h0 := {| h_x := x; h_used := []; h_norm := [] |}).
    assert (G : forall gs h, (forall u, In u (h_norm h) -> Rabs u <= / sqrt (1 - alpha c)) -> forall u, In u (h_norm (fold_left (advance c) gs h)) -> Rabs u <= / sqrt (1 - alpha c)).
    { induction gs0 as [|g gs0 IH]; intros h Hh; [exact Hh|]. cbn [fold_left]. apply IH. intros u Hu. destruct g as [g|]; [|apply Hh; exact Hu].
      cbn [advance h_norm] in Hu. apply in_app_or in Hu. destruct Hu as [Hu|[<-|[]]]; [apply Hh; exact Hu|]. rewrite last_last. apply B. exact Ec. }
    apply G. intros u [].
  - intros Ec Hm Hl [g|]; cbn [advance h_x].
    + destruct (Rlt_dec 0 (momentum c)) as [M|_]; [lra|]. rewrite last_last. set (h := follow c x gs). specialize (B Ec (h_used h) (g + weight_decay c * h_x h)).
      set (u := _ / _) in *. replace (h_x h - lr c * u - h_x h) with (- (lr c * u)) by ring. rewrite Rabs_Ropp, Rabs_mult, (Rabs_right (lr c)) by lra.
      unfold Rdiv. apply Rmult_le_compat_l; assumption.
    + rewrite Rminus_diag_eq by reflexivity. rewrite Rabs_R0. apply Rmult_le_pos; lra.
Qed.

(** Non-trivial instance: alpha = 3/4, eps = 7, gradients 6, missing, 0: the mean square after the first is 9 and the
    divisor 4; the missing gradient and the zero gradient leave the parameter alone. *)
Definition ex_cfg : group_cfg := {| alpha := 3 / 4; eps := 7; lr := 2; momentum := 0; centered := false; weight_decay := 0 |}.
Example C88_example : good ex_cfg /\ h_x (follow ex_cfg 10 [Some 6; None; Some 0]) = 7.
Proof.
  split; [split; cbn; lra|]. unfold follow. cbn [fold_left]. unfold advance. cbn [h_x h_used h_norm app last ex_cfg lr momentum weight_decay alpha eps centered].
  destruct (Rlt_dec 0 0) as [L|_]; [lra|]. unfold spread. cbn [centered ex_cfg]. cbn [alpha ex_cfg].
  assert (E : weighted (1 - 3 / 4) (fun g => g * g) [6 + 0 * 10] + 7 = 4 ^ 2) by (unfold weighted, weight; cbn; field).
  rewrite E, sqrt_pow2 by lra.
  match goal with |- ?G => match G with context [?a / sqrt ?b] => generalize (sqrt b); intro s0; idtac end end.
  unfold Rdiv. ring_simplify. lra.
Qed.

Print Assumptions C88_formula.
Print Assumptions C88_groups.
Print Assumptions C88_bounded.
