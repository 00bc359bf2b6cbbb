(** C104: prepare_output_dir. *)
From Verif Require Import Base M_OutDir.
From Coq Require Import Lia.
Open Scope nat_scope.

Lemma lookup_put {X} k k' (x : X) l : lookup k (put k' x l) = if String.eqb k k' then Some x else lookup k l.
Proof.
  induction l as [|(k0, y) l IH]; cbn; [reflexivity|]. destruct (String.eqb_spec k' k0) as [->|N]; cbn.
  - destruct (String.eqb k k0); reflexivity.
  - rewrite IH. destruct (String.eqb_spec k k0) as [->|]; [|reflexivity]. destruct (String.eqb_spec k0 k') as [->|]; [now contradiction N|reflexivity].
Qed.
(** The directory an operation works in, and the file it may change. *)
Definition target (o : op) : string := match o with MkDir d | Set_ d _ _ | Append d _ _ => d end.
Definition touches (o : op) (f : string) : bool := match o with MkDir _ => false | Set_ _ g _ | Append _ g _ => String.eqb f g end.
Lemma get_other o s d f : d <> target o \/ touches o f = false -> get (apply o s) d f = get s d f.
Proof.
  intros H. unfold get. destruct o as [d0|d0 g c|d0 g c]; cbn in *; (destruct (lookup d0 s) as [x|] eqn:E; [|try reflexivity]); try reflexivity.
  - rewrite lookup_put. destruct (String.eqb_spec d d0) as [->|]; [|reflexivity]. rewrite E. reflexivity.
  - rewrite lookup_put. destruct (String.eqb_spec d d0) as [->|]; [|reflexivity]. rewrite E, lookup_put. destruct H as [H|H]; [now contradiction H|]. now rewrite H.
  - rewrite lookup_put. destruct (String.eqb_spec d d0) as [->|]; [|reflexivity]. rewrite E, lookup_put. destruct H as [H|H]; [now contradiction H|]. now rewrite H.
Qed.
Lemma get_others os : forall s d f, Forall (fun o => d <> target o \/ touches o f = false) os -> get (apply_all os s) d f = get s d f.
Proof. induction os as [|o os IH]; intros s d f H; cbn; [reflexivity|]. inversion H; subst. unfold apply_all in IH. rewrite IH by assumption. now apply get_other. Qed.
Lemma lookup_dir o s d : lookup d s <> None -> lookup d (apply o s) <> None.
Proof.
  intros H. destruct o as [d0|d0 g c|d0 g c]; cbn; destruct (lookup d0 s) as [x|] eqn:E; try assumption; rewrite lookup_put; destruct (String.eqb d d0); congruence.
Qed.
Lemma apply_all_app a b s : apply_all (a ++ b) s = apply_all b (apply_all a s).
Proof. apply fold_left_app. Qed.

(** Copying. *)
Lemma copy_fs dst : forall (x : dir) s y, lookup dst s = Some y -> NoDup (map fst x) -> forall f,
  get (apply_all (map (fun fc => Set_ dst (fst fc) (snd fc)) x) s) dst f = match lookup f x with Some c => Some c | None => lookup f y end.
Proof.
  induction x as [|(g, c) x IH]; intros s y L ND f; [unfold get; cbn; now rewrite L|]. inversion ND as [|? ? NI ND']; subst. cbn [map]. unfold apply_all. cbn [fold_left]. fold (apply_all (map (fun fc => Set_ dst (fst fc) (snd fc)) x) (apply (Set_ dst (fst (g, c)) (snd (g, c))) s)).
  rewrite (IH _ (put g c y)) by (try assumption; cbn; rewrite L, lookup_put, String.eqb_refl; reflexivity). cbn [fst snd lookup]. rewrite lookup_put.
  destruct (String.eqb_spec f g) as [->|]; [|reflexivity]. destruct (lookup g x) eqn:E; [|reflexivity]. exfalso. apply NI. clear -E. induction x as [|(h, d) x IH]; [discriminate|]. cbn in *. destruct (String.eqb_spec g h); [now left|right; auto].
Qed.
Lemma app_len (a b : string) : String.length (a ++ b)%string = String.length a + String.length b.
Proof. induction a; cbn; lia. Qed.

Section Props.
Context (crc : string -> string) (dumps : list string -> string) (strip : string -> string).
Notation prepare := (prepare crc dumps strip). Notation outdir := (outdir crc dumps strip).

Lemma backup_other I d : backup_dir I d <> d.
Proof. intros E. apply (f_equal String.length) in E. unfold backup_dir in E. rewrite !app_len in E. cbn in E. lia. Qed.

(** The files that are written. *)
Definition own_files : list string := ["start.txt"; "args.txt"; "environ.txt"; "command.txt"; "git-head.txt"; "git-status.txt"; "git-log.txt"; "git-diff.txt"]%string.
(** After the backup everything happens in the output directory: it is made, start.txt is extended, other files of the list are set. *)
Definition tame (d : string) (o : op) : Prop := o = MkDir d \/ (exists c, o = Append d "start.txt" c) \/ exists f c, o = Set_ d f c /\ In f (tl own_files).
Lemma prepare_shape I P s d ops e r : outdir I P = inl d -> prepare I P s = (ops, e, r) ->
  (exists rest, match lookup d s with
    | Some x => if p_make_backup P then
                  match lookup (backup_dir I d) s with
                  | Some _ => ops = [] /\ e = Some FileExistsError
                  | None => ops = (MkDir (backup_dir I d) :: map (fun fc => Set_ (backup_dir I d) (fst fc) (snd fc)) x) ++ rest /\ Forall (tame d) rest
                  end
                else ops = rest /\ Forall (tame d) rest
    | None => ops = rest /\ Forall (tame d) rest
    end).
Proof.
  intros O H. unfold prepare in H. rewrite O in H. injection H as H1 _.
  set (q := andthen (do_ [MkDir d; _]) _) in H1.
  assert (T : Forall (tame d) (fst q)).
  { assert (TA : forall p p', Forall (tame d) (fst p) -> Forall (tame d) (fst p') -> Forall (tame d) (fst (andthen p p'))) by (intros p p' A B; unfold andthen; destruct (snd p); [exact A|]; cbn; apply Forall_app; auto).
    assert (TO : forall f c e', In f (tl own_files) -> Forall (tame d) (fst (overwrite d f c e'))) by (intros f c e' F; assert (X : forall c, tame d (Set_ d f c)) by (intros c1; right; right; eauto); destruct c; cbn; auto).
    unfold q. apply TA; [cbn; constructor; [now left|constructor; [right; left; eauto|constructor]]|]. apply TA; [apply TO; cbn; tauto|]. apply TA; [apply (TO _ (Some _) NotSerializable); cbn; tauto|]. apply TA; [apply (TO _ (Some _) NotSerializable); cbn; tauto|].
    destruct (i_git I); [|constructor]. unfold save_git_information. apply TA; [apply TO; cbn; tauto|]. apply TA; [apply TO; cbn; tauto|]. apply TA; apply TO; cbn; tauto. }
  exists (fst q). destruct (lookup d s) as [x|] eqn:L; [destruct (p_make_backup P)|].
  - unfold copytree in H1. rewrite L in H1. destruct (lookup (backup_dir I d) s) as [y|].
    + cbn in H1. injection H1 as <- <-. auto.
    + unfold andthen in H1 at 1. cbn [snd do_ fst] in H1. injection H1 as <- _. auto.
  - unfold andthen in H1 at 1. cbn [snd do_ fst app] in H1. injection H1 as <- _. auto.
  - unfold andthen in H1 at 1. cbn [snd do_ fst app] in H1. injection H1 as <- _. auto.
Qed.

Lemma Forall_firstn {X} (Q : X -> Prop) k l : Forall Q l -> Forall Q (firstn k l).
Proof. intros H. rewrite <- (firstn_skipn k l) in H. apply Forall_app in H. tauto. Qed.
(** start.txt only grows. *)
Definition extended (c : string) (o : option string) : Prop := exists c', o = Some (c ++ c')%string.
Lemma app_assoc_s a b c : ((a ++ b) ++ c = a ++ (b ++ c))%string. Proof. induction a; cbn; congruence. Qed.
Lemma app_nil_s a : (a ++ "" = a)%string. Proof. induction a; cbn; congruence. Qed.
Lemma grows d c : forall os s, Forall (tame d) os -> extended c (get s d "start.txt") -> extended c (get (apply_all os s) d "start.txt").
Proof.
  induction os as [|o os IH]; intros s F E; cbn; [exact E|]. inversion F as [|? ? T F']; subst. apply IH; [exact F'|]. destruct E as (c' & E). destruct T as [->|[(c2 & ->)|(f & c2 & -> & FI)]].
  - rewrite get_other by (right; reflexivity). now exists c'.
  - unfold get in *. cbn [apply]. destruct (lookup d s) as [x|] eqn:L; [|discriminate]. rewrite lookup_put, String.eqb_refl, lookup_put, String.eqb_refl, E. exists (c' ++ c2)%string. now rewrite app_assoc_s.
  - rewrite get_other; [now exists c'|]. right. cbn in FI. cbn [touches]. destruct FI as [<-|[<-|[<-|[<-|[<-|[<-|[<-|[]]]]]]]]; reflexivity.
Qed.

(** Whenever the call stops (it may be killed between any two changes, or raise), every file that existed before is unchanged, or is one of the eight files written in the output
    directory; in this case the backup holds the old content (if backups are on), and start.txt has at most been extended. *)
Theorem C104_nothing_lost I P (s : fs) ops e r : (forall d (x : dir), lookup d s = Some x -> NoDup (map fst x)) -> prepare I P s = (ops, e, r) ->
  forall k d f c, get s d f = Some c -> let s' := apply_all (firstn k ops) s in
  get s' d f = Some c \/
  outdir I P = inl d /\ In f own_files /\ (p_make_backup P = true -> get s' (backup_dir I d) f = Some c) /\ (f = "start.txt"%string -> extended c (get s' d f)).
Proof.
  intros WF H k d f c G s'. destruct (outdir I P) as [d0|e0] eqn:O.
  2:{ left. unfold prepare in H. rewrite O in H. injection H as <- _ _. unfold s'. now rewrite firstn_nil. }
  destruct (prepare_shape I P s d0 ops e r O H) as (rest & SH).
  assert (TAME : forall os, Forall (tame d0) os -> d <> d0 -> Forall (fun o => d <> target o \/ touches o f = false) os).
  { intros os F N. eapply Forall_impl; [|exact F]. intros o [->|[(c2 & ->)|(g & c2 & -> & _)]]; left; exact N. }
  assert (OWN : forall os, Forall (tame d0) os -> ~ In f own_files -> Forall (fun o => d <> target o \/ touches o f = false) os).
  { intros os F N. eapply Forall_impl; [|exact F]. intros o [->|[(c2 & ->)|(g & c2 & -> & FI)]]; right; [reflexivity|..]; apply String.eqb_neq; intros ->; apply N; [now left|]. cbn in FI |- *. tauto. }
  assert (NOB : forall x : dir, lookup d0 s = Some x \/ lookup d0 s = None -> p_make_backup P = false \/ lookup d0 s = None -> Forall (tame d0) rest -> ops = rest ->
    get s' d f = Some c \/ inl d0 = @inl string failure d /\ In f own_files /\ (p_make_backup P = true -> get s' (backup_dir I d) f = Some c) /\ (f = "start.txt"%string -> extended c (get s' d f))).
  { intros x _ B F ->. destruct (string_dec d d0) as [->|N]; [|left; unfold s'; rewrite get_others; [exact G|apply TAME; [now apply Forall_firstn|exact N]]].
    destruct B as [B|B]; [|exfalso; unfold get in G; rewrite B in G; discriminate].
    destruct (in_dec string_dec f own_files) as [FI|FN]; [right|left; unfold s'; rewrite get_others; [exact G|apply OWN; [now apply Forall_firstn|exact FN]]].
    split; [reflexivity|]. split; [exact FI|]. split; [rewrite B; discriminate|]. intros ->. unfold s'. apply grows; [now apply Forall_firstn|]. exists ""%string. now rewrite app_nil_s. }
  destruct (lookup d0 s) as [x|] eqn:L; [|destruct SH as [-> F]; apply (NOB []); auto]. destruct (p_make_backup P) eqn:MB; [|destruct SH as [-> F]; apply (NOB x); auto].
  destruct (lookup (backup_dir I d0) s) as [y|] eqn:LB; [destruct SH as [-> _]; left; unfold s'; now rewrite firstn_nil|]. destruct SH as [-> F].
  set (b := backup_dir I d0) in *. set (cp := MkDir b :: map (fun fc => Set_ b (fst fc) (snd fc)) x) in *.
  assert (DB : d <> b) by (intros ->; unfold get in G; rewrite LB in G; discriminate).
  assert (CPO : Forall (fun o => d <> target o \/ touches o f = false) cp) by (constructor; [now left|]; apply Forall_forall; intros o IN; apply in_map_iff in IN; destruct IN as (fc & <- & _); now left).
  unfold s'. rewrite firstn_app, apply_all_app. destruct (Nat.le_gt_cases k (List.length cp)) as [LE|GT].
  - left. replace (k - List.length cp) with 0 by lia. cbn [firstn]. change (apply_all [] ?z) with z. rewrite get_others; [exact G|now apply Forall_firstn].
  - rewrite (firstn_all2 cp) by lia. set (s1 := apply_all cp s).
    assert (G1 : get s1 d f = Some c) by (unfold s1; rewrite get_others; [exact G|exact CPO]).
    destruct (string_dec d d0) as [->|N]; [|left; rewrite get_others; [exact G1|apply TAME; [now apply Forall_firstn|exact N]]].
    destruct (in_dec string_dec f own_files) as [FI|FN]; [right|left; rewrite get_others; [exact G1|apply OWN; [now apply Forall_firstn|exact FN]]].
    split; [reflexivity|]. split; [exact FI|]. split; [intros _|].
    + rewrite get_others.
      * unfold s1, cp, apply_all. cbn [fold_left]. fold (apply_all (map (fun fc => Set_ b (fst fc) (snd fc)) x) (apply (MkDir b) s)). rewrite (copy_fs b x _ []).
        -- unfold get in G. rewrite L in G. now rewrite G.
        -- cbn. rewrite LB, lookup_put, String.eqb_refl. reflexivity.
        -- exact (WF _ _ L).
      * apply Forall_firstn. eapply Forall_impl; [|exact F]. intros o [->|[(c2 & ->)|(g & c2 & -> & _)]]; left; apply backup_other.
    + intros ->. apply grows; [now apply Forall_firstn|]. exists ""%string. now rewrite app_nil_s.
Qed.

Lemma get_set d g c s f : lookup d s <> None -> get (apply (Set_ d g c) s) d f = if String.eqb f g then Some c else get s d f.
Proof. intros H. unfold get. cbn. destruct (lookup d s) as [x|]; [|contradiction]. now rewrite lookup_put, String.eqb_refl, lookup_put. Qed.
Lemma get_append d g c s f : lookup d s <> None -> get (apply (Append d g c) s) d f = if String.eqb f g then Some (match get s d g with Some c0 => c0 | None => "" end ++ c)%string else get s d f.
Proof. intros H. unfold get. cbn. destruct (lookup d s) as [x|]; [|contradiction]. now rewrite lookup_put, String.eqb_refl, lookup_put. Qed.
Lemma has_mkdir d s : lookup d (apply (MkDir d) s) <> None.
Proof. cbn. destruct (lookup d s) eqn:E; [congruence|]. rewrite lookup_put, String.eqb_refl. discriminate. Qed.
Ltac has := repeat first [apply has_mkdir | apply lookup_dir].

(** If the call returns, the directory returned holds the arguments, the environment, the command line, one more line in start.txt, and, under git control, the answers of git. *)
Definition joined (I : inputs) (P : params) : string := String.concat " " (match p_argv P with Some a => a | None => i_argv_now I end).
Theorem C104_contents I P s ops r : prepare I P s = (ops, None, r) ->
  exists d, outdir I P = inl d /\ r = Some d /\ let s' := apply_all ops s in
  get s' d "args.txt" = p_args P /\ p_args P <> None /\ get s' d "environ.txt" = Some (i_environ I) /\ get s' d "command.txt" = Some (joined I P) /\
  get s' d "start.txt" = Some (match get s d "start.txt" with Some c => c | None => "" end ++ i_time I ++ newline)%string /\
  (i_git I = true -> get s' d "git-head.txt" = i_head I /\ get s' d "git-status.txt" = i_status I /\ get s' d "git-log.txt" = i_log I /\ get s' d "git-diff.txt" = i_diff I /\
     i_head I <> None /\ i_status I <> None /\ i_log I <> None /\ i_diff I <> None).
Proof.
  intros H. unfold prepare in H. destruct (outdir I P) as [d|e0] eqn:O; [|discriminate]. exists d. split; [reflexivity|].
  set (cp := match lookup d s with Some _ => _ | None => _ end) in H. injection H as H1 H2. rewrite H1 in H2. cbn [snd] in H2.
  assert (CP : snd cp = None). { destruct (snd cp) eqn:E; [|reflexivity]. unfold andthen in H1 at 1. rewrite E in H1. rewrite (surjective_pairing cp), E in H1. injection H1 as _ H1. discriminate. }
  assert (CT : Forall (fun o => target o = backup_dir I d) (fst cp)).
  { unfold cp. destruct (lookup d s); [|constructor]. destruct (p_make_backup P); [|constructor]. unfold copytree. destruct (lookup (backup_dir I d) s); [constructor|]. cbn. constructor; [reflexivity|]. apply Forall_forall. intros o IN. apply in_map_iff in IN. destruct IN as (fc & <- & _). reflexivity. }
  set (s1 := apply_all (fst cp) s). assert (G1 : forall f, get s1 d f = get s d f).
  { intros f. apply get_others. eapply Forall_impl; [|exact CT]. cbn. intros o ->. left. intros E. symmetry in E. exact (backup_other I d E). }
  unfold andthen at 1 in H1. rewrite CP in H1. destruct (p_args P) as [ja|] eqn:PA; [|cbn in H1; discriminate].
  fold (joined I P) in H1. unfold andthen, overwrite, do_ in H1. cbn [fst snd app] in H1.
  assert (G2 : forall f, get (apply (MkDir d) s1) d f = get s d f) by (intros f; rewrite <- G1; apply get_other; right; reflexivity).
  destruct (i_git I) eqn:GIT.
  - unfold save_git_information, andthen, overwrite in H1. destruct (i_head I) as [h|]; cbn [fst snd app] in H1; [|discriminate]. destruct (i_status I) as [t|]; cbn [fst snd app] in H1; [|discriminate].
    destruct (i_log I) as [l|]; cbn [fst snd app] in H1; [|discriminate]. destruct (i_diff I) as [df|]; cbn [fst snd app] in H1; [|discriminate]. injection H1 as H1. cbv zeta.
    split; [symmetry; exact H2|]. rewrite <- H1, apply_all_app. fold s1. unfold apply_all. cbn [fold_left]. clear H1 H2.
    set (s2 := apply (MkDir d) s1) in *. assert (L2 : lookup d s2 <> None) by apply has_mkdir. clearbody s2.
    assert (has2 : forall o s0, lookup d s0 <> None -> lookup d (apply o s0) <> None) by (intros; now apply lookup_dir).
    repeat split; try discriminate; rewrite ?get_set, get_append by (repeat apply has2; exact L2); cbn [String.eqb Ascii.eqb Bool.eqb]; rewrite ?G2; reflexivity.
  - cbn [fst snd app] in H1. injection H1 as H1. cbv zeta.
    split; [symmetry; exact H2|]. rewrite <- H1, apply_all_app. fold s1. unfold apply_all. cbn [fold_left]. clear H1 H2.
    set (s2 := apply (MkDir d) s1) in *. assert (L2 : lookup d s2 <> None) by apply has_mkdir. clearbody s2.
    assert (has2 : forall o s0, lookup d s0 <> None -> lookup d (apply o s0) <> None) by (intros; now apply lookup_dir).
    repeat split; try discriminate; rewrite ?get_set, get_append by (repeat apply has2; exact L2); cbn [String.eqb Ascii.eqb Bool.eqb]; rewrite ?G2; reflexivity.
Qed.

(** What makes the call fail, and what is changed then. *)
Theorem C104_backup_exists I P s d x y : outdir I P = inl d -> lookup d s = Some x -> p_make_backup P = true -> lookup (backup_dir I d) s = Some y ->
  prepare I P s = ([], Some FileExistsError, None).
Proof. intros O L B LB. unfold prepare. rewrite O, L, B. unfold copytree. rewrite LB. reflexivity. Qed.
(** Arguments that cannot be written as JSON: the directory is left without saved arguments. *)
Theorem C104_unserializable I P s d : outdir I P = inl d -> p_args P = None -> (p_make_backup P = true -> lookup (backup_dir I d) s = None) ->
  exists ops, prepare I P s = (ops, Some NotSerializable, None) /\ get (apply_all ops s) d "args.txt" = Some ""%string /\
  forall f, In f ["environ.txt"; "command.txt"; "git-head.txt"; "git-status.txt"; "git-log.txt"; "git-diff.txt"]%string -> get (apply_all ops s) d f = get s d f.
Proof.
  intros O A B. unfold prepare. rewrite O, A. set (cp := match lookup d s with Some _ => _ | None => _ end).
  assert (CP : snd cp = None) by (unfold cp, copytree; destruct (lookup d s); [|reflexivity]; destruct (p_make_backup P); [|reflexivity]; rewrite B; reflexivity).
  assert (CT : Forall (fun o => target o = backup_dir I d) (fst cp)).
  { unfold cp. destruct (lookup d s); [|constructor]. destruct (p_make_backup P); [|constructor]. unfold copytree. destruct (lookup (backup_dir I d) s); [constructor|]. cbn. constructor; [reflexivity|]. apply Forall_forall. intros o IN. apply in_map_iff in IN. destruct IN as (fc & <- & _). reflexivity. }
  assert (G1 : forall f, get (apply_all (fst cp) s) d f = get s d f).
  { intros f. apply get_others. eapply Forall_impl; [|exact CT]. cbn. intros o ->. left. intros E. symmetry in E. exact (backup_other I d E). }
  clearbody cp. destruct cp as [co ce]. cbn [fst snd] in *. subst ce. cbn [andthen overwrite do_ fst snd app]. eexists. split; [reflexivity|]. split; [|intros f FI]; rewrite apply_all_app; unfold apply_all at 1; cbn [fold_left].
  - rewrite get_set by has. reflexivity.
  - rewrite <- G1, get_set, get_append by has. cbn in FI. destruct FI as [<-|[<-|[<-|[<-|[<-|[<-|[]]]]]]]; cbn [String.eqb Ascii.eqb Bool.eqb]; apply get_other; right; reflexivity.
Qed.
End Props.

(** The documentation says that without an identifier one is generated from the git version and the command arguments; an argv that is passed does not enter it, so that two
    experiments with different arguments share a directory (even if crc32 and pickle had no collisions). *)
Definition set_argv (P : params) (a : list string) : params := mkParams (p_args P) (p_basedir P) (p_exp_id P) (Some a) (p_make_backup P).
Theorem C104_argv_refuted : ~ forall crc dumps strip I P a1 a2 d1 d2, (forall x y : string, crc x = crc y -> x = y) -> (forall x y : list string, dumps x = dumps y -> x = y) ->
  p_exp_id P = None -> i_git I = true -> outdir crc dumps strip I (set_argv P a1) = inl d1 -> outdir crc dumps strip I (set_argv P a2) = inl d2 -> a1 <> a2 -> d1 <> d2.
Proof.
  intros H. pose (enc := fix enc (l : list string) : string := match l with [] => ""%string | a :: l => String "1" ((fix quote (a : string) : string := match a with EmptyString => String "0" (enc l) | String c a => String "1" (String c (quote a)) end) a) end).
  refine (H (fun x => x) enc (fun x => x) (mkIn true (Some "abc") (Some "") (Some "") (Some "") "t" "t" "{}" ["run"] ["run"])%string (mkParams (Some "{}") "." None None true)%string ["run"; "--seed=0"]%string ["run"; "--seed=1"]%string _ _ (fun x y E => E) _ eq_refl eq_refl eq_refl eq_refl _ eq_refl); [|discriminate].
  induction x as [|a x IH]; intros [|b y] E; cbn in E; try discriminate; [reflexivity|]. injection E as E.
  assert (Q : a = b /\ enc x = enc y); [|destruct Q as [-> Q]; f_equal; now apply IH].
  clear -E. revert b E. induction a as [|c a IHa]; intros [|c' b] E; cbn in E; try discriminate.
  - injection E as E. auto.
  - injection E as <- E. destruct (IHa b E) as [-> Q]. auto.
Qed.

(** Running the same experiment again. *)
Definition ex_I (t : string) : inputs := (mkIn true (Some "abc") (Some "clean") (Some "log") (Some "") t t "{}" ["run"] ["run"; "x"])%string.
Definition ex_P : params := (mkParams (Some "{lr: 1}") "." (Some "exp") None true)%string.
Definition run1 (t : string) (s : fs) : fs := apply_all (fst (fst (prepare (fun x => x) (String.concat ",")%string (fun x => x) (ex_I t) ex_P s))) s.
Example C104_ex : run1 "t2"%string (apply_all [Set_ "./exp" "scores.txt" "1 2 3"; Set_ "./exp" "args.txt" "{lr: 2}"]%string (run1 "t1"%string [])) =
  [("./exp", [("start.txt", "t1" ++ newline ++ "t2" ++ newline); ("args.txt", "{lr: 1}"); ("environ.txt", "{}"); ("command.txt", "run x"); ("git-head.txt", "abc"); ("git-status.txt", "clean"); ("git-log.txt", "log"); ("git-diff.txt", ""); ("scores.txt", "1 2 3")]);
   ("./exp.t2.backup", [("start.txt", "t1" ++ newline); ("args.txt", "{lr: 2}"); ("environ.txt", "{}"); ("command.txt", "run x"); ("git-head.txt", "abc"); ("git-status.txt", "clean"); ("git-log.txt", "log"); ("git-diff.txt", ""); ("scores.txt", "1 2 3")])]%string.
Proof. reflexivity. Qed.
(** The hypotheses of the theorems hold there. *)
Example C104_ex' : (forall d x, lookup d (run1 "t1"%string []) = Some x -> NoDup (map fst x)) /\ snd (fst (prepare (fun x => x) (String.concat ",")%string (fun x => x) (ex_I "t2"%string) ex_P (run1 "t1"%string []))) = None.
Proof.
  split; [|reflexivity]. intros d x. cbn. destruct (String.eqb d "./exp"%string); [|discriminate]. intros E. injection E as <-. cbn. repeat constructor; cbn; intuition discriminate.
Qed.

Print Assumptions C104_nothing_lost.
Print Assumptions C104_contents.
Print Assumptions C104_backup_exists.
Print Assumptions C104_unserializable.
Print Assumptions C104_argv_refuted.
