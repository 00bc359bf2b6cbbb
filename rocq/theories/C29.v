(** C29: wrappers that transform actions and rewards. *)
From Verif Require Import Base P_Base M_Wrappers S_Wrappers P_Wrappers.
Open Scope nat_scope.

(** NormalizeActionSpace, one component with bounds l < h: -1 goes to l, 1 to h; the map is affine; it maps [-1, 1] onto
    [l, h] bijectively. *)
Theorem C29_normalize (low high a : list Q) i l h x : nth_error low i = Some l -> nth_error high i = Some h -> nth_error a i = Some x -> (l < h)%Q ->
  exists y, nth_error (normalize_action low high a) i = Some y /\
    ((x == -1 -> y == l) /\ (x == 1 -> y == h) /\ (exists c d, y == c * x + d /\ c == (h - l) / 2 /\ d == (h + l) / 2) /\ (-1 <= x <= 1 <-> l <= y <= h))%Q.
Proof.
  intros H1 H2 H3 H. exists (affine l h x). split; [exact (normalize_nth low high a i l h x H1 H2 H3)|].
  split; [intros E; rewrite affine_ok, E; field|]. split; [intros E; rewrite affine_ok, E; field|].
  split; [exists ((h - l) / 2)%Q, ((h + l) / 2)%Q; split; [apply affine_ok|split; reflexivity]|]. exact (affine_range l h x H).
Qed.
Theorem C29_normalize_bijective (l h : Q) : (l < h)%Q ->
  (forall x x' y y', normalize_action [l] [h] [x] = [y] -> normalize_action [l] [h] [x'] = [y'] -> y == y' -> x == x')%Q /\
  (forall y, (l <= y <= h)%Q -> exists x y', (-1 <= x <= 1)%Q /\ normalize_action [l] [h] [x] = [y'] /\ (y' == y)%Q).
Proof.
  intros H. split.
  - intros x x' y y' H1 H2 E. injection H1 as <-. injection H2 as <-. exact (affine_inj l h x x' H E).
  - intros y Hy. exists ((y - l) * 2 / (h - l) - 1)%Q, (affine l h ((y - l) * 2 / (h - l) - 1)). pose proof (affine_surj l h y H) as E.
    split; [apply (affine_range l h _ H); rewrite E; exact Hy|]. split; [reflexivity|exact E].
Qed.
(** The wrapper passes the transformed actions on and changes nothing else. *)
Theorem C29_normalize_wrapper {W Ob J} (low high : list Q) (e : env W Ob (list Q) J) w cmds :
  run (env_do (action_wrapper (normalize_action low high) e)) w cmds =
  run (env_do e) w (map (fun c => match c with CReset => CReset | CStep a => CStep (normalize_action low high a) end) cmds).
Proof. exact (action_wrapper_ok e (normalize_action low high) w cmds). Qed.

(** ScaleReward: the environment is driven as without the wrapper and every reward is multiplied by the scale; nothing else
    changes. *)
Theorem C29_scale_reward {W Ob A J} (e : env W Ob A J) (scale : Q) w orig cmds w' rs : run (env_do e) w cmds = (w', rs) ->
  exists orig', run (env_do (scale_reward scale e)) (w, orig) cmds = ((w', orig'), map (with_reward (fun r => (scale * r)%Q)) rs).
Proof. intros H. pose proof (scale_reward_ok e scale w orig cmds) as G. rewrite H in G. exact G. Qed.

(** ClipRewardEnv: likewise with the sign of the reward. *)
Theorem C29_clip_reward {W Ob A J} (e : env W Ob A J) w cmds w' rs : run (env_do e) w cmds = (w', rs) ->
  exists f, run (env_do (clip_reward e)) w cmds = (w', map (with_reward f) rs) /\
    forall r, ((r > 0 -> f r = 1) /\ (r < 0 -> f r = -1) /\ (r == 0 -> f r = 0))%Q.
Proof. intros H. exists sign. split; [|exact sign_ok]. unfold clip_reward. rewrite reward_wrapper_ok, H. reflexivity. Qed.

(** RandomizeAction: the action is replaced exactly if the random number is below the fraction. *)
Theorem C29_randomize (fraction u : Q) (i a : nat) :
  ((u < fraction)%Q -> randomize_action fraction u i a = i) /\ ((fraction <= u)%Q -> randomize_action fraction u i a = a).
Proof.
  unfold randomize_action. split; intros H.
  - destruct (Qle_bool fraction u) eqn:E; [|reflexivity]. apply Qle_bool_iff in E. exfalso. exact (Qlt_not_le _ _ H E).
  - apply Qle_bool_iff in H. rewrite H. reflexivity.
Qed.

Example C29_ex : nth_error (normalize_action [0; -2]%Q [10; 2]%Q [1; 1 # 2]%Q) 0 = Some ((1 + 1) * ((10 - 0) / 2) + 0)%Q /\ ((1 + 1) * ((10 - 0) / 2) + 0 == 10)%Q /\
  map Qred (normalize_action [0; -2]%Q [10; 2]%Q [1; 1 # 2]%Q) = [10; 1]%Q.
Proof. repeat split. Qed.
Definition payer : env nat nat Q unit := mkEnv (fun w => (0, Ok 0)) (fun a w => (S w, Ok (mkOut w a false false tt))).
Example C29_ex_rewards :
  snd (run (env_do (scale_reward (1 # 2) payer)) (0, None) [CReset; CStep 3%Q]) = [RReset (Ok 0); RStep (Ok (mkOut 0 (3 # 2)%Q false false tt))] /\
  snd (run (env_do (clip_reward payer)) 0 [CReset; CStep 3%Q; CStep 0%Q; CStep (-(1 # 3))%Q]) =
    [RReset (Ok 0); RStep (Ok (mkOut 0 1%Q false false tt)); RStep (Ok (mkOut 1 0%Q false false tt)); RStep (Ok (mkOut 2 (-1)%Q false false tt))] /\
  randomize_action (1 # 2) (1 # 3) 5 7 = 5 /\ randomize_action (1 # 2) (1 # 2) 5 7 = 7.
Proof. vm_compute. auto. Qed.

Print Assumptions C29_normalize.
Print Assumptions C29_normalize_bijective.
Print Assumptions C29_normalize_wrapper.
Print Assumptions C29_scale_reward.
Print Assumptions C29_clip_reward.
Print Assumptions C29_randomize.
