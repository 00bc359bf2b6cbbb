(** Model of the networks and Q-functions the library provides: pfrl/nn/mlp.py, nn/mlp_bn.py, nn/atari_cnn.py, nn/concat_obs_and_action.py, nn/branched.py,
    q_functions/state_action_q_functions.py and the fully connected ones of q_functions/state_q_functions.py.
    A tensor of shape (batch, features) is a list of rows; torch's errors on shapes are values.  Numbers are exact.
    Simplified: initial weights are arbitrary (the initialisers only fill them in); convolutions are modelled by their shapes only. *)
From Coq Require Import QArith.
From Verif Require Import Base M_Batch.
Open Scope nat_scope.

Definition tensor := list (list Q).

(** A nonlinearity is a callable; it may be a plain function or an instance of nn.Module. *)
Record callable := mkCall { c_module : bool; c_fun : tensor -> tensor }.
(** [self.x = value] before [super().__init__()] of an nn.Module: torch refuses to assign modules then
    ("cannot assign module before Module.__init__() call"); everything else is stored. *)
Definition assign_before_init (v : callable) : result unit := if c_module v then Err AttributeError else Ok tt.

(** nn.Linear(in, out) with weights [w] and biases [b]. *)
Record linear := mkLin { l_in : nat; l_out : nat; l_w : nat -> nat -> Q; l_b : nat -> Q }.
Fixpoint dot_from (w : nat -> Q) (i : nat) (x : list Q) : Q := match x with [] => 0 | a :: t => (a * w i + dot_from w (i + 1) t)%Q end.
Definition linear_row (l : linear) (x : list Q) : list Q := map (fun j => (dot_from (l_w l j) 0 x + l_b l j)%Q) (seq 0 (l_out l)).
Definition linear_forward (l : linear) (x : tensor) : result tensor := rmapM (fun row => if length row =? l_in l then Ok (linear_row l row) else Err RuntimeError) x.

(** torch.cat((x, y), dim=1). *)
Fixpoint cat (x y : tensor) : result tensor :=
  match x, y with
  | [], [] => Ok []
  | a :: t, b :: u => r <- cat t u ;; Ok ((a ++ b) :: r)
  | _, _ => Err RuntimeError
  end.

(** The initial parameters of the [i]-th layer of a network; arbitrary. *)
Definition inits := nat -> (nat -> nat -> Q) * (nat -> Q).
Definition new_linear (p : inits) (i n m : nat) : linear := mkLin n m (fst (p i)) (snd (p i)).

(** ** nn/mlp.py *)
Record mlp := mkMLP { m_hidden_sizes : list nat; m_hidden : list linear; m_output : linear; m_nonlinearity : callable }.
(** mlp.py:13-29. *)
Definition mlp_init (p : inits) (in_size out_size : nat) (hidden_sizes : list nat) (nonlinearity : callable) : result mlp :=
  _ <- assign_before_init nonlinearity ;;
  match hidden_sizes with
  | h0 :: _ => let layers := new_linear p 1 in_size h0 :: map (fun ih => new_linear p (2 + fst ih) (fst (snd ih)) (snd (snd ih))) (combine (seq 0 (length hidden_sizes)) (combine hidden_sizes (tl hidden_sizes))) in
               Ok (mkMLP hidden_sizes layers (new_linear p 0 (last hidden_sizes 0) out_size) nonlinearity)
  | [] => Ok (mkMLP [] [] (new_linear p 0 in_size out_size) nonlinearity)
  end.
Fixpoint through (nl : tensor -> tensor) (layers : list linear) (h : tensor) : result tensor :=
  match layers with [] => Ok h | l :: t => y <- linear_forward l h ;; through nl t (nl y) end.
(** mlp.py:31-36. *)
Definition mlp_forward (m : mlp) (x : tensor) : result tensor :=
  h <- (match m_hidden_sizes m with [] => Ok x | _ => through (c_fun (m_nonlinearity m)) (m_hidden m) x end) ;; linear_forward (m_output m) h.

(** ** nn/mlp_bn.py *)
(** nn.BatchNorm1d(n): in evaluation mode every feature is transformed by a fixed affine map; in training mode a batch of one row raises
    ValueError ("Expected more than 1 value per channel when training"), otherwise the rows are normalised together by [b_train] (not modelled further). *)
Record bnorm := mkBN { b_size : nat; b_scale : nat -> Q; b_shift : nat -> Q; b_train : tensor -> tensor }.
Fixpoint affine_from (s t : nat -> Q) (i : nat) (x : list Q) : list Q := match x with [] => [] | a :: r => (a * s i + t i)%Q :: affine_from s t (i + 1) r end.
Definition bn_forward (training : bool) (b : bnorm) (x : tensor) : result tensor :=
  if forallb (fun row => length row =? b_size b) x then
    if training then (if length x <=? 1 then Err ValueError else Ok (b_train b x)) else Ok (map (affine_from (b_scale b) (b_shift b) 0) x)
  else Err RuntimeError.
Definition norms := nat -> (nat -> Q) * (nat -> Q) * (nat -> tensor -> tensor).
Definition new_bn (q : norms) (i n : nat) : bnorm := mkBN n (fst (fst (q i))) (snd (fst (q i))) (snd (q i) n).
Record mlpbn := mkMLPBN { n_hidden_sizes : list nat; n_input : option bnorm; n_hidden : list (linear * bnorm); n_output : linear; n_outbn : option bnorm; n_nonlinearity : callable }.
(** mlp_bn.py:9-18: LinearBN. *)
Definition new_linearbn (p : inits) (q : norms) (i n m : nat) : linear * bnorm := (new_linear p i n m, new_bn q i m).
(** mlp_bn.py:37-69. *)
Definition mlpbn_init (p : inits) (q : norms) (in_size out_size : nat) (hidden_sizes : list nat) (normalize_input normalize_output : bool) (nonlinearity : callable) : result mlpbn :=
  _ <- assign_before_init nonlinearity ;;
  let ibn := if normalize_input then Some (new_bn q 0 in_size) else None in
  let obn := if normalize_output then Some (new_bn q 1 out_size) else None in
  match hidden_sizes with
  | h0 :: _ => let layers := new_linearbn p q 1 in_size h0 :: map (fun ih => new_linearbn p q (2 + fst ih) (fst (snd ih)) (snd (snd ih))) (combine (seq 0 (length hidden_sizes)) (combine hidden_sizes (tl hidden_sizes))) in
               Ok (mkMLPBN hidden_sizes ibn layers (new_linear p 0 (last hidden_sizes 0) out_size) obn nonlinearity)
  | [] => Ok (mkMLPBN [] ibn [] (new_linear p 0 in_size out_size) obn nonlinearity)
  end.
Fixpoint through_bn (training : bool) (nl : tensor -> tensor) (layers : list (linear * bnorm)) (h : tensor) : result tensor :=
  match layers with [] => Ok h | (l, b) :: t => y <- linear_forward l h ;; z <- bn_forward training b y ;; through_bn training nl t (nl z) end.
Definition opt_bn (training : bool) (b : option bnorm) (x : tensor) : result tensor := match b with None => Ok x | Some b => bn_forward training b x end.
(** mlp_bn.py:71-81. *)
Definition mlpbn_forward (training : bool) (m : mlpbn) (x : tensor) : result tensor :=
  h <- opt_bn training (n_input m) x ;;
  h <- (match n_hidden_sizes m with [] => Ok h | _ => through_bn training (c_fun (n_nonlinearity m)) (n_hidden m) h end) ;;
  h <- linear_forward (n_output m) h ;; opt_bn training (n_outbn m) h.

(** ** q_functions/state_action_q_functions.py *)
(** state_action_q_functions.py:42-65 (FCSAQFunction). *)
Definition fcsa_init (p : inits) (n_dim_obs n_dim_action n_hidden_channels n_hidden_layers : nat) (nonlinearity : callable) : result mlp :=
  _ <- assign_before_init nonlinearity ;;
  mlp_init p (n_dim_obs + n_dim_action) 1 (repeat n_hidden_channels n_hidden_layers) nonlinearity.
Definition fcsa_forward (m : mlp) (state action : tensor) : result tensor := h <- cat state action ;; mlp_forward m h.
(** 141-167 (FCBNSAQFunction). *)
Definition fcbnsa_init (p : inits) (q : norms) (n_dim_obs n_dim_action n_hidden_channels n_hidden_layers : nat) (normalize_input : bool) (nonlinearity : callable) : result mlpbn :=
  _ <- assign_before_init nonlinearity ;;
  mlpbn_init p q (n_dim_obs + n_dim_action) 1 (repeat n_hidden_channels n_hidden_layers) normalize_input false nonlinearity.
Definition fcbnsa_forward (training : bool) (m : mlpbn) (state action : tensor) : result tensor := h <- cat state action ;; mlpbn_forward training m h.
(** F.relu, the default nonlinearity of the observation layers (never applied there: they have no hidden layers). *)
Definition relu : callable := mkCall false (map (map (fun x => if Qle_bool x 0 then 0%Q else x))).
(** 191-231 (FCBNLateActionSAQFunction). *)
Record late_bn := mkLateBN { lb_obs : mlpbn; lb_mlp : mlp; lb_nl : callable }.
Definition fcbnlate_init (p p' : inits) (q : norms) (n_dim_obs n_dim_action n_hidden_channels n_hidden_layers : nat) (normalize_input : bool) (nonlinearity : callable) : result late_bn :=
  _ <- passert (1 <=? n_hidden_layers) ;;
  _ <- assign_before_init nonlinearity ;;
  o <- mlpbn_init p q n_dim_obs n_hidden_channels [] normalize_input true relu ;;
  m <- mlp_init p' (n_hidden_channels + n_dim_action) 1 (repeat n_hidden_channels (n_hidden_layers - 1)) nonlinearity ;;
  Ok (mkLateBN o m nonlinearity).
Definition fcbnlate_forward (training : bool) (n : late_bn) (state action : tensor) : result tensor :=
  o <- mlpbn_forward training (lb_obs n) state ;; h <- cat (c_fun (lb_nl n) o) action ;; mlp_forward (lb_mlp n) h.
(** 254-288 (FCLateActionSAQFunction). *)
Record late := mkLate { la_obs : mlp; la_mlp : mlp; la_nl : callable }.
Definition fclate_init (p p' : inits) (n_dim_obs n_dim_action n_hidden_channels n_hidden_layers : nat) (nonlinearity : callable) : result late :=
  _ <- passert (1 <=? n_hidden_layers) ;;
  _ <- assign_before_init nonlinearity ;;
  o <- mlp_init p n_dim_obs n_hidden_channels [] relu ;;
  m <- mlp_init p' (n_hidden_channels + n_dim_action) 1 (repeat n_hidden_channels (n_hidden_layers - 1)) nonlinearity ;;
  Ok (mkLate o m nonlinearity).
Definition fclate_forward (n : late) (state action : tensor) : result tensor :=
  o <- mlp_forward (la_obs n) state ;; h <- cat (c_fun (la_nl n) o) action ;; mlp_forward (la_mlp n) h.
(** 82-91 (FCLSTMSAQFunction.__init__): the first statement raises. *)
Definition fclstm_init (n_dim_obs n_dim_action n_hidden_channels n_hidden_layers : nat) (nonlinearity : callable) : result unit := Err NotImplementedError.
(** 19-20 (SingleModelStateActionQFunction.__init__): [super().__init__(model=model)] is [nn.Module.__init__], which has no such argument. *)
Definition single_sa_init (model : tensor -> tensor -> result tensor) : result unit := Err TypeError.

(** ** q_functions/state_q_functions.py *)
(** state_q_functions.py:55-72 (FCStateQFunctionWithDiscreteAction): its values are the outputs of an MLP. *)
Definition fcstate_init (p : inits) (ndim_obs n_actions n_hidden_channels n_hidden_layers : nat) (nonlinearity : callable) : result mlp :=
  mlp_init p ndim_obs n_actions (repeat n_hidden_channels n_hidden_layers) nonlinearity.
(** 113-140 (DistributionalFCStateQFunctionWithDiscreteAction), before the softmax: [torch.reshape(x, (-1, n_actions, n_atoms))]. *)
Fixpoint chunks (n k : nat) (x : list Q) : list (list Q) := match k with 0 => [] | S k => firstn n x :: chunks n k (skipn n x) end.
Definition distfc_init (p : inits) (ndim_obs n_actions n_atoms : nat) (v_min v_max : Q) (n_hidden_channels n_hidden_layers : nat) (nonlinearity : callable) : result mlp :=
  _ <- passert (2 <=? n_atoms) ;; _ <- passert (negb (Qle_bool v_max v_min)) ;;
  mlp_init p ndim_obs (n_actions * n_atoms) (repeat n_hidden_channels n_hidden_layers) nonlinearity.
Definition distfc_logits (m : mlp) (n_actions n_atoms : nat) (x : tensor) : result (list (list (list Q))) := y <- mlp_forward m x ;; Ok (map (chunks n_atoms n_actions) y).

(** ** nn/atari_cnn.py, q_functions/dueling_dqn.py: shapes *)
(** nn.Conv2d(c_in, c_out, kernel, stride) on a (batch, c, h, w) tensor, no padding. *)
Definition conv (c_in c_out kernel stride : nat) (s : nat * nat * nat) : result (nat * nat * nat) :=
  let '(c, h, w) := s in
  if (c =? c_in) && (kernel <=? h) && (kernel <=? w) then Ok (c_out, (h - kernel) / stride + 1, (w - kernel) / stride + 1) else Err RuntimeError.
Definition fits (n : nat) (out : nat) (s : nat * nat * nat) : result nat := let '(c, h, w) := s in if c * h * w =? n then Ok out else Err RuntimeError.
(** atari_cnn.py:23-47 (LargeAtariCNN): the number of output features for an input of shape (c, h, w); the same convolutions in DuelingDQN and DistributionalDuelingDQN. *)
Definition large_cnn (n_input_channels n_output_channels : nat) (s : nat * nat * nat) : result nat :=
  s <- conv n_input_channels 32 8 4 s ;; s <- conv 32 64 4 2 s ;; s <- conv 64 64 3 1 s ;; fits (64 * 49) n_output_channels s.
(** atari_cnn.py:56-79 (SmallAtariCNN); 2592 = 32 * 81. *)
Definition small_cnn (n_input_channels n_output_channels : nat) (s : nat * nat * nat) : result nat :=
  s <- conv n_input_channels 16 8 4 s ;; s <- conv 16 32 4 2 s ;; fits (32 * 81) n_output_channels s.
