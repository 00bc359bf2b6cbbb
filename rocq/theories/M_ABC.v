(** Model of pfrl/envs/abc.py: the toy environment ABC. *)
From Verif Require Import Base.
From Coq Require Import QArith.
Close Scope Q_scope.
Open Scope nat_scope.

(** Constructor arguments (76-106); n_max_offset = 1. *)
Record abc_args := mkABC { c_size : nat; c_discrete : bool; c_partial : bool; c_episodic : bool; c_deterministic : bool }.
(** _state and _offset; None before the first reset. *)
Record abc_state := mkSt { s_state : option nat; s_offset : option nat }.
Definition abc_init : abc_state := mkSt None None.

Section ABC.
Context (P : abc_args).
Definition n_dim_obs : nat := c_size P + 1 + 1.

(** 108-111: a vector of zeros with a one at _state + _offset. *)
Definition observe (s : abc_state) : result (list Q) :=
  match s_state s, s_offset s with
  | Some st, Some off => if st + off <? n_dim_obs then Ok (map (fun i => if i =? st + off then 1%Q else 0%Q) (seq 0 n_dim_obs)) else Err IndexError
  | _, _ => Err AttributeError
  end.
(** 113-126; [coin] is the value of np.random.randint(2). *)
Definition reset (coin : nat) (s : abc_state) : abc_state * result (list Q) :=
  let off := if c_partial P then (if c_deterministic P then (match s_offset s with Some o => o | None => 0 end + 1) mod 2 else coin) else 0 in
  let s := mkSt (Some 0) (Some off) in (s, observe s).

Inductive action := Discrete (a : nat) | Vector (v : list Q).
(** np.clip on a vector with bounds -1, 1; the length must fit. *)
Definition clip1 (x : Q) : Q := if Qle_bool x (-1 # 1) then (-1 # 1)%Q else if Qle_bool 1%Q x then 1%Q else x.
(** np.argmax: the first index of the largest element. *)
Fixpoint argmax_from (i best : nat) (m : Q) (l : list Q) : nat :=
  match l with [] => best | x :: l => if Qle_bool x m then argmax_from (S i) best m l else argmax_from (S i) i x l end.
Definition argmax (l : list Q) : result nat := match l with [] => Err ValueError | x :: l => Ok (argmax_from 1 0 x l) end.
(** 128-136.  [draw] stands for np.random.choice: the index drawn from the softmax of the clipped vector (see [prob] in C103).
    Not modelled: vectors given to a discrete environment (numpy would compare elementwise; here TypeError), and the broadcasting
    of a vector of length one to another size (here ValueError). *)
Definition inner_action (draw : list Q -> nat) (a : action) : result nat :=
  if c_discrete P then match a with Discrete n => Ok n | Vector _ => Err TypeError end
  else match a with
       | Discrete _ => Err AssertionError
       | Vector v =>
           if negb (length v =? c_size P) then Err ValueError
           else let v := map clip1 v in if c_deterministic P then argmax v else Ok (draw v)
       end.
(** 137-159. *)
Definition step (draw : list Q -> nat) (a : action) (s : abc_state) : abc_state * result (list Q * Q * bool) :=
  match inner_action draw a with
  | Err e => (s, Err e)
  | Ok n =>
      match s_state s with
      | None => (s, Err AttributeError)
      | Some st =>
          let '(st', reward, done) :=
            if n =? st then
              if S st =? c_size P then (if c_episodic P then (c_size P, 1%Q, true) else (0, 1%Q, false))
              else (S st, 0%Q, false)
            else if c_episodic P then (c_size P, 0%Q, true) else (st, 0%Q, false) in
          let s := mkSt (Some st') (s_offset s) in
          (s, rmap (fun o => (o, reward, done)) (observe s))
      end
  end.
(** A sequence of steps: observation, reward, done of each, up to the first exception. *)
Fixpoint steps (draw : list Q -> nat) (acts : list action) (s : abc_state) : abc_state * result (list (list Q * Q * bool)) :=
  match acts with
  | [] => (s, Ok [])
  | a :: acts =>
      match step draw a s with
      | (s, Err e) => (s, Err e)
      | (s, Ok o) => let (s, r) := steps draw acts s in (s, rmap (cons o) r)
      end
  end.
End ABC.
