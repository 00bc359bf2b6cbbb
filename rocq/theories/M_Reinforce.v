(** Model of REINFORCE: pfrl/agents/reinforce.py.  The log-probability and the entropy of an action, which the code appends together to two
    parallel lists (115-116), are one token of type [K]. *)
From Coq Require Import QArith.
From Verif Require Import Base.
Open Scope nat_scope.

Section Reinforce.
  Context {K : Type}.

  Record reinforce := { reward_sequences : list (list Q); log_prob_sequences : list (list K); n_backward : nat; step_count : nat }.

  (* Effects on the model and optimizer.  [Backward terms]: total_loss = sum over terms (R, k) of (-R * log_prob k - beta * entropy k),
     divided by batchsize, is backpropagated. *)
  Inductive event := ZeroGrad | Backward (terms : list (Q * K)) | OptStep.

  (* reinforce.py:84-88 *)
  Definition reinforce_init : reinforce := {| reward_sequences := [[]]; log_prob_sequences := [[]]; n_backward := 0; step_count := 0 |}.

  (* l[-1].append(x) *)
  Definition append_last {A} (ls : list (list A)) (x : A) : result (list (list A)) :=
    '(init, l) <- py_pop ls ;; Ok (init ++ [l ++ [x]]).
  (* l[-1] = v *)
  Definition set_last {A} (ls : list A) (v : A) : result (list A) := '(init, _) <- py_pop ls ;; Ok (init ++ [v]).

  (* reinforce.py:104-127 _act_train *)
  Definition act_train (k : K) (s : reinforce) : result reinforce :=
    lp <- append_last (log_prob_sequences s) k ;;
    Ok {| reward_sequences := reward_sequences s; log_prob_sequences := lp; n_backward := n_backward s; step_count := step_count s |}.

  (* reinforce.py:186: np.cumsum(list(reversed(r_seq[1:])))[::-1] *)
  Fixpoint cumsum (acc : Q) (l : list Q) : list Q := match l with [] => [] | x :: t => let a := (acc + x)%Q in a :: cumsum a t end.
  Definition R_seq (r_seq : list Q) : list Q := rev (cumsum 0%Q (rev (tl r_seq))).

  (* reinforce.py:181-189 *)
  Fixpoint losses (rss : list (list Q)) (lps : list (list K)) : result (list (Q * K)) :=
    match rss, lps with
    | rs :: rss, ks :: lps =>
      _ <- passert ((length rs - 1 =? length ks) && (1 <=? length rs)) ;;
      rest <- losses rss lps ;; Ok (combine (R_seq rs) ks ++ rest)
    | _, _ => Ok []
    end.

  (* reinforce.py:176-195 accumulate_grad *)
  Definition accumulate_grad (s : reinforce) : result (reinforce * list event) :=
    let zero := if n_backward s =? 0 then [ZeroGrad] else [] in
    ts <- losses (reward_sequences s) (log_prob_sequences s) ;;
    Ok ({| reward_sequences := [[]]; log_prob_sequences := [[]]; n_backward := S (n_backward s); step_count := step_count s |}, zero ++ [Backward ts]).

  Definition set_n_backward (n : nat) (s : reinforce) : reinforce :=
    {| reward_sequences := reward_sequences s; log_prob_sequences := log_prob_sequences s; n_backward := n; step_count := step_count s |}.

  (* reinforce.py:197-207 batch_update *)
  Definition batch_update (batchsize : nat) (s : reinforce) : result (reinforce * list event) :=
    _ <- passert (length (reward_sequences s) =? batchsize) ;;
    _ <- passert (length (log_prob_sequences s) =? batchsize) ;;
    _ <- passert (n_backward s =? 0) ;;
    '(s, ev) <- accumulate_grad s ;; Ok (set_n_backward 0 s, ev ++ [OptStep]).

  (* reinforce.py:209-214 update_with_accumulated_grad *)
  Definition update_with_accumulated_grad (batchsize : nat) (s : reinforce) : result (reinforce * list event) :=
    _ <- passert (n_backward s =? batchsize) ;; Ok (set_n_backward 0 s, [OptStep]).

  (* reinforce.py:129-156 _observe_train *)
  Definition observe_train (batchsize : nat) (backward_separately : bool) (reward : Q) (done reset : bool) (s : reinforce) : result (reinforce * list event) :=
    rss <- append_last (reward_sequences s) reward ;;
    let s := {| reward_sequences := rss; log_prob_sequences := log_prob_sequences s; n_backward := n_backward s; step_count := S (step_count s) |} in
    if done || reset then
      if negb done then
        rss <- set_last (reward_sequences s) [] ;;
        lps <- set_last (log_prob_sequences s) [] ;;
        Ok ({| reward_sequences := rss; log_prob_sequences := lps; n_backward := n_backward s; step_count := step_count s |}, [])
      else
        rss <- append_last (reward_sequences s) reward ;;
        let s := {| reward_sequences := rss; log_prob_sequences := log_prob_sequences s; n_backward := n_backward s; step_count := step_count s |} in
        if backward_separately then
          '(s, ev) <- accumulate_grad s ;;
          if n_backward s =? batchsize then '(s, ev') <- update_with_accumulated_grad batchsize s ;; Ok (s, ev ++ ev') else Ok (s, ev)
        else if length (reward_sequences s) =? batchsize then batch_update batchsize s
        else Ok ({| reward_sequences := reward_sequences s ++ [[]]; log_prob_sequences := log_prob_sequences s ++ [[]];
                    n_backward := n_backward s; step_count := step_count s |}, [])
    else Ok (s, []).

  (* reinforce.py:92-102; evaluation mode touches none of this *)
  Inductive op := Act (training : bool) (k : K) | Observe (training : bool) (reward : Q) (done reset : bool).
  Definition call (batchsize : nat) (backward_separately : bool) (s : reinforce) (o : op) : reinforce * result (list event) :=
    match o with
    | Act true k => match act_train k s with Ok s' => (s', Ok []) | Err e => (s, Err e) end
    | Observe true r d z => match observe_train batchsize backward_separately r d z s with Ok (s', ev) => (s', Ok ev) | Err e => (s, Err e) end
    | Act false _ | Observe false _ _ _ => (s, Ok [])
    end.
End Reinforce.
Arguments reinforce : clear implicits.
Arguments event : clear implicits.
Arguments op : clear implicits.
