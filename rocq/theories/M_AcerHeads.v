(** Model of the heads of ACER's networks and of its copies of action distributions: pfrl/agents/acer.py:113-204.  One observation (the code
    treats the rows of a batch independently).  Numbers are reals. *)
From Coq Require Import Reals.
From Verif Require Import Base.
Open Scope R_scope.

Definition rsum (l : list R) : R := fold_right Rplus 0 l.

(** acer.py:131-135 ACERDiscreteActionHead.forward: (action_distrib.probs * action_value.q_values).sum(1) *)
Definition discrete_v (probs q_values : list R) : R := rsum (map (fun p => fst p * snd p) (combine probs q_values)).

Section Continuous.
  Context {Ob A : Type}.
  (** acer.py:156-169 ACERContinuousActionHead.forward: the value and the evaluator of actions.  [samples] are the [n] actions drawn by this
      call of the evaluator; sum(...) / n raises for n = 0 (0 / 0 on Python integers). *)
  Definition continuous_v (v : Ob -> R) (obs : Ob) : R := v obs.
  Definition evaluator (v : Ob -> R) (adv : Ob -> A -> R) (obs : Ob) (n : nat) (samples : list A) (action : A) : result R :=
    adv_mean <- (match n with O => Err ZeroDivisionError | _ => Ok (rsum (map (fun i => adv obs i) samples) / INR n) end) ;;
    Ok (v obs + adv obs action - adv_mean).
End Continuous.

(** torch.distributions, as far as they matter here, for one observation.  A Categorical keeps either its probabilities or its logits, both
    normalised by its constructor; a Normal has one mean and one standard deviation per component; Independent adds up the components'
    log-probabilities if it reinterprets the dimension.  Anything else is [DOther]. *)
Inductive cat_param : Type := Probs (p : list R) | Logits (l : list R).
Inductive distrib : Type := DCat (p : cat_param) | DNormal (loc scale : list R) | DIndependent (base : distrib) (ndims : nat) | DOther.

Definition cat_of_probs (p : list R) : distrib := DCat (Probs (map (fun x => x / rsum p) p)).
Definition cat_of_logits (l : list R) : distrib := DCat (Logits (map (fun x => x - ln (rsum (map exp l))) l)).
(** torch.distributions.utils.probs_to_logits clamps the probabilities to [eps, 1 - eps] *)
Definition clamp_eps (eps x : R) : R := Rmin (Rmax x eps) (1 - eps).
Definition logits_of (eps : R) (c : cat_param) : list R := match c with Logits l => l | Probs p => map (fun x => ln (clamp_eps eps x)) p end.

(** log-probability of a discrete action (an index) or a continuous one (components) *)
Inductive action : Type := AIndex (i : nat) | AVector (x : list R).
Definition normal_lp (loc scale x : R) : R := - ((x - loc) * (x - loc)) / (2 * (scale * scale)) - ln scale - ln (sqrt (2 * PI)).
Fixpoint log_prob (eps : R) (d : distrib) (a : action) : result (list R) :=
  match d with
  | DCat c => match a with AIndex i => match nth_error (logits_of eps c) i with Some x => Ok [x] | None => Err IndexError end | AVector _ => Err TypeError end
  | DNormal loc scale => match a with AVector x => Ok (map (fun p => normal_lp (fst (fst p)) (snd (fst p)) (snd p)) (combine (combine loc scale) x)) | AIndex _ => Err TypeError end
  | DIndependent b n => l <- log_prob eps b a ;; Ok (match n with O => l | _ => [rsum l] end)
  | DOther => Err NotImplementedError
  end.

(** acer.py:172-180 get_params_of_distribution *)
Fixpoint get_params (d : distrib) : result (list (list R)) :=
  match d with
  | DIndependent b _ => get_params b
  | DCat (Probs p) => Ok [p]
  | DCat (Logits l) => Ok [l]
  | DNormal loc scale => Ok [loc; scale]
  | DOther => Err NotImplementedError
  end.

(** acer.py:183-204 deepcopy_distribution; clone().detach() copies the numbers *)
Fixpoint deepcopy (eps : R) (d : distrib) : result distrib :=
  match d with
  | DIndependent b n => b' <- deepcopy eps b ;; Ok (DIndependent b' n)
  | DCat c => Ok (cat_of_logits (logits_of eps c))
  | DNormal loc scale => Ok (DNormal loc scale)
  | DOther => Err NotImplementedError
  end.
