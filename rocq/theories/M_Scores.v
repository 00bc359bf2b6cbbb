(** Model of the statistics of an evaluation and of the file scores.txt: pfrl/experiments/evaluator.py:254-313 (eval_performance, record_stats), 370-393 (write_header), and the calls
    of them by Evaluator (400-514) and AsyncEvaluator (524-662).
    Numbers are exact; [statistics.stdev] is a real number.  Text is a list of characters (code points); how numbers are printed is an argument.  Appending one line is atomic. *)
From Coq Require Import QArith Reals Qreals.
From Coq Require Import Ascii String.
From Verif Require Import Base.
Close Scope Q_scope. Open Scope nat_scope.

(** statistics.mean: sum / count; StatisticsError (a ValueError) on no data. *)
Definition total (l : list Q) : Q := fold_left Qplus l 0%Q.
Definition count (l : list Q) : Q := inject_Z (Z.of_nat (length l)).
Definition mean (l : list Q) : result Q := match l with [] => Err ValueError | _ => Ok (total l / count l)%Q end.
(** sorted() *)
Fixpoint insert (x : Q) (l : list Q) : list Q := match l with [] => [x] | y :: t => if Qle_bool x y then x :: y :: t else y :: insert x t end.
Definition sorted (l : list Q) : list Q := fold_right insert [] l.
(** statistics.median *)
Definition median (l : list Q) : result Q :=
  let d := sorted l in let n := length d in
  match n with
  | 0 => Err ValueError
  | _ => if n mod 2 =? 1 then Ok (nth (n / 2) d 0%Q) else Ok ((nth (n / 2 - 1) d 0 + nth (n / 2) d 0) / 2)%Q
  end.
(** statistics.variance: the sum of squared deviations from the mean, divided by n - 1; statistics.stdev is its square root. *)
Definition squares (m : Q) (l : list Q) : Q := total (map (fun x => (x - m) * (x - m))%Q l).
Definition stdev_or_zero (l : list Q) : result R :=
  if 2 <=? length l then m <- mean l ;; Ok (sqrt (Q2R (squares m l / inject_Z (Z.of_nat (length l - 1))))) else Ok 0%R.
(** np.max, np.min: ValueError on no data. *)
Definition np_max (l : list Q) : result Q := match l with [] => Err ValueError | x :: l => Ok (fold_left (fun a b => if Qle_bool a b then b else a) l x) end.
Definition np_min (l : list Q) : result Q := match l with [] => Err ValueError | x :: l => Ok (fold_left (fun a b => if Qle_bool a b then a else b) l x) end.

Record stats := mkStats { st_episodes : nat; st_mean : Q; st_median : Q; st_stdev : R; st_max : Q; st_min : Q;
  st_length_mean : Q; st_length_median : Q; st_length_stdev : R; st_length_max : Q; st_length_min : Q }.
(** 273-306: [n_steps] and [n_episodes] as given (None: not), [scores] and [lengths] of the evaluation episodes. *)
Definition eval_performance (n_steps n_episodes : option nat) (scores : list Q) (lengths : list nat) : result stats :=
  _ <- passert (xorb (match n_steps with None => true | _ => false end) (match n_episodes with None => true | _ => false end)) ;;
  let ls := map (fun n => inject_Z (Z.of_nat n)) lengths in
  m <- mean scores ;; md <- median scores ;; s <- stdev_or_zero scores ;; mx <- np_max scores ;; mn <- np_min scores ;;
  lm <- mean ls ;; lmd <- median ls ;; lsd <- stdev_or_zero ls ;; lmx <- np_max ls ;; lmn <- np_min ls ;;
  Ok (mkStats (length scores) m md s mx mn lm lmd lsd lmx lmn).

(** ** The file *)
Definition text := list nat.
Definition tab : nat := 9.
Definition newline : nat := 10.
(** "\t".join(cells), then print adds a newline. *)
Fixpoint joined (cells : list text) : text := match cells with [] => [] | [c] => c | c :: t => c ++ tab :: joined t end.
Definition line (cells : list text) : text := joined cells ++ [newline].

(** A printed value: str(x) of a count, an exact number or a real number; a name with the printed value of each statistic of agent and environment. *)
Record printing := mkPrinting { pr_nat : nat -> text; pr_q : Q -> text; pr_r : R -> text; pr_time : R -> text }.
Definition named := list (text * text).

(** 370-393: the names of the first eight columns, and write_header: the file is opened with "w". *)
Definition text_of (s : String.string) : text := map Ascii.nat_of_ascii (String.list_ascii_of_string s).
Definition basic : list text := map text_of ["steps"; "episodes"; "elapsed"; "mean"; "median"; "stdev"; "max"; "min"]%string.
Definition columns (agent env : named) : list text := basic ++ map fst agent ++ map fst env.
Definition write_header (agent env : named) (file : text) : text := line (columns agent env).
(** 477-493 and 605-623: one row of values; record_stats (309-311) opens the file with "a+". *)
Definition values (p : printing) (t episodes : nat) (elapsed : R) (s : stats) (agent env : named) : list text :=
  [pr_nat p t; pr_nat p episodes; pr_time p elapsed; pr_q p (st_mean s); pr_q p (st_median s); pr_r p (st_stdev s); pr_q p (st_max s); pr_q p (st_min s)] ++ map snd agent ++ map snd env.
Definition record_stats (row : list text) (file : text) : text := file ++ line row.

(** One evaluation: when, after how many episodes, how long after the start, its statistics, and what get_statistics of agent and environment say then. *)
Record evaluation := mkEvaluation { v_t : nat; v_episodes : nat; v_elapsed : R; v_stats : stats; v_agent : named; v_env : named }.
Definition row (p : printing) (v : evaluation) : list text := values p (v_t v) (v_episodes v) (v_elapsed v) (v_stats v) (v_agent v) (v_env v).
(** Evaluator: the header when constructed (458), a row for every evaluation (493). *)
Definition evaluator_file (p : printing) (agent env : named) (before : text) (vs : list evaluation) : text :=
  fold_left (fun f v => record_stats (row p v) f) vs (write_header agent env before).
(** AsyncEvaluator: scores.txt is opened with "a" when constructed (578-579); the header when the first evaluation begins (657-660), by the agent that makes it. *)
Definition async_evaluator_file (p : printing) (agent env : named) (before : text) (vs : list evaluation) : text :=
  match vs with [] => before | _ => fold_left (fun f v => record_stats (row p v) f) vs (write_header agent env before) end.
