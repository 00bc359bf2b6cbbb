(** Model of pfrl/utils/reward_filter.py.  Floats are real numbers. *)
From Coq Require Import Reals.
From Verif Require Import Base.
Open Scope R_scope.

(** reward_filter.py:1-16, NormalizedRewardFilter.  [eps] is named [nf_eps]. *)
Record normalized_filter := { nf_tau : R; nf_scale : R; nf_avg : R; nf_avg_sq : R; nf_eps : R }.

(** 2-7 *)
Definition nf_init (tau scale eps : R) : normalized_filter :=
  {| nf_tau := tau; nf_scale := scale; nf_avg := 0; nf_avg_sq := 0; nf_eps := eps |}.

(** 9-16.  The state is updated before the division can fail.  A negative number to the power 0.5 is a complex
    number in Python; the model gives [TypeError] for it (C84 shows that it does not occur). *)
Definition nf_call (s : normalized_filter) (reward : R) : normalized_filter * result R :=
  let avg := nf_avg s * (1 - nf_tau s) + nf_tau s * reward in
  let avg_sq := nf_avg_sq s * (1 - nf_tau s) + nf_tau s * (reward * reward) in
  let s' := {| nf_tau := nf_tau s; nf_scale := nf_scale s; nf_avg := avg; nf_avg_sq := avg_sq; nf_eps := nf_eps s |} in
  let var := avg_sq - avg * avg in
  let m := Rmin var (nf_eps s) in
  (s', if Rlt_dec m 0 then Err TypeError
       else let stdev := sqrt m in
            if Req_EM_T stdev 0 then Err ZeroDivisionError
            else Ok (nf_scale s * (reward - avg) / stdev)).

(** 19-27, AverageRewardFilter *)
Record average_filter := { af_tau : R; af_avg : R }.
Definition af_init (tau : R) : average_filter := {| af_tau := tau; af_avg := 0 |}.
Definition af_call (s : average_filter) (reward : R) : average_filter * R :=
  let avg := af_avg s * (1 - af_tau s) + af_tau s * reward in
  ({| af_tau := af_tau s; af_avg := avg |}, reward - avg).

(** Calling a filter on the rewards of a run, one after the other. *)
Fixpoint nf_feed (s : normalized_filter) (rs : list R) : normalized_filter :=
  match rs with [] => s | r :: t => nf_feed (fst (nf_call s r)) t end.
Fixpoint af_feed (s : average_filter) (rs : list R) : average_filter :=
  match rs with [] => s | r :: t => af_feed (fst (af_call s r)) t end.
