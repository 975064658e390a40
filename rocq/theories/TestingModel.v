(** Model of reliability/Reliability_testing.py: one_sample_proportion (60-136),
    two_proportion_test (139-238), sample_size_no_failures (241-328),
    sequential_sampling_chart (331-517), reliability_test_planner (520-745),
    reliability_test_duration (748-904), chi2test (907-1141), KStest (1144-1294).

    Floats are reals; nan is [None].  Not modelled: printing and plotting, the type
    checks of the arguments, likelihood_plot. *)
From Coquelicot Require Import Coquelicot.
From Coq Require Import List Arith ZArith Reals Bool Lra Lia.
From Verif Require Import Base RealFacts Gauss NonparModel RList RepairModel.
Import ListNotations.
Open Scope R_scope.

(** ** Distributions of scipy.stats used here *)

(** Density of the chi-squared distribution with 2k degrees of freedom (k >= 1), its
    integral, and the inverse.  The code only uses even degrees of freedom in the
    planner. *)
Definition chi2_pdf (k : nat) (x : R) : R := x ^ (k - 1) * exp (- x / 2) / (2 ^ k * INR (fact (k - 1))).
Definition chi2_cdf_even (k : nat) (x : R) : R := if Rle_dec x 0 then 0 else RInt (chi2_pdf k) 0 x.

(** ss.chi2.cdf(x, 2k): nan for 0 degrees of freedom or nan argument. *)
Definition chi2_cdf (x : option R) (k : nat) : option R :=
  match k, x with
  | O, _ | _, None => None
  | _, Some x => Some (chi2_cdf_even k x)
  end.
(** ss.chi2.ppf(q, 2k) for 0 < q < 1, the only values the code passes. *)
Definition chi2_ppf (q : R) (k : nat) : option R :=
  match k with O => None | _ => Some (inverse_of (chi2_cdf_even k) q) end.

(** Density of the F distribution with (2a, 2b) degrees of freedom, its integral, and
    ss.f.ppf(q, 2a, 2b): nan unless a, b > 0 and 0 <= q <= 1.  At q = 1 it is inf, and
    the only use of the value then is inf/inf = nan, so nan is returned here too. *)
Definition f_pdf (a b : nat) (x : R) : R :=
  INR a ^ a * INR b ^ b * x ^ (a - 1) / (INR a * x + INR b) ^ (a + b)
  * (INR (fact (a + b - 1)) / (INR (fact (a - 1)) * INR (fact (b - 1)))).
Definition f_cdf (a b : nat) (x : R) : R := if Rle_dec x 0 then 0 else RInt (f_pdf a b) 0 x.
Definition f_ppf (q : R) (a b : nat) : option R :=
  match a, b with
  | O, _ | _, O => None
  | _, _ =>
    if Rlt_dec 0 q then if Rlt_dec q 1 then Some (inverse_of (f_cdf a b) q) else None
    else if Req_EM_T q 0 then Some 0 else None
  end.

(** ** one_sample_proportion, Reliability_testing.py:82-110, for natural numbers of trials
    and successes (the type check is at 92-95). *)
Definition ratio_of (V1 V2 : R) (F : option R) (nan_value : R) : R :=
  match F with None => nan_value | Some f => (V1 * f) / (V2 + V1 * f) end.

Definition one_sample_proportion (trials successes : nat) (CI : R) : result (R * R) :=
  if (trials <? successes)%nat then Err ValueError
  else
    let n := if (successes =? 0)%nat || (successes =? trials)%nat then 1 else 2 in
    let alpha_lower := (1 - CI) / n in
    let a1 := successes in
    let b1 := (trials - successes + 1)%nat in
    let lower := ratio_of (2 * INR a1) (2 * INR b1) (f_ppf alpha_lower a1 b1) 0 in
    let a2 := (successes + 1)%nat in
    let b2 := (trials - successes)%nat in
    let alpha_upper := 1 - alpha_lower in
    let upper := ratio_of (2 * INR a2) (2 * INR b2) (f_ppf alpha_upper a2 b2) 1 in
    Ok (lower, upper).

(** ** two_proportion_test, Reliability_testing.py:181-211.  The boolean is
    "significant". *)
Definition two_proportion_test (trials1 successes1 trials2 successes2 : nat) (CI : R)
  : result (R * R * bool) :=
  if Rltb CI (1 / 2) || Rleb 1 CI then Err ValueError
  else if (trials1 <? successes1)%nat || (trials2 <? successes2)%nat then Err ValueError
  else if (trials1 =? 0)%nat || (trials2 =? 0)%nat then Err ZeroDivisionError
  else
    let p1 := INR successes1 / INR trials1 in
    let p2 := INR successes2 / INR trials2 in
    let diff := p1 - p2 in
    let Z := norm_ppf (1 - (1 - CI) / 2) in
    let k := Z * sqrt (p1 * (1 - p1) / INR trials1 + p2 * (1 - p2) / INR trials2) in
    let lower := diff - k in
    let upper := diff + k in
    Ok (lower, upper, negb (Rltb lower 0 && Rltb 0 upper)).

(** ** sample_size_no_failures, Reliability_testing.py:276-295. *)
Definition rfloor (x : R) : Z := Int_part x.
Definition rceil (x : R) : Z := (- Int_part (- x))%Z.

Definition sample_size_no_failures (reliability CI lifetimes weibull_shape : R) : result Z :=
  if Rltb CI (1 / 2) || Rleb 1 CI then Err ValueError
  else if Rleb reliability 0 || Rleb 1 reliability then Err ValueError
  else if Rltb weibull_shape 0 then Err ValueError
  else if Rleb lifetimes 0 then Err ValueError
  else Ok (rceil (ln (1 - CI) / (Rpower lifetimes weibull_shape * ln reliability))).

(** ** sequential_sampling_chart, Reliability_testing.py:402-446.  One row per number of
    samples 0..max_samples: (samples, failures to accept, failures to reject), where
    [None] is "x".  For p1 = p2 the code divides by d = 0 and the table is made of nan
    cast to int; here x/0 is Coq's real 0, so results are only meaningful for
    p1 <> p2. *)
Definition sequential_row (p1 p2 alpha beta : R) (x : nat) : nat * option Z * option Z :=
  let a := 1 - alpha in
  let b := 1 - beta in
  let d := ln (p2 / p1) + ln ((1 - p1) / (1 - p2)) in
  let h1 := ln ((1 - a) / b) / d in
  let h2 := ln ((1 - b) / a) / d in
  let s := ln ((1 - p1) / (1 - p2)) / d in
  let acceptance := rfloor (s * INR x + h2) in
  let rejection := rceil (s * INR x - h1) in
  let rejection := if (Z.of_nat x <? rejection)%Z then (-1)%Z else rejection in
  (x, if (acceptance <? 0)%Z then None else Some acceptance,
      if (rejection <? 0)%Z then None else Some rejection).

Definition outside01 (x : R) : bool := Rleb x 0 || Rleb 1 x.

Definition sequential_sampling_chart (p1 p2 alpha beta : R) (max_samples : nat)
  : result (list (nat * option Z * option Z)) :=
  if outside01 alpha || outside01 beta || outside01 p1 || outside01 p2 then Err ValueError
  else Ok (map (sequential_row p1 p2 alpha beta) (seq 0 (max_samples + 1))).

(** ** reliability_test_planner, Reliability_testing.py:592-711.
    [fuel] bounds the "while True" search for the number of failures: [None] as the
    overall result means that the search has not ended within it. *)
Record plan := mkPlan {
  pl_duration : option R; pl_MTBF : option R; pl_failures : nat; pl_CI : option R }.

Definition odiv (x : R) (y : option R) : option R := option_map (fun y => x / y) y.

Definition CI_adj (CI : R) (one_sided : bool) : R := if one_sided then CI else 1 - (1 - CI) / 2.
(** degrees of freedom 2*failures + p, halved *)
Definition half_dof (failures : nat) (time_terminated : bool) : nat :=
  if time_terminated then S failures else failures.

(** result < 0 is false for nan *)
Definition too_many (T M c : R) (tt : bool) (failures : nat) : bool :=
  match odiv (2 * T) (chi2_ppf c (half_dof failures tt)) with
  | None => false
  | Some m => Rltb (m - M) 0
  end.

Fixpoint failures_search (fuel : nat) (T M c : R) (tt : bool) (failures : nat) : option nat :=
  match fuel with
  | O => None
  | S fuel =>
      if too_many T M c tt failures then Some failures
      else failures_search fuel T M c tt (S failures)
  end.

Definition reliability_test_planner (fuel : nat) (MTBF : option R) (failures : option nat)
    (CI : option R) (test_duration : option (option R)) (one_sided time_terminated : bool)
  : option (result plan) :=
  if match CI with None => false | Some c => Rltb c (1 / 2) || Rleb 1 c end
  then Some (Err ValueError)
  else match MTBF, failures, CI, test_duration with
  | None, Some k, Some c, Some T =>
      let q := chi2_ppf (CI_adj c one_sided) (half_dof k time_terminated) in
      let M := match T with None => None | Some t => odiv (2 * t) q end in
      Some (Ok (mkPlan T M k CI))
  | Some M, None, Some c, Some (Some T) =>
      let ca := CI_adj c one_sided in
      match failures_search fuel T M ca time_terminated 0 with
      | None => None
      | Some k =>
          if too_many T M ca time_terminated 0 then Some (Err ValueError)
          else Some (Ok (mkPlan (Some T) MTBF (k - 1) CI))
      end
  | Some M, None, Some c, Some None => None (* nan: the search never ends *)
  | Some M, Some k, None, Some T =>
      if Req_EM_T M 0 then Some (Err ZeroDivisionError)
      else
        let calc := chi2_cdf (option_map (fun t => t / (M * (1 / 2))) T) (half_dof k time_terminated) in
        let CI := if one_sided then calc else option_map (fun c => 1 - 2 * (1 - c)) calc in
        Some (Ok (mkPlan T MTBF k CI))
  | Some M, Some k, Some c, None =>
      let q := chi2_ppf (CI_adj c one_sided) (half_dof k time_terminated) in
      Some (Ok (mkPlan (option_map (fun q => q * M / 2) q) MTBF k CI))
  | _, _, _, _ => Some (Err ValueError)
  end.

(** ** reliability_test_duration, Reliability_testing.py:799-868.
    [risk k] and [dur k] are the two planner calls of iteration k (these two forms never
    search).  [found] is the first k whose producer's risk was below the one specified;
    solution_index is then k-1 and max_failures 1.5*(k-1).  Python's index -1 (when
    found is 0) is the last element of a list of length 1. *)
Definition rtd_duration (MTBF_required consumer_risk : R) (os tt : bool) (k : nat) : option R :=
  match reliability_test_planner 0 (Some MTBF_required) (Some k) (Some (1 - consumer_risk)) None os tt with
  | Some (Ok p) => pl_duration p
  | _ => None
  end.
Definition rtd_risk (MTBF_required MTBF_design consumer_risk : R) (os tt : bool) (k : nat) : option R :=
  match reliability_test_planner 0 (Some MTBF_design) (Some k) None
          (Some (rtd_duration MTBF_required consumer_risk os tt k)) os tt with
  | Some (Ok p) => pl_CI p
  | _ => None
  end.

Definition olt (x : option R) (y : R) : bool := match x with None => false | Some x => Rltb x y end.

Fixpoint rtd_loop (fuel : nat) (dur : nat -> option R) (risk : nat -> option R) (producer_risk : R)
    (failures : nat) (found : option nat) : option (option R) :=
  match fuel with
  | O => None
  | S fuel =>
      let found := match found with
                   | Some _ => found
                   | None => if olt (risk failures) producer_risk then Some failures else None
                   end in
      let max_failures := match found with
                          | Some k => (INR k - 1) * (3 / 2)
                          | None => 10000000000
                          end in
      if Rltb max_failures (INR failures)
      then Some (match found with Some k => dur (k - 1)%nat | None => dur 0%nat end)
      else rtd_loop fuel dur risk producer_risk (S failures) found
  end.

Definition reliability_test_duration (fuel : nat) (MTBF_required MTBF_design consumer_risk producer_risk : R)
    (one_sided time_terminated : bool) : option (result (option R)) :=
  if Rleb consumer_risk 0 || Rltb (1 / 2) consumer_risk then Some (Err ValueError)
  else if Rleb producer_risk 0 || Rltb (1 / 2) producer_risk then Some (Err ValueError)
  else if Rleb MTBF_design MTBF_required then Some (Err ValueError)
  else option_map (fun d => Ok d)
    (rtd_loop fuel (rtd_duration MTBF_required consumer_risk one_sided time_terminated)
       (rtd_risk MTBF_required MTBF_design consumer_risk one_sided time_terminated)
       producer_risk 0 None).

(** ** KStest, Reliability_testing.py:1224-1249.  [cdf] is distribution.CDF at one point;
    [critical] is ss.kstwo.ppf(1 - significance, n).  The boolean is ACCEPT. *)
Definition ks_deviations (cdf : R -> R) (data : list R) : list R :=
  let data := isort Rleb data in
  let n := INR (length data) in
  let fitted := map cdf data in
  let i_array := map INR (seq 1 (length data)) in
  map (fun fi => Rabs (fst fi - snd fi / n)) (combine fitted i_array) ++
  map (fun fi => Rabs (fst fi - (snd fi - 1) / n)) (combine fitted i_array).

Definition ks_test (cdf : R -> R) (critical : R) (negative_ok : bool) (data : list R) (significance : R)
  : result (R * bool) :=
  match data with
  | [] => Err ValueError
  | _ =>
    if existsb (fun x => Rltb x 0) data && negb negative_ok then Err ValueError
    else if Rleb significance 0 || Rltb (1 / 2) significance then Err ValueError
    else
      let KS := rmax (ks_deviations cdf data) in
      Ok (KS, Rltb KS critical)
  end.

(** ** chi2test, Reliability_testing.py:989-1077. *)

(** np.histogram with explicit edges: bins are half open, the last one closed. *)
Fixpoint histogram (edges : list R) (data : list R) : list nat :=
  match edges with
  | lo :: ((hi :: rest) as tail) =>
      let inside x := Rleb lo x && (match rest with [] => Rleb x hi | _ => Rltb x hi end) in
      length (filter inside data) :: histogram tail data
  | _ => []
  end.

Fixpoint increasing_edges (edges : list R) : bool :=
  match edges with
  | lo :: ((hi :: _) as tail) => Rleb lo hi && increasing_edges tail
  | _ => true
  end.

(** np.histogram: ValueError unless the edges never decrease. *)
Definition np_histogram (edges data : list R) : result (list nat) :=
  if increasing_edges edges then Ok (histogram edges data) else Err ValueError.

Fixpoint np_diff (l : list R) : list R :=
  match l with x :: ((y :: _) as tail) => (y - x) :: np_diff tail | _ => [] end.

Record chi2_result := mkChi2 {
  c_edges : list R; c_observed : list nat; c_expected : list R; c_statistic : R; c_critical : R;
  c_accept : bool }.

(** [auto] is the list of edges that np.histogram(data, bins="auto") chooses, [edges] the
    edges given by the user ([None] for no bins), [k] the number of parameters of the
    distribution, [critical] the function n-k-1 -> ss.chi2.ppf(1 - significance, df).  A
    zero expected count (or zero total) makes numpy divide by zero: [ZeroDivisionError]
    stands for the resulting inf or nan statistic. *)
Definition chi2_test (cdf : R -> R) (k : nat) (critical : nat -> R) (negative_ok : bool)
    (data : list R) (significance : R) (edges : option (list R)) (auto : list R) : result chi2_result :=
  match data with
  | [] => Err ValueError
  | _ =>
  if existsb (fun x => Rltb x 0) data && negb negative_ok then Err ValueError
  else if Rleb significance 0 || Rltb (1 / 2) significance then Err ValueError
  else
    let e0 := match edges with None => auto | Some e => e end in
    let! obs0 := np_histogram e0 data in
    let! reset := (if (list_sum obs0 =? length data)%nat then Ok (e0, obs0)
                   else let! o := np_histogram auto data in Ok (auto, o)) in
    let (e, observed) := reset in
    if forallb (fun x => Rltb x 0) e && negb negative_ok then Err TypeError
    else
      let d := np_diff (map cdf e) in
      let total := rsum d in
      if Req_EM_T total 0 then Err ZeroDivisionError
      else
      let expected := map (fun x => INR (length data) * (x / total)) d in
      let n := length observed in
      if (n <=? k + 1)%nat then Err ValueError
      else if existsb (fun x => if Req_EM_T x 0 then true else false) expected then Err ZeroDivisionError
      else
        let statistic := rsum (map (fun oe => (INR (fst oe) - snd oe) ^ 2 / snd oe) (combine observed expected)) in
        let crit := critical (n - k - 1)%nat in
        Ok (mkChi2 e observed expected statistic crit (Rltb statistic crit))
  end.
