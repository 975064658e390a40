(** Model of the summary statistics and the mean residual life of Competing_Risks_Model and
    Mixture_Model: /repo/reliability/Distributions.py 7701-7773, 8485-8550, 8686-8760,
    9484-9548. *)
From Coquelicot Require Import Coquelicot.
From Coq Require Import List Arith Reals Lra Lia Bool ZArith.
From Verif Require Import Base RealFacts Ext RList DistModel RepairModel CombModel.
Import ListNotations.
Open Scope R_scope.

(** np.true_divide(a, b, out=zeros, where=b != 0), as in scipy's integrate.simpson. *)
Definition sdiv (a b : R) : R := if Req_EM_T b 0 then 0 else a / b.

(** scipy.integrate.simpson(y, x=x), scipy >= 1.15 (setup.py 77): the parabola through three
    successive points, for every pair of intervals; with an even number of points
    Cartwright's correction covers the last interval; two points are joined by a line. *)
Definition simpson_pair (x0 x1 x2 y0 y1 y2 : R) : R :=
  let h0 := x1 - x0 in let h1 := x2 - x1 in
  let hsum := h0 + h1 in let hprod := h0 * h1 in let q := sdiv h0 h1 in
  hsum / 6 * (y0 * (2 - sdiv 1 q) + y1 * (hsum * sdiv hsum hprod) + y2 * (2 - q)).
Definition simpson_last (x1 x2 x3 y1 y2 y3 : R) : R :=
  let h0 := x2 - x1 in let h1 := x3 - x2 in
  sdiv (2 * h1 ^ 2 + 3 * h0 * h1) (6 * (h1 + h0)) * y3 + sdiv (h1 ^ 2 + 3 * h0 * h1) (6 * h0) * y2
  - sdiv (h1 ^ 3) (6 * h0 * (h0 + h1)) * y1.
Fixpoint simpson (y x : list R) : R :=
  match x, y with
  | [x0; x1; x2; x3], [y0; y1; y2; y3] => simpson_pair x0 x1 x2 y0 y1 y2 + simpson_last x1 x2 x3 y1 y2 y3
  | [x0; x1; x2], [y0; y1; y2] => simpson_pair x0 x1 x2 y0 y1 y2
  | [x0; x1], [y0; y1] => 1 / 2 * (x1 - x0) * (y1 + y0)
  | x0 :: x1 :: ((x2 :: _) as xs), y0 :: y1 :: ((y2 :: _) as ys) => simpson_pair x0 x1 x2 y0 y1 y2 + simpson ys xs
  | _, _ => 0
  end.

(** np.argmax: the first of the largest entries. *)
Definition argmax (l : list R) : result nat := argmin (map Ropp l).

(** The attributes set by __init__. The numbers are numpy floats: a root of a negative
    number is nan, and so is everything computed from it; dividing by a standard deviation
    of zero gives nan or inf, for which NaN stands here. *)
Record statistics := {
  st_mean : ext; st_standard_deviation : ext; st_variance : ext; st_skewness : ext; st_kurtosis : ext; st_excess_kurtosis : ext;
  st_mode : R; st_median : R; st_b5 : R; st_b95 : R }.

(** integrate.simpson(pdf * g(X), x=X) for finite densities. *)
Definition moment (X pdf : list R) (g : R -> R) : R := simpson (zip (fun p x => p * g x) pdf X) X.

(** 7753-7769, 8743-8756: mean, standard deviation, variance, skewness, kurtosis and excess
    kurtosis from finite values of the density. *)
Definition moment_stats (X pdf : list R) : ext * ext * ext * ext * ext * ext :=
  let mean := moment X pdf (fun x => x) in
  let v := moment X pdf (fun x => (x - mean) ^ 2) in
  if Rlt_dec v 0 then (Fin mean, NaN, NaN, NaN, NaN, NaN) else
  let sd := sqrt v in
  if Req_EM_T sd 0 then (Fin mean, Fin sd, Fin (sd ^ 2), NaN, NaN, NaN) else
  let kurt := moment X pdf (fun x => ((x - mean) / sd) ^ 4) in
  (Fin mean, Fin sd, Fin (sd ^ 2), Fin (moment X pdf (fun x => ((x - mean) / sd) ^ 3)), Fin kurt, Fin (kurt - 3)).

(** X[np.argmax(pdf)]: 7769, 8756 *)
Definition table_mode (X pdf : list R) : result R :=
  let! i := argmax pdf in match nth_error X i with Some x => Ok x | None => Err IndexError end.

Definition collect (m : ext * ext * ext * ext * ext * ext) (mode median b5 b95 : R) : statistics :=
  let '(mean, sd, v, sk, ku, ex) := m in
  {| st_mean := mean; st_standard_deviation := sd; st_variance := v; st_skewness := sk; st_kurtosis := ku; st_excess_kurtosis := ex;
     st_mode := mode; st_median := median; st_b5 := b5; st_b95 := b95 |}.

(** Competing_Risks_Model.__init__ after the checks on the argument: 7701-7773. The loop of
    7741-7751 is that of __combiner; its check on negative x values, which __init__ does not
    make, cannot fail here since only Normal and Gumbel quantiles are negative. *)
Definition cr_statistics (ds : list dist) : result statistics :=
  let X := comb_grid ds in
  let! o := cr_combine ds X in
  let! mode := table_mode X (cr_pdf o) in
  let! median := table_stat X (cr_sf o) (1 / 2) in
  let! b5 := table_stat X (map (fun s => 1 - s) (cr_sf o)) (5 / 100) in
  let! b95 := table_stat X (map (fun s => 1 - s) (cr_sf o)) (95 / 100) in
  Ok (collect (moment_stats X (cr_pdf o)) mode median b5 b95).

(** The finite entries of an array, if all are. *)
Fixpoint all_finite (l : list ext) : option (list R) :=
  match l with
  | [] => Some []
  | Fin x :: r => match all_finite r with Some r => Some (x :: r) | None => None end
  | _ :: _ => None
  end.

(** Mixture_Model.__init__ after the checks on the arguments: 8686-8760. An infinite density
    (a component whose density is infinite at a grid point) makes the integrals inf or nan,
    for which NaN stands; np.argmax then returns such a point, modelled as the first of
    them. *)
Definition mix_statistics (ds : list dist) (ps : list R) : result statistics :=
  let X := comb_grid ds in
  let! o := mix_combine ds ps X in
  let! mode := table_mode X (map (fun v => match v with Fin x => x | _ => max_float end) (mix_pdf o)) in
  let! median := table_stat X (map (fun c => 1 - c) (mix_cdf o)) (1 / 2) in
  let! b5 := table_stat X (mix_cdf o) (5 / 100) in
  let! b95 := table_stat X (mix_cdf o) (95 / 100) in
  Ok (collect match all_finite (mix_pdf o) with Some p => moment_stats X p | None => (NaN, NaN, NaN, NaN, NaN, NaN) end mode median b5 b95).

(** self.__xmax_inf: 7722-7728, 8707-8713 *)
Definition xmax_inf (ds : list dist) : R := fold_left Rmax (map (fun d => ppf d (1 - tiny)) ds) (- 10 ^ 100).

(** mean_residual_life of the competing risks model for a Python number t: 8500-8550. *)
Definition cr_mrl (ds : list dist) (t : R) : result ext :=
  let X := table_grid t (xmax_inf ds) in
  let! full := accumulate Rmult (component 1 SF X) ds (map (fun _ => 1) X) in
  let single := fold_left (fun s d => if is_signed d then s * sf d t else if Rlt_dec 0 t then s * sf d t else s) ds 1 in
  Ok (ediv (Fin (simpson full X)) (Fin single)).

(** mean_residual_life of the mixture model: 9499-9548. *)
Definition mix_mrl (ds : list dist) (ps : list R) (t : R) : result ext :=
  let X := table_grid t (xmax_inf ds) in
  let! full := accumulate_weighted Rplus (fun p y => y * p) (component 0 CDF X) ds ps (map (fun _ => 0) X) in
  let single := fold_left (fun c dp => if is_signed (fst dp) then c + cdf (fst dp) t * snd dp else if Rlt_dec 0 t then c + cdf (fst dp) t * snd dp else c)
                  (combine ds ps) 0 in
  Ok (ediv (Fin (simpson (map (fun c => 1 - c) full) X)) (Fin (1 - single))).
