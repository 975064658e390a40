(** Model of the shaded confidence bands of the fitted distributions with two parameters: the plotting part of
    distribution_confidence_intervals.weibull_CI, gamma_CI, normal_CI, lognormal_CI, loglogistic_CI and gumbel_CI
    (Utils.py 2782-4475), with plot_CI=True and neither q nor x. *)
From Coq Require Import String.
From Coq Require Import List Arith Reals Bool ZArith.
From Verif Require Import Base Ext ConvertModel RepairModel DistModel CIModel PlotModel BandModel.
Import ListNotations.
Open Scope R_scope.

(** yy = 1 - Y, Y or -np.log(Y), e.g. 2970-2975 *)
Definition shown_as (f : cfunc) (y : R) : R := match f with F_CDF => 1 - y | F_SF => y | F_CHF => - ln y end.

(** The reliabilities at which bounds on time are drawn: Weibull 2938-2947, Gamma 3223-3239, Normal 3517-3526,
    Lognormal 3791-3801, Loglogistic 4074-4083, Gumbel 4357-4366. [last_chf]: self._chf[-1], the last value of the
    cumulative hazard function that was drawn. *)
Definition band_reliabilities (d : dist) (f : cfunc) (last_chf : R) : result (list R) :=
  match f with
  | F_CHF => Ok (map (fun c => exp (- c)) (geomspace (/ 10 ^ 8) (last_chf * (3 / 2)) 200))
  | _ =>
    let lo := / 10 ^ 8 in let hi := 1 - / 10 ^ 8 in
    match d with
    | Weibull _ _ _ => transform_spaced "weibull" lo hi 200 None None
    | Gamma _ b _ => if Rlt_dec 3 b then transform_spaced "gamma" lo hi 200 None (Some b) else Ok (linspace lo hi 200)
    | Normal _ _ | Lognormal _ _ _ => transform_spaced "normal" lo hi 200 None None
    | Loglogistic _ _ _ => transform_spaced "loglogistic" lo hi 200 None None
    | Gumbel _ _ => transform_spaced "gumbel" lo hi 200 None None
    | Exponential _ _ | DistModel.Beta _ _ => Err ValueError (* no bounds of this kind *)
    end
  end.
(** if q is None and len(..) > 2 and len(..) > 2: no_reverse, e.g. 2966-2968 *)
Definition without_reversals (decreasing : bool) (a b : list R) : list R * list R :=
  if (2 <? length a)%nat && (2 <? length b)%nat then (no_reverse_finite decreasing a, no_reverse_finite decreasing b) else (a, b).
(** Bounds on time, e.g. 2936-2993 *)
Definition time_band (paper : bool) (gj : gamma_jac) (d : dist) (s : covs) (Z : R) (f : cfunc) (last_chf : R) : result band :=
  let! Y := band_reliabilities d f last_chf in
  let bs := map (time_bounds gj d s Z) Y in
  let! r := clean_CI_arrays (map (omap fst) bs) (map (omap snd) bs) (map Some Y) (map Some Y) (func_name f) false false in
  let '(tl, tu, Y, _) := r in
  let '(tl, tu) := without_reversals (match f with F_CHF => false | _ => true end) tl tu in
  let yy := map (shown_as f) Y in
  Ok {| b_polygon := fill_no_autoscale paper tl tu yy yy; b_line_lower := line_no_autoscale tl yy; b_line_upper := line_no_autoscale tu yy |}.

(** The times at which bounds on reliability are drawn, without gamma: Weibull 3002-3012, Gamma 3293-3304,
    Normal 3577-3582, Lognormal 3855-3865, Loglogistic 4138-4148, Gumbel 4418-4423. *)
Definition band_times (d : dist) : list R :=
  let g := ci_gamma d in
  match d with
  | Weibull _ _ _ | Lognormal _ _ _ | Loglogistic _ _ _ =>
      let t0 := ppf d (/ 10 ^ 5) - g in
      geomspace (if Rle_dec t0 0 then / 10 ^ 4 else t0) (ppf d (1 - / 10 ^ 5) - g) 200
  | Gamma _ _ _ => linspace ((if Req_EM_T g 0 then / 10 ^ 4 else ppf d (/ 10 ^ 7)) - g) (ppf d (1 - / 10 ^ 5) - g) 200
  | _ => linspace (ppf d (/ 10 ^ 5)) (ppf d (1 - / 10 ^ 5)) 200
  end.
(** Bounds on reliability, e.g. 3001-3064 *)
Definition reliability_band (paper : bool) (gj : gamma_jac) (d : dist) (s : covs) (Z : R) (f : cfunc) : result band :=
  let t := band_times d in
  let bs := map (fun t => rel_bounds gj d s Z (t + ci_gamma d)) t in
  let! r := clean_CI_arrays (map Some t) (map Some t) (map (omap fst) bs) (map (omap snd) bs) (func_name f) false false in
  let '(_, t, yl, yu) := r in
  let '(yl, yu) := without_reversals true yl yu in
  let yyl := map (shown_as f) yl in let yyu := map (shown_as f) yu in
  let x := map (fun t => t + ci_gamma d) t in
  Ok {| b_polygon := fill_no_autoscale paper x x yyl yyu; b_line_lower := line_no_autoscale x yyl; b_line_upper := line_no_autoscale x yyu |}.
