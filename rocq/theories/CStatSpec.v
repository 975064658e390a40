(** Specifications for the statistics of competing risks and mixture models. *)
From Coquelicot Require Import Coquelicot.
From Coq Require Import List Arith Reals Lra Lia.
From Verif Require Import Base Ext RList DistModel DistSpec CombSpec MomentSpec.
Import ListNotations.
Open Scope R_scope.

(** [lo] and [hi]: the smallest 1e-10 quantile and the largest 1 - 1e-10 quantile among the
    components, of a size that floating point arithmetic is meant for. *)
Definition range_of (ds : list dist) (lo hi : R) : Prop :=
  (forall d, In d ds -> lo <= ppf d (/ 10 ^ 10) /\ ppf d (1 - / 10 ^ 10) <= hi) /\
  (exists d, In d ds /\ lo = ppf d (/ 10 ^ 10)) /\ (exists d, In d ds /\ hi = ppf d (1 - / 10 ^ 10)) /\
  lo <= 10 ^ 100 /\ - 10 ^ 100 <= hi.

(** Survival functions and densities of the models. *)
Definition cr_survival (ds : list dist) (x : R) : R := rprod (map (fun d => sf d x) ds).
Definition cr_density_at (ds : list dist) (x : R) : R := cr_survival ds x * rsum (map (fun d => density d x / sf d x) ds).
Definition mix_survival (ds : list dist) (ps : list R) (x : R) : R := 1 - dot ps (map (fun d => cdf d x) ds).
Definition mix_density_at (ds : list dist) (ps : list R) (x : R) : R := dot ps (map (fun d => density d x) ds).

(** [r] is the integral of g f over [lo, hi] up to the error of a grid of 999999 intervals,
    for integrands that change at most at rate L. *)
Definition rate_at_most (L : R) (u : R -> R) (lo hi : R) : Prop := forall x y, lo <= x <= hi -> lo <= y <= hi -> Rabs (u x - u y) <= L * Rabs (x - y).
Definition integral_to_grid (f : R -> R) (lo hi : R) (g : R -> R) (r : R) : Prop :=
  forall L I, rate_at_most L (fun x => f x * g x) lo hi -> is_RInt (fun x => f x * g x) lo hi I -> Rabs (r - I) <= 2 * L * (hi - lo) ^ 2 / 999999.

(** [s] holds mean, standard deviation, variance, skewness, kurtosis and excess kurtosis of a
    model with density f, as integrals over [lo, hi]. *)
Definition described (f : R -> R) (lo hi : R) (s : ext * ext * ext * ext * ext * ext) : Prop :=
  exists m v, 0 <= v /\ integral_to_grid f lo hi (fun x => x) m /\ integral_to_grid f lo hi (fun x => (x - m) ^ 2) v /\
    if Req_EM_T v 0 then s = (Fin m, Fin 0, Fin 0, NaN, NaN, NaN) else
    exists sk ku, integral_to_grid f lo hi (fun x => ((x - m) / sqrt v) ^ 3) sk /\ integral_to_grid f lo hi (fun x => ((x - m) / sqrt v) ^ 4) ku /\
      s = (Fin m, Fin (sqrt v), Fin v, Fin sk, Fin ku, Fin (ku - 3)).

(** The points of the grid, and what has to hold at them: a finite density, and for the
    hazard rates of competing risks a survival probability above zero. *)
Definition grid_point (lo hi x : R) : Prop := exists i : nat, INR i <= 999999 /\ x = lo + INR i * ((hi - lo) / 999999).
Definition finite_density (ds : list dist) (lo hi : R) : Prop := forall d x, In d ds -> grid_point lo hi x -> exists p, pdf d x = Fin p.
Definition hazards_defined (ds : list dist) (lo hi : R) : Prop := forall d x, In d ds -> grid_point lo hi x -> hazard_defined d x.

(** A Beta distribution accepts no x above 1, so that it can only be combined with
    distributions whose quantiles are below 1. *)
Definition below_one (ds : list dist) (hi : R) : Prop := forall a b, In (Beta a b) ds -> hi <= 1.

(** x is among the grid points and F(x) is as close to p as at any grid point. *)
Definition nearest_on_grid (F : R -> R) (lo hi p x : R) : Prop := grid_point lo hi x /\ forall y, grid_point lo hi y -> Rabs (F x - p) <= Rabs (F y - p).
Definition highest_on_grid (f : R -> R) (lo hi x : R) : Prop := grid_point lo hi x /\ forall y, grid_point lo hi y -> f y <= f x.
