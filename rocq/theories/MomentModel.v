(** Model of the descriptive statistics of /repo/reliability/Distributions.py: mean, variance,
    standard deviation, skewness, kurtosis and mean residual life. *)
From Coquelicot Require Import Coquelicot.
From Coq Require Import List Arith Reals Lra Lia.
From Verif Require Import Base Ext DistModel.
Import ListNotations.
Open Scope R_scope.

(** ** scipy.stats: the stats method (external)

    rv_generic.stats computes the mean, variance, skewness and excess kurtosis of the
    standard member of a family, either by a formula of the family (_stats) or from the raw
    moments (_munp), and then applies location and scale. *)
Record std_stats := { s_mu : R; s_mu2 : R; s_g1 : R; s_g2 : R }.
Definition from_raw (m1 m2 m3 m4 : R) : std_stats :=
  let mu := m1 in
  let mu2 := m2 - mu * mu in
  let mu3 := (- mu * mu - 3 * mu2) * mu + m3 in
  let mu4 := ((- (mu ^ 2) - 6 * mu2) * mu - 4 * mu3) * mu + m4 in
  {| s_mu := mu; s_mu2 := mu2; s_g1 := mu3 / Rpower mu2 (3 / 2); s_g2 := mu4 / mu2 ^ 2 - 3 |}.

(** Euler's constant and Apery's constant: scipy's _EULER and _ZETA3. *)
Definition euler_gamma : R := real (Lim_seq (fun n => sum_f_R0 (fun k => 1 / INR (S k)) n - ln (INR (S n)))).
Definition zeta3 : R := Series (fun k => 1 / INR (S k) ^ 3).

(** weibull_min._munp, lognorm._stats, expon._stats, gamma._stats, beta._stats, burr._munp
    (fisk is burr with d = 1), gumbel_l._stats. norm.stats is not used: see below. *)
Definition scipy_std (d : dist) : std_stats :=
  match d with
  | Weibull _ b _ => from_raw (gamma_fun (1 + 1 / b)) (gamma_fun (1 + 2 / b)) (gamma_fun (1 + 3 / b)) (gamma_fun (1 + 4 / b))
  | Normal _ _ => {| s_mu := 0; s_mu2 := 1; s_g1 := 0; s_g2 := 0 |}
  | Lognormal _ s _ => let p := exp (s * s) in
      {| s_mu := sqrt p; s_mu2 := p * (p - 1); s_g1 := sqrt (p - 1) * (2 + p); s_g2 := p ^ 4 + 2 * p ^ 3 + 3 * p ^ 2 - 6 |}
  | Exponential _ _ => {| s_mu := 1; s_mu2 := 1; s_g1 := 2; s_g2 := 6 |}
  | Gamma _ b _ => {| s_mu := b; s_mu2 := b; s_g1 := 2 / sqrt b; s_g2 := 6 / b |}
  | Beta a b =>
      {| s_mu := a / (a + b); s_mu2 := a * b / ((a + b) ^ 2 * (a + b + 1));
         s_g1 := 2 * (b - a) * sqrt (a + b + 1) / ((a + b + 2) * sqrt (a * b));
         s_g2 := 6 * ((a - b) ^ 2 * (a + b + 1) - a * b * (a + b + 2)) / (a * b * (a + b + 2) * (a + b + 3)) |}
  | Loglogistic _ b _ =>
      from_raw (beta_fun (1 - 1 / b) (1 + 1 / b)) (beta_fun (1 - 2 / b) (1 + 2 / b))
               (beta_fun (1 - 3 / b) (1 + 3 / b)) (beta_fun (1 - 4 / b) (1 + 4 / b))
  | Gumbel _ _ => {| s_mu := - euler_gamma; s_mu2 := PI * PI / 6; s_g1 := - 12 * sqrt 6 / PI ^ 3 * zeta3; s_g2 := 12 / 5 |}
  end.
(** The loc and scale arguments the classes pass: Distributions.py 109-111, 2040-2042,
    3018-3020, 3971-3973, 4960-4962, 5689-5714, 6734. *)
Definition loc_arg (d : dist) : R :=
  match d with
  | Weibull _ _ g | Lognormal _ _ g | Exponential _ g | Gamma _ _ g | Loglogistic _ _ g => g
  | Normal m _ | Gumbel m _ => m
  | Beta _ _ => 0
  end.
Definition scale_arg (d : dist) : R :=
  match d with
  | Weibull a _ _ | Gamma a _ _ | Loglogistic a _ _ => a
  | Lognormal m _ _ => exp m
  | Exponential l _ => 1 / l
  | Normal _ s | Gumbel _ s => s
  | Beta _ _ => 1
  end.
Definition scipy_mean (d : dist) : R := s_mu (scipy_std d) * scale_arg d + loc_arg d.
Definition scipy_var (d : dist) : R := s_mu2 (scipy_std d) * scale_arg d * scale_arg d.
Definition scipy_skew (d : dist) : R := s_g1 (scipy_std d).
Definition scipy_kurt (d : dist) : R := s_g2 (scipy_std d).

(** ** The attributes of the classes. [None]: a message instead of a number. *)

(** Loglogistic reports a statistic only above a value of beta: 5687-5714 *)
Definition reported (d : dist) (n : R) : bool :=
  match d with Loglogistic _ b _ => if Rlt_dec n b then true else false | _ => true end.
(** self.mean: 112, 1111, 2043, 3021, 3974, 4963, 5687-5692, 6735 *)
Definition mean (d : dist) : option R :=
  match d with
  | Normal m _ => Some m
  | _ => if reported d 1 then Some (scipy_mean d) else None
  end.
(** self.variance: 113, 1112, 2044, 3022, 3975, 4964, 5693-5700, 6737 *)
Definition variance (d : dist) : option R :=
  match d with
  | Normal _ s => Some (s ^ 2)
  | _ => if reported d 2 then Some (scipy_var d) else None
  end.
(** self.standard_deviation: 114, 1113, 2045, 3023, 3976, 4965, 5697-5700, 6736 *)
Definition standard_deviation (d : dist) : option R :=
  match d with
  | Normal _ s => Some s
  | _ => if reported d 2 then Some (Rpower (scipy_var d) (1 / 2)) else None
  end.
(** self.skewness: 115, 1114, 2046, 3024, 3977, 4966, 5701-5706, 6738 *)
Definition skewness (d : dist) : option R :=
  match d with
  | Normal _ _ => Some 0
  | _ => if reported d 3 then Some (scipy_skew d) else None
  end.
(** self.excess_kurtosis: 117, 1116, 2048, 3026, 3979, 4968, 5707-5714, 6740 *)
Definition excess_kurtosis (d : dist) : option R :=
  match d with
  | Normal _ _ => Some 0
  | _ => if reported d 4 then Some (scipy_kurt d) else None
  end.
(** self.kurtosis: 116, 1115, 2047, 3025, 3978, 4967, 5711-5714, 6739 *)
Definition kurtosis (d : dist) : option R :=
  match d with
  | Normal _ _ => Some 3
  | _ => if reported d 4 then Some (scipy_kurt d + 3) else None
  end.

(** self.b5 and self.b95: 161-162, 1132-1133, 2085-2088, 3052-3053, 4019-4020, 4987-4988,
    5758-5759, 6757-6758 *)
Definition b5 (d : dist) : R := ppf d (5 / 100).
Definition b95 (d : dist) : R := ppf d (95 / 100).

(** mean_residual_life: 976-979, 1917-1920, 2882-2885, 3838-3841, 4824-4827, 5545-5548,
    6600-6603, 7543-7546. scipy's quad (external) is an argument: [quad f t] is its first
    result for the integral of f from t to inf. The division is numpy's; where the survival
    function is zero its result is nan or inf: not modelled. *)
Definition mean_residual_life (quad : (R -> R) -> R -> R) (d : dist) (t : R) : R := quad (sf d) t / sf d t.
