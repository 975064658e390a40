(** Model of the likelihood functions and goodness of fit measures of
    /repo/reliability/Fitters.py. Times are inside the support of the distribution, so every
    logarithm is taken of a positive number. *)
From Coquelicot Require Import Coquelicot.
From Coq Require Import List Arith Reals Lra Lia Bool ZArith.
From Verif Require Import Base RealFacts Gauss Improper Ext RList DistModel CombModel.
Import ListNotations.
Open Scope R_scope.

(** ** scipy.special and autograd.scipy.special *)
Definition erf (x : R) : R := 2 / sqrt PI * RInt (fun t => exp (- t ^ 2)) 0 x.
Definition gammaincc (b x : R) : R := int_over (gamma_kernel b) x p_infty / gamma_fun b.
Definition betainc (a b x : R) : R := int_below (beta_kernel a b) 0 x / beta_fun a b.

(** ** The fitters and their parameters, in the order of params in LL *)
Inductive fitter :=
| Weibull_2P (a b : R)
| Weibull_3P (a b g : R)
| Weibull_Mixture (a1 b1 a2 b2 p : R)
| Weibull_CR (a1 b1 a2 b2 : R)
| Weibull_DSZI (a b ds zi : R)
| Weibull_DS (a b ds : R)
| Weibull_ZI (a b zi : R)
| Exponential_1P (l : R)
| Exponential_2P (l g : R)
| Normal_2P (m s : R)
| Gumbel_2P (m s : R)
| Lognormal_2P (m s : R)
| Lognormal_3P (m s g : R)
| Gamma_2P (a b : R)
| Gamma_2P_mb (m b : R)
| Gamma_3P (a b g : R)
| Gamma_3P_mbg (m b g : R)
| Beta_2P (a b : R)
| Loglogistic_2P (a b : R)
| Loglogistic_3P (a b g : R).

(** logf, by line of Fitters.py *)
Definition logf (f : fitter) (t : R) : R :=
  match f with
  | Weibull_2P a b => (* 2346 *)
      (b - 1) * ln (t / a) + ln (b / a) - Rpower (t / a) b
  | Weibull_3P a b g => (* 3464 *)
      (b - 1) * ln ((t - g) / a) + ln (b / a) - Rpower ((t - g) / a) b
  | Weibull_Mixture a1 b1 a2 b2 p => (* 3975-3978 *)
      ln (p * ((b1 * Rpower t (b1 - 1)) / Rpower a1 b1) * exp (- Rpower (t / a1) b1)
          + (1 - p) * ((b2 * Rpower t (b2 - 1)) / Rpower a2 b2) * exp (- Rpower (t / a2) b2))
  | Weibull_CR a1 b1 a2 b2 => (* 4420-4423 *)
      ln (- (- (b2 * Rpower (t / a2) b2) / t - (b1 * Rpower (t / a1) b1) / t)
          * exp (- Rpower (t / a2) b2 - Rpower (t / a1) b1))
  | Weibull_DSZI a b ds zi => (* 4806-4808 *)
      (b - 1) * ln (t / a) + ln (b / a) - Rpower (t / a) b + ln (ds - zi)
  | Weibull_DS a b ds => (* 5131 *)
      (b - 1) * ln (t / a) + ln (b / a) - Rpower (t / a) b + ln ds
  | Weibull_ZI a b zi => (* 5469-5471 *)
      (b - 1) * ln (t / a) + ln (b / a) - Rpower (t / a) b + ln (1 - zi)
  | Exponential_1P l => (* 5831 *) ln l - l * t
  | Exponential_2P l g => (* 6223 *) ln l - l * (t - g)
  | Normal_2P m s => (* 6657-6659 *)
      ln (exp (- (1 / 2) * ((t - m) / s) ^ 2)) - ln (s * sqrt (2 * PI))
  | Gumbel_2P m s => (* 7033 *) - ln s + (t - m) / s - exp ((t - m) / s)
  | Lognormal_2P m s => (* 7452-7455 *)
      ln (exp (- (1 / 2) * ((ln t - m) / s) ^ 2) / (t * s * sqrt (2 * PI)))
  | Lognormal_3P m s g => (* 7905-7908 *)
      ln (exp (- (1 / 2) * ((ln (t - g) - m) / s) ^ 2) / ((t - g) * s * sqrt (2 * PI)))
  | Gamma_2P a b => (* 8310 *) ln (Rpower t (b - 1)) - ln (Rpower a b * gamma_fun b) - t / a
  | Gamma_2P_mb m b => (* 8326-8330 *)
      ln (Rpower t (b - 1)) - ln (Rpower (exp m) b * gamma_fun b) - t / exp m
  | Gamma_3P a b g => (* 8819-8821 *)
      ln (Rpower (t - g) (b - 1)) - ln (Rpower a b * gamma_fun b) - (t - g) / a
  | Gamma_3P_mbg m b g => (* 8837-8841 *)
      ln (Rpower (t - g) (b - 1)) - ln (Rpower (exp m) b * gamma_fun b) - (t - g) / exp m
  | Beta_2P a b => (* 9177 *) ln (Rpower t (a - 1) * Rpower (1 - t) (b - 1)) - ln (beta_fun a b)
  | Loglogistic_2P a b => (* 9539-9541 *)
      ln (b / a) - (b + 1) * ln (t / a) - 2 * ln (1 + Rpower (t / a) (- b))
  | Loglogistic_3P a b g => (* 9981-9985 *)
      ln (b / a) - (b + 1) * ln ((t - g) / a) - 2 * ln (1 + Rpower ((t - g) / a) (- b))
  end.

(** logR, by line of Fitters.py *)
Definition logR (f : fitter) (t : R) : R :=
  match f with
  | Weibull_2P a b => (* 2350 *) - Rpower (t / a) b
  | Weibull_3P a b g => (* 3469 *) - Rpower ((t - g) / a) b
  | Weibull_Mixture a1 b1 a2 b2 p => (* 3982-3984 *)
      ln (p * exp (- Rpower (t / a1) b1) + (1 - p) * exp (- Rpower (t / a2) b2))
  | Weibull_CR a1 b1 a2 b2 => (* 4427 *) - Rpower (t / a1) b1 - Rpower (t / a2) b2
  | Weibull_DSZI a b ds zi => (* 4812 *) ln (1 - ((1 - exp (- Rpower (t / a) b)) * (ds - zi) + zi))
  | Weibull_DS a b ds => (* 5135 *) ln (1 - (1 - exp (- Rpower (t / a) b)) * ds)
  | Weibull_ZI a b zi => (* 5475 *) ln (1 - ((1 - exp (- Rpower (t / a) b)) * (1 - zi) + zi))
  | Exponential_1P l => (* 5835 *) - (l * t)
  | Exponential_2P l g => (* 6227 *) - (l * (t - g))
  | Normal_2P m s => (* 6663 *) ln ((1 + erf ((m - t) / s / sqrt 2)) / 2)
  | Gumbel_2P m s => (* 7037 *) - exp ((t - m) / s)
  | Lognormal_2P m s => (* 7459 *) ln (1 / 2 - 1 / 2 * erf ((ln t - m) / (s * sqrt 2)))
  | Lognormal_3P m s g => (* 7912 *) ln (1 / 2 - 1 / 2 * erf ((ln (t - g) - m) / (s * sqrt 2)))
  | Gamma_2P a b => (* 8314 *) ln (gammaincc b (t / a))
  | Gamma_2P_mb m b => (* 8334 *) ln (gammaincc b (t / exp m))
  | Gamma_3P a b g => (* 8825 *) ln (gammaincc b ((t - g) / a))
  | Gamma_3P_mbg m b g => (* 8845 *) ln (gammaincc b ((t - g) / exp m))
  | Beta_2P a b => (* 9181 *) ln (1 - betainc a b t)
  | Loglogistic_2P a b => (* 9545 *) - ln (1 + Rpower (t / a) b)
  | Loglogistic_3P a b g => (* 9989 *) - ln (1 + Rpower ((t - g) / a) b)
  end.

(** The log of the probability of a failure at 0, multiplied by their number in the zero
    inflated fitters; other fitters have no such term: 4815-4820, 5478-5483 *)
Definition log0 (f : fitter) (n0 : nat) : R :=
  match f with
  | Weibull_DSZI _ _ _ zi | Weibull_ZI _ _ zi => if Rlt_dec 0 zi then ln zi * INR n0 else 0
  | _ => 0
  end.

(** LL (LL_ab, LL_abg, LL_mb, LL_mbg): minus the log-likelihood. 2353-2357, 3472-3476,
    3987-3995, 4430-4438, 4814-4826, 5138-5142, 5477-5486, 5838-5842, 6230-6234, 6666-6669,
    7040-7044, 7462-7466, 7915-7919, 8317-8321, 8337-8341, 8828-8832, 8848-8852, 9184-9188,
    9548-9552, 9992-9996. [T_0] are the failures at zero of the zero inflated fitters, empty
    for the others. *)
Definition LL (f : fitter) (T_0 T_f T_rc : list R) : R :=
  - (log0 f (length T_0) + rsum (map (logf f) T_f) + rsum (map (logR f) T_rc)).

(** The variants used while fitting: Fit_Weibull_2P.LL_fb 2360-2364, Fit_Normal_2P.LL_fs
    6672-6676, Fit_Lognormal_2P.LL_fs 7469-7473, Fit_Exponential_2P.LL_inv 6238-6242 *)
Definition Weibull_2P_LL_fb (a force_beta : R) (T_f T_rc : list R) : R :=
  - (rsum (map (logf (Weibull_2P a force_beta)) T_f) + rsum (map (logR (Weibull_2P a force_beta)) T_rc)).
Definition Normal_2P_LL_fs (m force_sigma : R) (T_f T_rc : list R) : R :=
  - (rsum (map (logf (Normal_2P m force_sigma)) T_f) + rsum (map (logR (Normal_2P m force_sigma)) T_rc)).
Definition Lognormal_2P_LL_fs (m force_sigma : R) (T_f T_rc : list R) : R :=
  - (rsum (map (logf (Lognormal_2P m force_sigma)) T_f) + rsum (map (logR (Lognormal_2P m force_sigma)) T_rc)).
Definition Exponential_2P_LL_inv (p0 g : R) (T_f T_rc : list R) : R :=
  - (rsum (map (logf (Exponential_2P (1 / p0) g)) T_f) + rsum (map (logR (Exponential_2P (1 / p0) g)) T_rc)).

(** self.distribution: 2229, 3338, 3761, 4252, 4693, 5041, 5364, 5723, 6115, 6538, 6920, 7333,
    7778, 8194, 8689, 9082, 9426, 9854 *)
Inductive fitted :=
| Single (d : dist)
| Mixture (ds : list dist) (ps : list R)
| CompetingRisks (ds : list dist)
| Dszi (DS ZI : option R) (d : dist).
Definition distribution (f : fitter) : fitted :=
  match f with
  | Weibull_2P a b => Single (Weibull a b 0)
  | Weibull_3P a b g => Single (Weibull a b g)
  | Weibull_Mixture a1 b1 a2 b2 p => Mixture [Weibull a1 b1 0; Weibull a2 b2 0] [p; 1 - p]
  | Weibull_CR a1 b1 a2 b2 => CompetingRisks [Weibull a1 b1 0; Weibull a2 b2 0]
  | Weibull_DSZI a b ds zi => Dszi (Some ds) (Some zi) (Weibull a b 0)
  | Weibull_DS a b ds => Dszi (Some ds) None (Weibull a b 0)
  | Weibull_ZI a b zi => Dszi None (Some zi) (Weibull a b 0)
  | Exponential_1P l => Single (Exponential l 0)
  | Exponential_2P l g => Single (Exponential l g)
  | Normal_2P m s => Single (Normal m s)
  | Gumbel_2P m s => Single (Gumbel m s)
  | Lognormal_2P m s => Single (Lognormal m s 0)
  | Lognormal_3P m s g => Single (Lognormal m s g)
  | Gamma_2P a b => Single (Gamma a b 0)
  | Gamma_2P_mb m b => Single (Gamma (exp m) b 0)
  | Gamma_3P a b g => Single (Gamma a b g)
  | Gamma_3P_mbg m b g => Single (Gamma (exp m) b g)
  | Beta_2P a b => Single (DistModel.Beta a b)
  | Loglogistic_2P a b => Single (Loglogistic a b 0)
  | Loglogistic_3P a b g => Single (Loglogistic a b g)
  end.

(** The PDF and SF methods of that object on an array. For a mixture the constructor checks
    the proportions, for DSZI it checks DS and ZI. *)
Definition fitted_PDF (o : fitted) (X : list R) : result (list ext) :=
  match o with
  | Single d => PDF d X
  | Mixture ds ps => let! ps := mix_proportions ds (Some ps) in let! c := mix_combine ds ps X in Ok (mix_pdf c)
  | CompetingRisks ds => let! c := cr_combine ds X in Ok (map Fin (cr_pdf c))
  | Dszi DS ZI d => let! q := dszi_init DS ZI in dszi_PDF (fst q) (snd q) d X
  end.
Definition fitted_SF (o : fitted) (X : list R) : result (list R) :=
  match o with
  | Single d => SF d X
  | Mixture ds ps => let! ps := mix_proportions ds (Some ps) in let! c := mix_combine ds ps X in Ok (mix_sf c)
  | CompetingRisks ds => let! c := cr_combine ds X in Ok (cr_sf c)
  | Dszi DS ZI d => let! q := dszi_init DS ZI in dszi_SF (fst q) (snd q) d X
  end.

(** ** Fit_Weibull_2P_grouped *)

(** LL and LL_fb on values and quantities: 3023-3035. zip stops at the shorter list; numpy
    would raise ValueError for arrays of different lengths. *)
Definition grouped_LL (a b : R) (T_f : list R) (Q_f : list R) (T_rc : list R) (Q_rc : list R) : R :=
  - (rsum (zip Rmult (map (logf (Weibull_2P a b)) T_f) Q_f) + rsum (zip Rmult (map (logR (Weibull_2P a b)) T_rc) Q_rc)).
Definition grouped_LL_fb (a force_beta : R) (T_f : list R) (Q_f : list R) (T_rc : list R) (Q_rc : list R) : R :=
  - (rsum (zip Rmult (map (logf (Weibull_2P a force_beta)) T_f) Q_f) + rsum (zip Rmult (map (logR (Weibull_2P a force_beta)) T_rc) Q_rc)).

(** The rows of the dataframe: 2555-2573. A row is (category, time, quantity). *)
Inductive category := CatF | CatC.
Definition is_F (c : category) : bool := match c with CatF => true | CatC => false end.
Definition row := (category * R * nat)%type.
Definition row_cat (r : row) : category := fst (fst r).
Definition row_time (r : row) : R := snd (fst r).
Definition row_qty (r : row) : nat := snd r.
Definition kept_rows (df : list row) : list row := filter (fun r => Rltb' 0 (row_time r)) df.
Definition F_rows (df : list row) : list row := filter (fun r => is_F (row_cat r)) (kept_rows df).
Definition C_rows (df : list row) : list row := filter (fun r => negb (is_F (row_cat r))) (kept_rows df).
(** np.repeat(times, quantities) *)
Definition expand (rows : list row) : list R := flat_map (fun r => repeat (row_time r) (row_qty r)) rows.
(** The value of LL for a dataframe, its number of items, and the arrays of the recompiled
    data. *)
Definition df_LL (a b : R) (df : list row) : R :=
  grouped_LL a b (map row_time (F_rows df)) (map (fun r => INR (row_qty r)) (F_rows df))
    (map row_time (C_rows df)) (map (fun r => INR (row_qty r)) (C_rows df)).
Definition df_n (df : list row) : nat := list_sum (map row_qty (F_rows df)) + list_sum (map row_qty (C_rows df)).
Definition df_failures (df : list row) : list R := expand (F_rows df).
Definition df_censored (df : list row) : list R := expand (C_rows df).

(** ** Goodness of fit: 2265-2278 and likewise in every fitter *)

(** k in each fitter: 2267, 2270 (forced), 3376, 3776, 4255, 4701, 5048, 5371, 5754, 6146,
    6576, 6579 (forced), 6957, 7371, 7374 (forced), 7816, 8234, 8730, 9103, 9463, 9892 *)
Definition k_of (f : fitter) (forced : bool) : nat :=
  match f with
  | Weibull_2P _ _ | Normal_2P _ _ | Lognormal_2P _ _ => if forced then 1%nat else 2%nat
  | Weibull_Mixture _ _ _ _ _ => 5%nat
  | Weibull_CR _ _ _ _ | Weibull_DSZI _ _ _ _ => 4%nat
  | Weibull_3P _ _ _ | Weibull_DS _ _ _ | Weibull_ZI _ _ _ | Lognormal_3P _ _ _ | Gamma_3P _ _ _
  | Gamma_3P_mbg _ _ _ | Loglogistic_3P _ _ _ => 3%nat
  | Exponential_1P _ => 1%nat
  | Exponential_2P _ _ | Gumbel_2P _ _ | Gamma_2P _ _ | Gamma_2P_mb _ _ | Beta_2P _ _ | Loglogistic_2P _ _ => 2%nat
  end.

Record gof := { loglik2 : R; loglik : R; AICc : option R; BIC : R }.
(** [None]: the string "Insufficient data". *)
Definition goodness (n k : Z) (LL2 : R) : gof :=
  {| loglik2 := LL2; loglik := LL2 * - (1 / 2);
     AICc := if (0 <? n - k - 1)%Z then Some (2 * IZR k + LL2 + (2 * IZR k ^ 2 + 2 * IZR k) / IZR (n - k - 1)) else None;
     BIC := ln (IZR n) * IZR k + LL2 |}.
Definition fit_gof (f : fitter) (forced : bool) (T_0 T_f T_rc : list R) : gof :=
  goodness (Z.of_nat (length T_0 + length T_f + length T_rc)) (Z.of_nat (k_of f forced)) (2 * LL f T_0 T_f T_rc).
