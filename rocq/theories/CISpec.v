(** Specifications for confidence limits and confidence bounds. *)
From Coquelicot Require Import Coquelicot.
From Coq Require Import String.
From Coq Require Import List Arith Reals Lra Lia Bool.
From Verif Require Import Base Gauss Ext ConvertModel DistModel DistSpec SelModel CIModel.
Import ListNotations.
Open Scope R_scope.

(** The parameters of each fitter's table and where they range: a real number, a positive
    number, a proportion. The mu = ln(alpha) of the Gamma fitters stands last; it must not be
    exactly 0. *)
Inductive prange := AnyReal | Positive | Proportion | NonZero.
Definition parameter_ranges (d : dname) : list prange :=
  match d with
  | D_Weibull_2P | D_Loglogistic_2P | D_Beta_2P => [Positive; Positive]
  | D_Weibull_3P | D_Loglogistic_3P => [Positive; Positive; Positive]
  | D_Gamma_2P => [Positive; Positive; NonZero]
  | D_Gamma_3P => [Positive; Positive; Positive; NonZero]
  | D_Exponential_1P => [Positive]
  | D_Exponential_2P => [Positive; AnyReal]
  | D_Normal_2P | D_Lognormal_2P | D_Gumbel_2P => [AnyReal; Positive]
  | D_Lognormal_3P => [AnyReal; Positive; Positive]
  | D_Weibull_Mixture => [Positive; Positive; Positive; Positive; Proportion]
  | D_Weibull_CR => [Positive; Positive; Positive; Positive]
  | D_Weibull_DSZI => [Positive; Positive; Proportion; Proportion]
  | D_Weibull_DS | D_Weibull_ZI => [Positive; Positive; Proportion]
  | D_Everything => []
  end.
Definition in_range (k : prange) (e : R) : Prop :=
  match k with AnyReal => True | Positive => 0 < e | Proportion => 0 <= e <= 1 | NonZero => e <> 0 end.
(** The parameters that have no sampling error: a shape the user forced, and the location of
    the two-parameter Exponential. *)
Definition held_fixed (d : dname) (forced : bool) (i : nat) : bool :=
  match d with
  | D_Weibull_2P | D_Normal_2P | D_Lognormal_2P => forced && Nat.eqb i 1
  | D_Exponential_2P => Nat.eqb i 1
  | _ => false
  end.
(** l and u are the limits with the normal multiplier Z and standard error se on the scale of
    the parameter: its logarithm, itself, its logit. *)
Definition normal_limits (k : prange) (Z e se l u : R) : Prop :=
  match k with
  | AnyReal => l = e - Z * se /\ u = e + Z * se
  | Positive => 0 < l /\ 0 < u /\ ln l = ln e - Z * (se / e) /\ ln u = ln e + Z * (se / e)
  | Proportion =>
      (0 < e < 1 -> ln (l / (1 - l)) = ln (e / (1 - e)) - Z * (se / (e * (1 - e))) /\ ln (u / (1 - u)) = ln (e / (1 - e)) + Z * (se / (e * (1 - e)))) /\
      (e = 0 \/ e = 1 -> l = e /\ u = e)
  | NonZero => 0 < l / e /\ 0 < u / e /\ ln (l / e) = - Z * (se / e) /\ ln (u / e) = Z * (se / e)
  end.

(** The range of the estimates of each kind of parameter. *)
Definition estimate_ok (k : pkind) (e : R) : Prop :=
  match k with
  | PLog => 0 < e
  | PLogit => 0 <= e <= 1
  | PLogMu => e <> 0
  | PLin | PFixed => True
  end.
(** Finite limits around the estimate. *)
Definition brackets (r : limits) : Prop := exists l u, p_lower r = Fin l /\ p_upper r = Fin u /\ l <= p_est r <= u.
(** The interval of [r] lies inside that of [r']. *)
Definition inside_of (r r' : limits) : Prop :=
  p_est r = p_est r' /\ exists l u l' u', p_lower r = Fin l /\ p_upper r = Fin u /\ p_lower r' = Fin l' /\ p_upper r' = Fin u' /\ l' <= l /\ u <= u'.

(** Lists in order. *)
Definition never_increases (l : list R) : Prop := forall i j, (i <= j < length l)%nat -> nth j l 0 <= nth i l 0.
Definition never_decreases (l : list R) : Prop := forall i j, (i <= j < length l)%nat -> nth i l 0 <= nth j l 0.
(** Decreases (increases) up to position k and increases (decreases) from there. *)
Definition down_then_up (l : list R) : Prop := exists k, (k < length l)%nat /\
  (forall i j, (i <= j <= k)%nat -> nth j l 0 <= nth i l 0) /\ (forall i j, (k <= i <= j)%nat -> (j < length l)%nat -> nth i l 0 <= nth j l 0).
Definition up_then_down (l : list R) : Prop := exists k, (k < length l)%nat /\
  (forall i j, (i <= j <= k)%nat -> nth i l 0 <= nth j l 0) /\ (forall i j, (k <= i <= j)%nat -> (j < length l)%nat -> nth j l 0 <= nth i l 0).

(** A row of four array entries; [None] is nan or inf. *)
Definition row4 : Type := option R * option R * option R * option R.
Definition col1 (r : row4) := let '(a, _, _, _) := r in a.
Definition col2 (r : row4) := let '(_, b, _, _) := r in b.
Definition col3 (r : row4) := let '(_, _, c, _) := r in c.
Definition col4 (r : row4) := let '(_, _, _, e) := r in e.
Definition is_probability (plot_type : string) : Prop := upper plot_type = "CDF"%string \/ upper plot_type = "SF"%string.
(** All four entries are numbers, and the two y-values are positive (above 1e-50) and, for
    probabilities, below 1. *)
Definition legal_y (plot_type : string) (y : R) : Prop := / 10 ^ 50 < y /\ (is_probability plot_type -> y < 1).
Definition legal_row (plot_type : string) (r : row4) (v : R * R * R * R) : Prop :=
  let '(a, b, c, e) := v in r = (Some a, Some b, Some c, Some e) /\ legal_y plot_type c /\ legal_y plot_type e.
(** [out] has exactly the legal rows of [rows], in order. *)
Inductive legal_rows (plot_type : string) : list row4 -> list (R * R * R * R) -> Prop :=
| lr_nil : legal_rows plot_type [] []
| lr_keep : forall r v rows out, legal_row plot_type r v -> legal_rows plot_type rows out -> legal_rows plot_type (r :: rows) (v :: out)
| lr_drop : forall r rows out, (forall v, ~ legal_row plot_type r v) -> legal_rows plot_type rows out -> legal_rows plot_type (r :: rows) out.

(** The curve whose bounds are asked for. *)
Definition curve (d : dist) (f : cfunc) (x : R) : R :=
  match f with F_CDF => cdf d x | F_SF => sf d x | F_CHF => - ln (sf d x) end.
Definition is_exponential (d : dist) : Prop := match d with Exponential _ _ => True | _ => False end.

(** The scale on which the bounds on reliability are symmetric. *)
Definition link (d : dist) (p : R) : R :=
  match d with
  | Weibull _ _ _ | Gumbel _ _ => ln (- ln p)
  | Loglogistic _ _ _ => ln (1 / p - 1)
  | Normal _ _ | Lognormal _ _ _ => norm_ppf p
  | _ => p
  end.
(** The distribution with the first or the second parameter replaced. *)
Definition with_a (d : dist) (a : R) : dist :=
  match d with
  | Weibull _ b g => Weibull a b g | Loglogistic _ b g => Loglogistic a b g | Normal _ s => Normal a s
  | Lognormal _ s g => Lognormal a s g | Gumbel _ s => Gumbel a s | d => d
  end.
Definition with_b (d : dist) (b : R) : dist :=
  match d with
  | Weibull a _ g => Weibull a b g | Loglogistic a _ g => Loglogistic a b g | Normal m _ => Normal m b
  | Lognormal m _ g => Lognormal m b g | Gumbel m _ => Gumbel m b | d => d
  end.
Definition par_a (d : dist) : R :=
  match d with Weibull a _ _ | Loglogistic a _ _ | Gamma a _ _ | DistModel.Beta a _ => a | Normal m _ | Lognormal m _ _ | Gumbel m _ => m | Exponential l _ => l end.
Definition par_b (d : dist) : R :=
  match d with Weibull _ b _ | Loglogistic _ b _ | Gamma _ b _ | DistModel.Beta _ b => b | Normal _ s | Lognormal _ s _ | Gumbel _ s => s | Exponential _ _ => 0 end.
Definition two_parameter_link (d : dist) : Prop :=
  match d with Gamma _ _ _ | Exponential _ _ | DistModel.Beta _ _ => False | _ => True end.

(** A covariance matrix: nonnegative standard errors, correlation between -1 and 1. *)
Definition proper_cov (s : covs) : Prop := 0 <= se_a s /\ 0 <= se_b s /\ Rabs (cov_ab s) <= se_a s * se_b s.
(** The scale on which the bounds on time are symmetric. *)
Definition time_scale (d : dist) (t : R) : R :=
  match d with Normal _ _ | Gumbel _ _ => t | _ => ln (t - DistSpec.location d) end.
