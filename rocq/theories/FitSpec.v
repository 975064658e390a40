(** Specifications for the fitters. *)
From Coquelicot Require Import Coquelicot.
From Coq Require Import List Arith Reals Lra Lia.
From Verif Require Import Base Ext RList DistModel CombModel CombSpec FitModel.
Import ListNotations.
Open Scope R_scope.

(** The parameters a fitter may report. *)
Definition params_ok (f : fitter) : Prop :=
  match f with
  | Weibull_2P a b | Gamma_2P a b | Beta_2P a b | Loglogistic_2P a b => 0 < a /\ 0 < b
  | Weibull_3P a b g | Gamma_3P a b g | Loglogistic_3P a b g => 0 < a /\ 0 < b /\ 0 <= g
  | Weibull_Mixture a1 b1 a2 b2 p => 0 < a1 /\ 0 < b1 /\ 0 < a2 /\ 0 < b2 /\ 0 < p < 1
  | Weibull_CR a1 b1 a2 b2 => 0 < a1 /\ 0 < b1 /\ 0 < a2 /\ 0 < b2
  | Weibull_DSZI a b ds zi => 0 < a /\ 0 < b /\ 0 <= zi /\ zi < ds /\ ds <= 1
  | Weibull_DS a b ds => 0 < a /\ 0 < b /\ 0 < ds <= 1
  | Weibull_ZI a b zi => 0 < a /\ 0 < b /\ 0 <= zi < 1
  | Exponential_1P l => 0 < l
  | Exponential_2P l g => 0 < l /\ 0 <= g
  | Normal_2P _ s | Gumbel_2P _ s | Lognormal_2P _ s => 0 < s
  | Lognormal_3P _ s g => 0 < s /\ 0 <= g
  | Gamma_2P_mb _ b => 0 < b
  | Gamma_3P_mbg _ b g => 0 < b /\ 0 <= g
  end.

(** The times inside the support. *)
Definition support (f : fitter) (t : R) : Prop :=
  match f with
  | Normal_2P _ _ | Gumbel_2P _ _ => True
  | Weibull_3P _ _ g | Exponential_2P _ g | Lognormal_3P _ _ g | Gamma_3P _ _ g | Gamma_3P_mbg _ _ g | Loglogistic_3P _ _ g => g < t
  | Beta_2P _ _ => 0 < t < 1
  | _ => 0 < t
  end.

(** The distribution object has density [v], or survival probability [v], at t. *)
Definition density_at (o : fitted) (t v : R) : Prop := fitted_PDF o [t] = Ok [Fin v].
Definition survival_at (o : fitted) (t v : R) : Prop := fitted_SF o [t] = Ok [v].

(** The probability the fitted model gives to a failure at time zero. *)
Definition zero_mass (f : fitter) : R :=
  match f with Weibull_DSZI _ _ _ zi | Weibull_ZI _ _ zi => zi | _ => 0 end.
(** Whether the fitter treats failures at time zero separately. *)
Definition zero_inflated (f : fitter) : Prop :=
  match f with Weibull_DSZI _ _ _ _ | Weibull_ZI _ _ _ => True | _ => False end.

(** The likelihood of data whose failures after time zero have densities P and whose
    censored items have survival probabilities S. *)
Definition likelihood (mass0 : R) (n0 : nat) (P S : list R) : R := mass0 ^ n0 * rprod P * rprod S.

(** The number of parameters of each model that are estimated from the data. *)
Definition free_parameters (f : fitter) (forced : bool) : nat :=
  let all := length
    match f with
    | Weibull_2P a b | Gamma_2P a b | Beta_2P a b | Loglogistic_2P a b | Exponential_2P a b | Normal_2P a b | Gumbel_2P a b
    | Lognormal_2P a b | Gamma_2P_mb a b => [a; b]
    | Weibull_3P a b g | Gamma_3P a b g | Loglogistic_3P a b g | Weibull_DS a b g | Weibull_ZI a b g | Lognormal_3P a b g
    | Gamma_3P_mbg a b g => [a; b; g]
    | Weibull_Mixture a1 b1 a2 b2 p => [a1; b1; a2; b2; p]
    | Weibull_CR a1 b1 a2 b2 => [a1; b1; a2; b2]
    | Weibull_DSZI a b ds zi => [a; b; ds; zi]
    | Exponential_1P l => [l]
    end in
  match f, forced with
  | (Weibull_2P _ _ | Normal_2P _ _ | Lognormal_2P _ _), true => all - 1
  | _, _ => all
  end.
