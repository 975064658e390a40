(** Specifications for the structure of the likelihoods: change of units, relations between the
    models, best fits. *)
From Coquelicot Require Import Coquelicot.
From Coq Require Import List Arith Reals Lra Lia.
From Verif Require Import Base Ext RList DistModel CombModel FitModel FitSpec.
Import ListNotations.
Open Scope R_scope.

(** The parameters of the same population when every time is multiplied by c, e.g. c = 24 when days are
    replaced by hours. The Beta distribution lives on [0, 1] and has no scale. *)
Definition has_scale (f : fitter) : Prop := match f with Beta_2P _ _ => False | _ => True end.
Definition rescaled (c : R) (f : fitter) : fitter :=
  match f with
  | Weibull_2P a b => Weibull_2P (c * a) b
  | Weibull_3P a b g => Weibull_3P (c * a) b (c * g)
  | Weibull_Mixture a1 b1 a2 b2 p => Weibull_Mixture (c * a1) b1 (c * a2) b2 p
  | Weibull_CR a1 b1 a2 b2 => Weibull_CR (c * a1) b1 (c * a2) b2
  | Weibull_DSZI a b ds zi => Weibull_DSZI (c * a) b ds zi
  | Weibull_DS a b ds => Weibull_DS (c * a) b ds
  | Weibull_ZI a b zi => Weibull_ZI (c * a) b zi
  | Exponential_1P l => Exponential_1P (l / c)
  | Exponential_2P l g => Exponential_2P (l / c) (c * g)
  | Normal_2P m s => Normal_2P (c * m) (c * s)
  | Gumbel_2P m s => Gumbel_2P (c * m) (c * s)
  | Lognormal_2P m s => Lognormal_2P (m + ln c) s
  | Lognormal_3P m s g => Lognormal_3P (m + ln c) s (c * g)
  | Gamma_2P a b => Gamma_2P (c * a) b
  | Gamma_2P_mb m b => Gamma_2P_mb (m + ln c) b
  | Gamma_3P a b g => Gamma_3P (c * a) b (c * g)
  | Gamma_3P_mbg m b g => Gamma_3P_mbg (m + ln c) b (c * g)
  | Beta_2P a b => Beta_2P a b
  | Loglogistic_2P a b => Loglogistic_2P (c * a) b
  | Loglogistic_3P a b g => Loglogistic_3P (c * a) b (c * g)
  end.

(** Parameters of the same model. *)
Definition same_model (f f' : fitter) : Prop :=
  match f, f' with
  | Weibull_2P _ _, Weibull_2P _ _ | Weibull_3P _ _ _, Weibull_3P _ _ _ | Weibull_Mixture _ _ _ _ _, Weibull_Mixture _ _ _ _ _
  | Weibull_CR _ _ _ _, Weibull_CR _ _ _ _ | Weibull_DSZI _ _ _ _, Weibull_DSZI _ _ _ _ | Weibull_DS _ _ _, Weibull_DS _ _ _
  | Weibull_ZI _ _ _, Weibull_ZI _ _ _ | Exponential_1P _, Exponential_1P _ | Exponential_2P _ _, Exponential_2P _ _
  | Normal_2P _ _, Normal_2P _ _ | Gumbel_2P _ _, Gumbel_2P _ _ | Lognormal_2P _ _, Lognormal_2P _ _ | Lognormal_3P _ _ _, Lognormal_3P _ _ _
  | Gamma_2P _ _, Gamma_2P _ _ | Gamma_2P_mb _ _, Gamma_2P_mb _ _ | Gamma_3P _ _ _, Gamma_3P _ _ _ | Gamma_3P_mbg _ _ _, Gamma_3P_mbg _ _ _
  | Beta_2P _ _, Beta_2P _ _ | Loglogistic_2P _ _, Loglogistic_2P _ _ | Loglogistic_3P _ _ _, Loglogistic_3P _ _ _ => True
  | _, _ => False
  end.
(** Parameters the data allow: admissible, and every time inside the support. *)
Definition allowed (f : fitter) (T_f T_rc : list R) : Prop := params_ok f /\ Forall (support f) T_f /\ Forall (support f) T_rc.
(** f is a best fit: no other parameters of the same model are more likely (LL is minus the log-likelihood). *)
Definition best_fit (f : fitter) (T_0 T_f T_rc : list R) : Prop :=
  allowed f T_f T_rc /\ forall f', same_model f f' -> allowed f' T_f T_rc -> LL f T_0 T_f T_rc <= LL f' T_0 T_f T_rc.

(** The location-scale families, directly or on the logarithms of the times. *)
Definition location_scale (f : fitter) : Prop :=
  match f with Weibull_2P _ _ | Gumbel_2P _ _ | Normal_2P _ _ | Lognormal_2P _ _ | Loglogistic_2P _ _ => True | _ => False end.

(** The first model is the second with some parameters at a fixed value. *)
Inductive nested : fitter -> fitter -> Prop :=
| N_exp_weibull l : nested (Exponential_1P l) (Weibull_2P (1 / l) 1)
| N_exp_gamma l : nested (Exponential_1P l) (Gamma_2P (1 / l) 1)
| N_weibull_3P a b : nested (Weibull_2P a b) (Weibull_3P a b 0)
| N_exp_2P l : nested (Exponential_1P l) (Exponential_2P l 0)
| N_lognormal_3P m s : nested (Lognormal_2P m s) (Lognormal_3P m s 0)
| N_gamma_3P a b : nested (Gamma_2P a b) (Gamma_3P a b 0)
| N_loglogistic_3P a b : nested (Loglogistic_2P a b) (Loglogistic_3P a b 0)
| N_mixture a b p : 0 < p < 1 -> nested (Weibull_2P a b) (Weibull_Mixture a b a b p)
| N_risks a b : nested (Weibull_2P a b) (Weibull_CR (a * Rpower 2 (1 / b)) b (a * Rpower 2 (1 / b)) b)
| N_DS a b : nested (Weibull_2P a b) (Weibull_DS a b 1)
| N_ZI a b : nested (Weibull_2P a b) (Weibull_ZI a b 0)
| N_DS_DSZI a b ds : nested (Weibull_DS a b ds) (Weibull_DSZI a b ds 0)
| N_ZI_DSZI a b zi : nested (Weibull_ZI a b zi) (Weibull_DSZI a b 1 zi).

(** The three-parameter models, with the two-parameter model they shift. *)
Inductive shifts : fitter -> R -> fitter -> Prop :=
| S_weibull a b g : shifts (Weibull_2P a b) g (Weibull_3P a b g)
| S_exponential l g : shifts (Exponential_1P l) g (Exponential_2P l g)
| S_lognormal m s g : shifts (Lognormal_2P m s) g (Lognormal_3P m s g)
| S_gamma a b g : shifts (Gamma_2P a b) g (Gamma_3P a b g)
| S_gamma_mb m b g : shifts (Gamma_2P_mb m b) g (Gamma_3P_mbg m b g)
| S_loglogistic a b g : shifts (Loglogistic_2P a b) g (Loglogistic_3P a b g).
