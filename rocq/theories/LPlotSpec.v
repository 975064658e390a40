(** Specifications for likelihood_plot. *)
From Coquelicot Require Import Coquelicot.
From Coq Require Import String.
From Coq Require Import List Arith Reals.
From Verif Require Import Base Ext RList DistModel CombSpec FitModel FitSpec SelModel.
Import ListNotations.
Open Scope R_scope.

(** The names accepted, in any case, and the model each stands for, with its two parameters. *)
Definition documented_names : list (string * dname * (R -> R -> fitter)) :=
  [("WEIBULL", D_Weibull_2P, Weibull_2P); ("WEIBULL_2P", D_Weibull_2P, Weibull_2P); ("WEIBULL2P", D_Weibull_2P, Weibull_2P);
   ("NORMAL", D_Normal_2P, Normal_2P); ("NORMAL_2P", D_Normal_2P, Normal_2P); ("NORMAL2P", D_Normal_2P, Normal_2P);
   ("GAMMA", D_Gamma_2P, Gamma_2P); ("GAMMA_2P", D_Gamma_2P, Gamma_2P); ("GAMMA2P", D_Gamma_2P, Gamma_2P);
   ("LOGLOGISTIC", D_Loglogistic_2P, Loglogistic_2P); ("LOGLOGISTIC_2P", D_Loglogistic_2P, Loglogistic_2P); ("LOGLOGISTIC2P", D_Loglogistic_2P, Loglogistic_2P);
   ("LOGNORMAL", D_Lognormal_2P, Lognormal_2P); ("LOGNORMAL_2P", D_Lognormal_2P, Lognormal_2P); ("LOGNORMAL2P", D_Lognormal_2P, Lognormal_2P);
   ("GUMBEL", D_Gumbel_2P, Gumbel_2P); ("GUMBEL_2P", D_Gumbel_2P, Gumbel_2P); ("GUMBEL2P", D_Gumbel_2P, Gumbel_2P);
   ("BETA", D_Beta_2P, Beta_2P); ("BETA_2P", D_Beta_2P, Beta_2P); ("BETA2P", D_Beta_2P, Beta_2P)]%string.

Definition censored (right_censored : option (list R)) : list R := match right_censored with None => [] | Some l => l end.

(** L is the likelihood of the data under the model f: the product of the densities at the
    failures and the survival probabilities of the censored items. *)
Definition data_likelihood (f : fitter) (failures : list R) (right_censored : option (list R)) (L : R) : Prop :=
  exists P S, Forall2 (density_at (distribution f)) failures P /\ Forall2 (survival_at (distribution f)) (censored right_censored) S /\
    L = rprod P * rprod S.

(** The values of a grid reach from below l to above u. *)
Definition covers (grid : list R) (l u : R) : Prop := exists lo hi, In lo grid /\ In hi grid /\ lo <= l /\ u <= hi.
