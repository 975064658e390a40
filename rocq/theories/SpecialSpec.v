(** Specification of what the fitters of combined Weibull models report. *)
From Coquelicot Require Import Coquelicot.
From Coq Require Import String.
From Coq Require Import List Arith Reals.
From Verif Require Import Base Ext RList ConvertModel DistModel CombModel CombSpec NonparModel CIModel SelModel InputModel FitModel FitSpec RegModel FArgModel FArgSpec FullFitSpec SpecialModel.
Import ListNotations.
Open Scope R_scope.

(** The fitters meant: two Weibull distributions mixed or competing; one Weibull distribution with a part of
    the items that never fail (1 - DS) and a part that fails at time zero (ZI). *)
Definition combined (d : dname) : Prop :=
  d = D_Weibull_Mixture \/ d = D_Weibull_CR \/ d = D_Weibull_DSZI \/ d = D_Weibull_DS \/ d = D_Weibull_ZI.
Definition with_zeros (d : dname) : Prop := d = D_Weibull_DSZI \/ d = D_Weibull_ZI.
Definition n_special (d : dname) : nat :=
  match d with D_Weibull_Mixture => 5 | D_Weibull_CR | D_Weibull_DSZI => 4 | _ => 3 end.

(** The object with the parameters of a list, in the order of the table of results. *)
Definition combination (d : dname) (p : list R) : option fitted :=
  match d, p with
  | D_Weibull_Mixture, [a1; b1; a2; b2; q] => Some (Mixture [Weibull a1 b1 0; Weibull a2 b2 0] [q; 1 - q])
  | D_Weibull_CR, [a1; b1; a2; b2] => Some (CompetingRisks [Weibull a1 b1 0; Weibull a2 b2 0])
  | D_Weibull_DSZI, [a; b; ds; zi] => Some (Dszi (Some ds) (Some zi) (Weibull a b 0))
  | D_Weibull_DS, [a; b; ds] => Some (Dszi (Some ds) None (Weibull a b 0))
  | D_Weibull_ZI, [a; b; zi] => Some (Dszi None (Some zi) (Weibull a b 0))
  | _, _ => None
  end.
(** Parameters such a model can have. *)
Definition sensible (d : dname) (p : list R) : Prop :=
  match d, p with
  | D_Weibull_Mixture, [a1; b1; a2; b2; q] => 0 < a1 /\ 0 < b1 /\ 0 < a2 /\ 0 < b2 /\ 0 < q < 1
  | D_Weibull_CR, [a1; b1; a2; b2] => 0 < a1 /\ 0 < b1 /\ 0 < a2 /\ 0 < b2
  | D_Weibull_DSZI, [a; b; ds; zi] => 0 < a /\ 0 < b /\ 0 <= zi /\ zi < ds /\ ds <= 1
  | D_Weibull_DS, [a; b; ds] => 0 < a /\ 0 < b /\ 0 < ds <= 1
  | D_Weibull_ZI, [a; b; zi] => 0 < a /\ 0 < b /\ 0 <= zi < 1
  | _, _ => False
  end.
(** The probability of a failure at time zero. *)
Definition mass_at_zero (d : dname) (p : list R) : R :=
  match d, p with
  | D_Weibull_DSZI, [_; _; _; zi] => zi
  | D_Weibull_ZI, [_; _; zi] => zi
  | _, _ => 0
  end.

(** The data of a call: the failures at time zero, which only the zero inflated models count, the failures
    after that, F, and the censored times, C. [shown]: the failures whose plotting positions are used. *)
Definition data_of (d : dname) (a : fit_args) (zeros shown F C : list R) : Prop :=
  exists raw rc, a_failures a = D_seq raw /\ (a_right_censored a = D_seq rc \/ (a_right_censored a = D_none /\ rc = [])) /\
    sublist_of (fun t => t <> 0) raw F /\ sublist_of (fun t => t <> 0) rc C /\
    (with_zeros d -> shown = raw /\ sublist_of (fun t => t = 0) raw zeros) /\
    (~ with_zeros d -> shown = F /\ zeros = []).

(** What is assumed of an optimizer: when it reports success, its answer is within the bounds; and, for the
    model with both, the part failing at zero is smaller than the part that can fail. *)
Definition answers_within (minimize : list (option R * option R) -> opt -> (list R -> R) -> list R -> bool * list R) : Prop :=
  forall b o f g, fst (minimize b o f g) = true -> Forall2 within b (snd (minimize b o f g)).
Definition answers_ordered (minimize : list (option R * option R) -> opt -> (list R -> R) -> list R -> bool * list R) : Prop :=
  forall o f g, fst (minimize (special_bounds D_Weibull_DSZI) o f g) = true ->
    nth 3 (snd (minimize (special_bounds D_Weibull_DSZI) o f g)) 0 < nth 2 (snd (minimize (special_bounds D_Weibull_DSZI) o f g)) 0.

(** Where the search starts. A fitter of two Weibull distributions divides the data at some time and fits
    each side; the share of the first side starts the proportion. The others fit the failures after time zero
    (ZI: with the censored times); DS starts at the largest plotting position and ZI at the share of zeros.
    [fit2 CI optimizer F C p]: Fit_Weibull_2P, called with these arguments, reports the parameters p; o: the
    optimizer the user named. *)
Definition starts_at (d : dname) (fit2 : R -> option string -> list R -> data -> list R -> Prop) (largest : list R -> list R -> R -> Prop)
  (a : fit_args) (o : option string) (zeros shown F C g : list R) : Prop :=
  let n := INR (length shown + length C) in
  match d with
  | D_Weibull_Mixture => exists line F1 F2 C1 C2 a1 b1 a2 b2,
      sublist_of (fun t => t < line) F F1 /\ sublist_of (fun t => ~ t < line) F F2 /\ sublist_of (fun t => t < line) C C1 /\ sublist_of (fun t => ~ t < line) C C2 /\
      fit2 (95 / 100) o F1 (D_seq C1) [a1; b1] /\ fit2 (95 / 100) o F2 (D_seq C2) [a2; b2] /\
      g = [a1; b1; a2; b2; INR (length F1 + length C1) / n]
  | D_Weibull_CR => exists line F1 F2 C1 C2 a1 b1 a2 b2,
      sublist_of (fun t => t < line) F F1 /\ sublist_of (fun t => ~ t < line) F F2 /\ sublist_of (fun t => t < line) C C1 /\ sublist_of (fun t => ~ t < line) C C2 /\
      fit2 (95 / 100) None F1 (D_seq C1) [a1; b1] /\ fit2 (95 / 100) None F2 (D_seq C2) [a2; b2] /\
      g = [a1; b1; a2; b2]
  | D_Weibull_DSZI => exists ds a1 b1, largest shown C ds /\ fit2 (95 / 100) o F D_none [a1; b1] /\ g = [a1; b1; ds; INR (length zeros) / n]
  | D_Weibull_DS => exists ds a1 b1, largest shown C ds /\ fit2 (95 / 100) o F D_none [a1; b1] /\ g = [a1; b1; ds]
  | _ => exists a1 b1, fit2 (snd (a_CI a)) o F (D_seq C) [a1; b1] /\ g = [a1; b1; INR (length zeros) / n]
  end.
