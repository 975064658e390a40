(** Specification for C131: what a probability plot shows. *)
From Coquelicot Require Import Coquelicot.
From Coq Require Import List Arith Reals Bool.
From Verif Require Import Base NonparModel DistModel CIModel DistSpec PlotModel QQSpec FArgModel PPlotModel.
Import ListNotations.
Open Scope R_scope.

(** Any outcome of sorting by time. *)
Definition sorts (sort : list (nat * row) -> list (nat * row)) : Prop := forall f rc, sorted_data f rc (sort (indexed (all_rows f rc))).
(** The family of distributions a plot is for. *)
Definition of_kind (k : kind) (d : dist) : Prop :=
  match k, d with
  | K_Weibull, Weibull _ _ _ | K_Loglogistic, Loglogistic _ _ _ | K_Lognormal, Lognormal _ _ _ | K_Gamma, Gamma _ _ _
  | K_Exponential, Exponential _ _ | K_Exponential_W, Exponential _ _ | K_Normal, Normal _ _ | K_Gumbel, Gumbel _ _
  | K_Beta, DistModel.Beta _ _ => True
  | _, _ => False
  end.
(** The censored times of the call. *)
Definition censored (a : plot_args) : list R := match p_right_censored a with D_seq l => l | _ => [] end.
(** The fitted distribution of a plot: the one that was passed, else the result of a fitter. *)
Definition fitted (fit : kind -> bool -> list R -> option (list R) -> R -> result (dist * covs)) (k : kind) (a : plot_args) (f : list R) (d : dist) (c : covs) : Prop :=
  match p_fitted a with
  | Some p => p = (d, c)
  | None => exists located rc, fit k located f rc (p_CI a) = Ok (d, c)
  end.
(** Which distribution is shown and whether its gamma is subtracted from the times ([located]): the one that was passed, with gamma if it has a positive one
    or fit_gamma says so; else the result of the fitter with gamma or the one without, as fit_gamma says. *)
Definition shown (fit : kind -> bool -> list R -> option (list R) -> R -> result (dist * covs)) (k : kind) (a : plot_args) (f : list R) (rc : option (list R))
    (located : bool) (d : dist) (c : covs) : Prop :=
  0 < p_CI a < 1 /\
  match p_fitted a with
  | Some p => p = (d, c) /\ (located = true <-> has_gamma k = true /\ (0 < location d \/ p_fit_gamma a = Is_true)) /\
              (has_gamma k = true -> p_fit_gamma a <> Is_other \/ 0 < location d)
  | None => fit k located f rc (p_CI a) = Ok (d, c) /\ (has_gamma k = true -> p_fit_gamma a = (if located then Is_true else Is_false)) /\ (has_gamma k = false -> located = false)
  end.
(** Fitters return distributions of their family, the two-parameter ones (one-parameter for the Exponential) without gamma. *)
Definition proper_fits (fit : kind -> bool -> list R -> option (list R) -> R -> result (dist * covs)) (a : plot_args) (k : kind) : Prop :=
  (forall located f rc CI d c, fit k located f rc CI = Ok (d, c) -> valid d /\ of_kind k d /\ (located = false -> location d = 0)) /\
  (forall d c, p_fitted a = Some (d, c) -> valid d /\ of_kind k d).
(** The scale of the x-axis. *)
Definition x_scale (k : kind) (x : R) : R := match k with K_Weibull | K_Loglogistic | K_Lognormal | K_Exponential_W => ln x | _ => x end.
Definition log_kind (k : kind) : Prop := match k with K_Weibull | K_Loglogistic | K_Lognormal | K_Exponential_W => True | _ => False end.
(** The scale of the y-axis, the same for all points and the line. *)
Definition y_scale (k : kind) (d : dist) (F : R) : R :=
  match k, d with
  | (K_Weibull | K_Exponential_W), _ => ln (- ln (1 - F))
  | K_Loglogistic, _ => ln (F / (1 - F))
  | (K_Normal | K_Lognormal), _ => ppf (Normal 0 1) F
  | K_Gumbel, _ => ln (- ln (1 - F))
  | K_Exponential, _ => - ln (1 - F)
  | K_Gamma, Gamma _ b _ => ppf (Gamma 1 b 0) F
  | K_Beta, _ => ppf d F
  | _, _ => F
  end.
