(** Model of the probability plots: Probability_plotting.py 172-1990. The labels, colours, grid and
    ticks are left out, and so are the warnings and the confidence bounds around the line (CIModel). *)
From Coquelicot Require Import Coquelicot.
From Coq Require Import String.
From Coq Require Import List Arith Reals Bool.
From Verif Require Import Base Gauss NonparModel RepairModel DistModel CIModel PlotModel InputModel FArgModel.
Import ListNotations.
Open Scope R_scope.

(** The nine functions. [K_Exponential_W]: Exponential_probability_plot_Weibull_Scale. *)
Inductive kind := K_Weibull | K_Loglogistic | K_Lognormal | K_Gamma | K_Exponential | K_Exponential_W | K_Normal | K_Gumbel | K_Beta.
(** Which have the argument fit_gamma. *)
Definition has_gamma (k : kind) : bool := match k with K_Normal | K_Gumbel | K_Beta => false | _ => true end.
(** Which need the parameters for the scale of the y-axis: 1483-1487, 1656-1660. *)
Definition always_fitted (k : kind) : bool := match k with K_Gamma | K_Beta => true | _ => false end.
Definition minimum_failures (k : kind) : nat := match k with K_Exponential | K_Exponential_W => 1 | _ => 2 end.

(** A value that should be True or False, tested with "is". *)
Inductive flag := Is_true | Is_false | Is_other.
(** The arguments. [p_fitted]: __fitted_dist_params, the distribution and its standard errors. fit_gamma is ignored by
    the functions without that argument. *)
Record plot_args := mkPlotArgs {
  p_failures : data; p_right_censored : data; p_fit_gamma : flag; p_fitted : option (dist * covs); p_a : option R; p_CI : R;
  p_show_fitted : flag; p_show_scatter : flag; p_downsample : dfactor }.
(** What is drawn: the points, the distribution whose CDF is the line, the limits of the axes, and whether
    the x-axis is called "Time - gamma". *)
Record plotted := mkPlotted {
  d_points : option (list (R * R)); d_line : option (dist * covs); d_xlim : R * R; d_ylim : R * R; d_minus_gamma : bool }.

(** Weibull_Distribution(alpha=alpha, beta=beta, ...) without gamma: 347-355 and likewise. *)
Definition without_gamma (d : dist) : dist :=
  match d with
  | Weibull a b _ => Weibull a b 0
  | Lognormal m s _ => Lognormal m s 0
  | Exponential l _ => Exponential l 0
  | Gamma a b _ => Gamma a b 0
  | Loglogistic a b _ => Loglogistic a b 0
  | _ => d
  end.
(** The name given to probability_plot_xylims and the parameters of the y-axis. *)
Definition axes_of (k : kind) (d : option dist) : plot_dist :=
  match k with
  | K_Weibull | K_Exponential_W => L_weibull
  | K_Loglogistic => L_loglogistic
  | K_Lognormal => L_lognormal
  | K_Gamma => L_gamma (match d with Some (Gamma _ b _) => b | _ => 1 end)
  | K_Exponential => L_exponential
  | K_Normal => L_normal
  | K_Gumbel => L_gumbel
  | K_Beta => match d with Some (DistModel.Beta a b) => L_beta a b | _ => L_beta 1 1 end
  end.
(** failures - gamma, 341-344; with an adjustment of 0.009 in 801-808. *)
Definition shift_of (k : kind) (gamma : R) (t : R) : R := match k with K_Exponential_W => t - gamma + 9 / 1000 | _ => t - gamma end.

(** The distribution and whether the times are shifted: 275-345 and likewise. [fit k located failures
    right_censored CI]: the result of Fit_Weibull_3P and so on if located, else of Fit_Weibull_2P and so on. The fitters
    of 946, 1110, 1292, 1325, 1495, 1678 and 1715 are called without CI, which does not influence the parameters. A fit_gamma that is
    neither True nor False leaves the parameters unbound: UnboundLocalError, a NameError. *)
Definition choose_dist (fit : kind -> bool -> list R -> option (list R) -> R -> result (dist * covs)) (k : kind) (a : plot_args) (f : list R) (rc : option (list R)) : result ((dist * covs) * bool) :=
  if Rleb (p_CI a) 0 || Rleb 1 (p_CI a) then Err ValueError
  else if has_gamma k then
    let fit_gamma := match p_fitted a with Some (d, _) => if Rlt_dec 0 (dist_gamma d) then Is_true else p_fit_gamma a | None => p_fit_gamma a end in
    match fit_gamma with
    | Is_false => match p_fitted a with Some d => Ok (d, false) | None => let! d := fit k false f rc (p_CI a) in Ok (d, false) end
    | Is_true => match p_fitted a with Some d => Ok (d, true) | None => let! d := fit k true f rc (p_CI a) in Ok (d, true) end
    | Is_other => Err NameError
    end
  else match p_fitted a with Some d => Ok (d, false) | None => let! d := fit k false f rc (p_CI a) in Ok (d, false) end.

Definition flagged (b : flag) : bool := match b with Is_true => true | _ => false end.
(** The whole function. [sort]: what pandas' sort_values(by="times") makes of the table in plotting_positions. The
    length of a failures of another class is taken before its class is looked at: ValueError in any case; a
    class without a length (TypeError) is left out. *)
Definition probability_plot (fit : kind -> bool -> list R -> option (list R) -> R -> result (dist * covs)) (sort : list (nat * row) -> list (nat * row))
    (k : kind) (a : plot_args) : result plotted :=
  match p_failures a with
  | D_none | D_other => Err ValueError
  | D_seq f =>
      if (length f =? 0)%nat then Err ValueError
      else if (length f <? minimum_failures k)%nat && (match p_fitted a with None => true | Some _ => false end) then Err ValueError
      else
        let! rc := match p_right_censored a with D_none => Ok None | D_seq l => Ok (Some l) | D_other => Err ValueError end in
        let! chosen := if flagged (p_show_fitted a) || always_fitted k then let! c := choose_dist fit k a f rc in Ok (Some c) else Ok None in
        let shift := match chosen with Some ((d, _), true) => shift_of k (dist_gamma d) | _ => fun t => t end in
        let f' := map shift f in
        let rc' := match rc with Some l => map shift l | None => [] end in
        let! xy := plotting_positions_unsorted (p_a a) (sort (indexed (all_rows f' rc'))) in
        let! points := if flagged (p_show_scatter a) then
                         let! s := xy_downsample (fst xy) (snd xy) (p_downsample a) 1000 in Ok (Some (combine (fst s) (snd s)))
                       else Ok None in
        let line := if flagged (p_show_fitted a) then option_map (fun c => (without_gamma (fst (fst c)), snd (fst c))) chosen else None in
        let! lims := probability_plot_xylims (axes_of k (option_map (fun c => fst (fst c)) chosen)) (1 / 10) (fst xy) (snd xy) in
        Ok (mkPlotted points line (fst lims) (snd lims) (match chosen with Some (_, b) => b | None => false end))
  end.
