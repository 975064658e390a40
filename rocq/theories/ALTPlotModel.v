(** Model of the plots of the accelerated life test fitters: make_fitted_dist_params_for_ALT_probplots,
    ALT_prob_plot and life_stress_plot (Utils.py 6364-6970). Labels, legends, ticks and the choice of the figure are left
    out, and so is ax = False, which draws nothing. The names of the distribution and of the model are those of the
    fitters, which are always known. *)
From Coquelicot Require Import Coquelicot.
From Coq Require Import String.
From Coq Require Import List Arith Reals Bool.
From Verif Require Import Base NonparModel RepairModel DistModel CIModel PlotModel FArgModel OtherModel ALTModel PPlotModel.
Import ListNotations.
Open Scope R_scope.

(** l[i] *)
Definition item {A} (l : list A) (i : nat) : result A := match nth_error l i with Some x => Ok x | None => Err IndexError end.
(** color_cycle: matplotlib's default has ten colours (rcParams["axes.prop_cycle"]), 6531-6533 and 6769-6771. *)
Definition color_cycle : nat := 10.
Definition colour (i : nat) : result nat := if (i <? color_cycle)%nat then Ok i else Err IndexError.

(** ** ALT_prob_plot *)

(** Which probability plot: 6499-6521. *)
Definition kind_of (d : alt_dist) : kind :=
  match d with A_Weibull => K_Weibull | A_Lognormal => K_Lognormal | A_Normal => K_Normal | A_Exponential => K_Exponential_W end.
(** make_fitted_dist_params_for_ALT_probplots, 6410-6438. *)
Definition fitted_params (d : alt_dist) (life shape : R) : dist :=
  match d with
  | A_Weibull => Weibull life shape 0
  | A_Lognormal => Lognormal (ln life) shape 0
  | A_Normal => Normal life shape
  | A_Exponential => Exponential (1 / life) 0
  end.
(** The standard errors are None, so that no bounds are drawn. *)
Definition no_errors : covs := {| se_a := 0; se_b := 0; cov_ab := 0 |}.
(** The call of the probability plot, 6551-6561 and 6628-6634. *)
Definition group_args (f : list R) (rc : option (list R)) (D : dist) : plot_args :=
  mkPlotArgs (D_seq f) (match rc with Some l => D_seq l | None => D_none end) Is_false (Some (D, no_errors)) None (95 / 100) Is_true Is_true DF_False.
(** The dashed line, 6563-6574 and 6636-6646. [o]: scale and shape found for this stress alone, None for "". *)
Definition dashed (d : alt_dist) (o : option (R * R)) : option dist :=
  match o with
  | None => None
  | Some (scale, shape) =>
      Some match d with
           | A_Exponential => Exponential (1 / scale) 0
           | A_Weibull => Weibull scale shape 0
           | A_Lognormal => Lognormal scale shape 0
           | A_Normal => Normal scale shape
           end
  end.
(** distribution_at_use_stress, 6577-6590 and 6648-6660. *)
Definition at_use (d : alt_dist) (life shape : R) : dist :=
  match d with
  | A_Weibull => Weibull life shape 0
  | A_Normal => Normal life shape
  | A_Lognormal => Lognormal (ln life) shape 0
  | A_Exponential => Exponential (1 / life) 0
  end.
Record group_plot := mkGroup { b_plot : plotted; b_dashed : option dist; b_colour : nat }.
Record alt_plot := mkAltPlot { b_groups : list group_plot; b_use : option (dist * nat); b_xlim : R * R; b_ylim : R * R }.

(** The loops 6537-6574 (two stresses) and 6613-6646 (one stress), which differ in the arguments of [life] only:
    its second argument is not used by the models of one stress. The result has the plotting positions of all groups
    (x_array, y_array) and what is drawn. *)
Fixpoint draw_groups (fit : kind -> bool -> list R -> option (list R) -> R -> result (dist * covs)) (sort : list (nat * row) -> list (nat * row))
    (d : alt_dist) (life : R * R -> R) (shape : R) (fg : list (list R)) (cg : option (list (list R))) (originals : list (option (R * R)))
    (i : nat) (stresses : list (R * R)) : result (list R * list R * list group_plot) :=
  match stresses with
  | [] => Ok ([], [], [])
  | s :: rest =>
      let! f := item fg i in
      let! rc := match cg with None => Ok None | Some g => let! l := item g i in Ok (Some l) end in
      let! xy := plotting_positions_unsorted None (sort (indexed (all_rows f (match rc with Some l => l | None => [] end)))) in
      let! c := colour i in
      let! p := probability_plot fit sort (kind_of d) (group_args f rc (fitted_params d (life s) shape)) in
      let! o := item originals i in
      let! more := draw_groups fit sort d life shape fg cg originals (S i) rest in
      Ok (fst xy ++ fst (fst more), snd xy ++ snd (fst more), mkGroup p (dashed d o) c :: snd more)
  end.
(** 6673-6677: dist.lower(), "weibull" for Exponential. *)
Definition final_axes (d : alt_dist) : plot_dist :=
  match d with A_Weibull | A_Exponential => L_weibull | A_Lognormal => L_lognormal | A_Normal => L_normal end.
(** The whole of ALT_prob_plot. Without stresses the variable i is unbound. *)
Definition ALT_prob_plot (fit : kind -> bool -> list R -> option (list R) -> R -> result (dist * covs)) (sort : list (nat * row) -> list (nat * row))
    (d : alt_dist) (stresses : list (R * R)) (fg : list (list R)) (cg : option (list (list R))) (life : R * R -> R) (shape : R)
    (originals : list (option (R * R))) (use : option (R * R)) : result alt_plot :=
  let! g := draw_groups fit sort d life shape fg cg originals 0 stresses in
  let '(x, y, groups) := g in
  let! u := match use with
            | None => Ok None
            | Some s =>
                match stresses with
                | [] => Err NameError
                | _ :: r => let! c := colour (length r + 1) in Ok (Some (at_use d (life s) shape, c))
                end
            end in
  let x' := match u with Some (D, _) => x ++ [ppf D (rmin y); ppf D (rmax y)] | None => x end in
  let! lims := probability_plot_xylims (final_axes d) (1 / 10) x' y in
  Ok (mkAltPlot groups u (fst lims) (snd lims)).

(** The call at the end of every fitter, e.g. ALT_fitters.py 3197-3209 (one stress), 4613-4625 (two). *)
Definition fitter_prob_plot (fit : kind -> bool -> list R -> option (list R) -> R -> result (dist * covs)) (sort : list (nat * row) -> list (nat * row))
    (d : alt_dist) (m : ls_model) (k : alt_checked) (r : alt_result) : result alt_plot :=
  ALT_prob_plot fit sort d (k_stresses k) (k_failure_groups k) (k_censored_groups k) (fun s => alt_life m (a_params r) (fst s) (snd s)) (a_shape r)
    (map h_original (a_change r)) (k_use k).

(** ** life_stress_plot for one stress, 6864-6970 *)

(** What is drawn: the line (without its point at stress 0, where the life is inf, nan or 0), the failures of each group, the line that marks the use
    stress, the limits. [left]: plt.xlim()[0] while drawing, which matplotlib chose. *)
Record ls_plot := mkLsPlot { e_line : list (R * R); e_points : list (list (R * R)); e_use : option (list (R * R)); e_xlim : R * R; e_ylim : R * R }.
Definition flip (swap : bool) (p : R * R) : R * R := if swap then (snd p, fst p) else p.
(** 6865-6873: the limits of the stress. *)
Definition stress_limits (lo hi : R) : R * R :=
  let delta := ln hi - ln lo in (exp (ln lo - delta * (2 / 10)), exp (ln hi + delta * (2 / 10))).
Fixpoint ls_groups (swap : bool) (fg : list (list R)) (i : nat) (stresses : list R) : result (list (list (R * R))) :=
  match stresses with
  | [] => Ok []
  | s :: rest =>
      let! f := item fg i in
      let! _ := colour i in
      let! more := ls_groups swap fg (S i) rest in
      Ok (map (fun t => flip swap (s, t)) f :: more)
  end.
Definition life_stress_plot (life : R -> R) (fg : list (list R)) (stresses : list R) (use : option R) (swap : bool) (left : R) : result ls_plot :=
  match stresses with
  | [] => Err ValueError
  | _ :: r =>
      let lo := match use with Some u => Rmin (rmin stresses) u | None => rmin stresses end in
      let lim := stress_limits lo (rmax stresses) in
      let line := map (fun s => flip swap (s, life s)) (tl (linspace 0 (snd lim * 10) 1000)) in
      let! points := ls_groups swap fg 0 stresses in
      let! mark := match use with
                   | None => Ok None
                   | Some u => let! _ := colour (length r + 1) in
                               Ok (Some (if swap then [(- 10 ^ 20, u); (life u, u); (life u, left)] else [(u, - 10 ^ 20); (u, life u); (left, life u)]))
                   end in
      match concat fg with
      | [] => Err ValueError
      | _ => let lifes := (0, 12 / 10 * Rmax (life (fst lim)) (rmax (concat fg))) in
             Ok (mkLsPlot line points mark (if swap then lifes else lim) (if swap then lim else lifes))
      end
  end.

(** ** life_stress_plot for two stresses, 6790-6861. The upper limit of the life axis is matplotlib's. *)
Record ls_surface := mkSurface { e_grid : list (R * R * R); e_points3 : list (list (R * R * R)); e_use3 : option (R * R * R); e_xlim3 : R * R; e_ylim3 : R * R }.
Fixpoint ls_groups3 (fg : list (list R)) (i : nat) (stresses : list (R * R)) : result (list (list (R * R * R))) :=
  match stresses with
  | [] => Ok []
  | s :: rest =>
      let! f := item fg i in
      let! _ := colour i in
      let! more := ls_groups3 fg (S i) rest in
      Ok (map (fun t => (s, t)) f :: more)
  end.
Definition life_stress_surface (life : R * R -> R) (fg : list (list R)) (stresses : list (R * R)) (use : option (R * R)) : result ls_surface :=
  let all := stresses ++ match use with Some u => [u] | None => [] end in
  match stresses with
  | [] => Err ValueError
  | _ :: r =>
      let lim1 := stress_limits (rmin (map fst all)) (rmax (map fst all)) in
      let lim2 := stress_limits (rmin (map snd all)) (rmax (map snd all)) in
      let a1 := linspace (fst lim1) (snd lim1) 50 in
      let a2 := linspace (fst lim2) (snd lim2) 50 in
      let grid := flat_map (fun s2 => map (fun s1 => ((s1, s2), life (s1, s2))) a1) a2 in
      let! points := ls_groups3 fg 0 stresses in
      let! mark := match use with None => Ok None | Some u => let! _ := colour (length r + 1) in Ok (Some (u, life u)) end in
      Ok (mkSurface grid points mark (rmin a1, rmax a1) (rmin a2, rmax a2))
  end.

(** The calls at the end of the fitters, ALT_fitters.py 3212-3220 (one stress; swap_xy is False), 4627-4635 (two stresses). *)
Definition fitter_life_stress (m : ls_model) (k : alt_checked) (r : alt_result) (left : R) : result ls_plot :=
  life_stress_plot (fun s => alt_life m (a_params r) s 0) (k_failure_groups k) (map fst (k_stresses k)) (option_map fst (k_use k)) false left.
Definition fitter_surface (m : ls_model) (k : alt_checked) (r : alt_result) : result ls_surface :=
  life_stress_surface (fun s => alt_life m (a_params r) (fst s) (snd s)) (k_failure_groups k) (k_stresses k) (k_use k).
