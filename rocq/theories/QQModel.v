(** Model of PP_plot_parametric, QQ_plot_parametric, PP_plot_semiparametric,
    QQ_plot_semiparametric and plot_points (Probability_plotting.py): the points drawn and the
    values returned. Downsampling (off by default) and the drawing are left out. *)
From Coquelicot Require Import Coquelicot.
From Coq Require Import String.
From Coq Require Import List Arith Reals Lra Lia Bool.
From Verif Require Import Base Ext Linear NonparModel RepairModel TestingModel DistModel DistSpec CombModel RegModel PoFModel SelModel.
Import ListNotations.
Open Scope R_scope.

Fixpoint all_ok {A} (l : list (result A)) : result (list A) :=
  match l with
  | [] => Ok []
  | x :: r => let! v := x in let! t := all_ok r in Ok (v :: t)
  end.

(** ** PP_plot_parametric, 2088-2094. The quantile lines are in InputModel. *)
Definition pp_grid (X Y : dist) : list R :=
  linspace (Rmin (ppf X (1 / 100)) (ppf Y (1 / 100))) (Rmax (ppf X (99 / 100)) (ppf Y (99 / 100))) 100.
Definition PP_plot_parametric (X Y : dist) : result (list (R * R)) :=
  let xvals := pp_grid X Y in
  let! x := CDF X xvals in
  let! y := CDF Y xvals in
  Ok (combine x y).

(** ** The fitted lines: np.linalg.lstsq of y on x (the least norm solution if all x are 0)
    and np.polyfit of degree 1; None: rank deficient. 2270-2271 and 2696-2697 *)
Definition lstsq1 (x y : list R) : R := match solve1 x y with Some m => m | None => 0 end.
Definition fitted_lines (x y : list R) : R * option (R * R) := (lstsq1 x y, polyfit1 x y).

(** ** QQ_plot_parametric, 2238-2271: the points and [m, m1, c1] *)
Definition QQ_plot_parametric (X Y : dist) : result (list (R * R) * (R * option (R * R))) :=
  let xvals := linspace (1 / 100) (99 / 100) 100 in
  let! x := all_ok (map (inverse_SF X) xvals) in
  let! y := all_ok (map (inverse_SF Y) xvals) in
  Ok (combine x y, fitted_lines x y).

(** ** The empirical distribution function at the failures, 2432-2469 and 2617-2654. The
    estimators are called with the default CI. [rows]: the data sorted by the estimator. *)
Definition ecdf_entries (method : string) (a : option R) (rows : list (R * bool)) : result (list entry) :=
  if String.eqb method "KM" then kaplan_meier (95 / 100) rows
  else if String.eqb method "NA" then let! es := nelson_aalen (95 / 100) rows in Ok (map snd es)
  else if String.eqb method "RA" then let! r := rank_adjustment (95 / 100) a rows in Ok (ra_entries r)
  else Err ValueError.
Definition ecdf (method : string) (a : option R) (rows : list (R * bool)) : result (list R) :=
  let! es := ecdf_entries method a rows in Ok (map (fun e => 1 - e_est e) (filter e_code es)).

(** ** PP_plot_semiparametric, 2404-2484 *)
Definition PP_plot_semiparametric (method : string) (a : option R) (failures : list R) (rows : list (R * bool)) (Y : dist) : result (list (R * R)) :=
  let X_data_failures := isort Rleb failures in
  let! e := ecdf method a rows in
  let! c := CDF Y X_data_failures in
  Ok (combine e c).

(** ** QQ_plot_semiparametric, 2590-2719. inverse_SF of 1 is the lower end of the support, -inf is
    replaced by 0 (2661); inverse_SF of 0 is the upper end, inf or 1 (Beta). *)
Definition qq_quantile (Y : dist) (q : R) : ext :=
  if Req_EM_T q 1 then Fin match supp_lo Y with Finite l => l | _ => 0 end
  else if Req_EM_T q 0 then match supp_hi Y with Finite h => Fin h | _ => PInf end
  else Fin (isf Y q).
Definition QQ_plot_semiparametric (method : string) (a : option R) (failures : list R) (rows : list (R * bool)) (Y : dist) : result (list (R * ext)) :=
  let X_data_failures := isort Rleb failures in
  let! e := ecdf method a rows in
  let! y := all_ok (map (fun q => if Rlt_dec q 0 then Err ValueError else if Rlt_dec 1 q then Err ValueError else Ok (qq_quantile Y q)) e) in
  Ok (combine X_data_failures (rev y)).
(** The lines fitted through the points, 2694-2697; with an infinite point polyfit fails: not
    modelled. *)
Definition qq_lines (pts : list (R * R)) : R * option (R * R) := fitted_lines (map fst pts) (map snd pts).

(** ** plot_points, 2786-2818. [xy]: the result of plotting_positions (sort=False). [None]: not a
    finite number (a division by 0, the logarithm of 0). *)
Fixpoint diffs (prev : R) (l : list R) : list R := match l with [] => [] | v :: r => v - prev :: diffs v r end.
Definition slope_abs (dy dx : R) : option R := if Req_EM_T dx 0 then None else Some (Rabs (dy / dx)).
Definition chf_of (y : R) : option R := if Rlt_dec y 1 then Some (- ln (1 - y)) else None.
Fixpoint hf_points (prev_t : R) (prev_h : option R) (l : list (R * R)) : list (option R) :=
  match l with
  | [] => []
  | (t, y) :: r =>
      match prev_h, chf_of y with
      | Some h0, Some h1 => slope_abs (h1 - h0) (t - prev_t)
      | _, _ => None
      end :: hf_points t (chf_of y) r
  end.
Definition plot_points (func : string) (failures : list R) (xy : list R * list R) : result (list (R * option R)) :=
  if (length failures <? 1)%nat then Err ValueError
  else
    let '(x, y) := xy in
    if str_in func ["pdf"; "PDF"]%string then Ok (combine x (zip slope_abs (diffs 0 y) (diffs 0 x)))
    else if str_in func ["cdf"; "CDF"]%string then Ok (combine x (map Some y))
    else if str_in func ["sf"; "SF"]%string then Ok (combine x (map (fun y => Some (1 - y)) y))
    else if str_in func ["hf"; "HF"]%string then Ok (combine x (hf_points 0 (Some 0) (combine x y)))
    else if str_in func ["chf"; "CHF"]%string then Ok (combine x (map chf_of y))
    else Err ValueError.
