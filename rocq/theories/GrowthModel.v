(** Model of the rest of reliability_growth in /repo/reliability/Repairable_systems.py:90-275:
    the checks of the arguments, the straight line of the Duane model, the results and what is
    drawn.  The estimates of the two models are in RepairModel.v.

    Floats are reals.  Not modelled: printing, colours, labels, the legend and the tick format. *)
From Coquelicot Require Import Coquelicot.
From Coq Require Import String.
From Coq Require Import List Arith Reals Bool.
From Verif Require Import Base NonparModel RList ConvertModel RepairModel RegModel CIModel.
Import ListNotations.
Open Scope R_scope.

(** The values of the argument [model]: a string or something else. *)
Inductive name_arg := N_Str (s : string) | N_Other.
Inductive gmodel := G_Duane | G_Crow.

(** Repairable_systems.py:110-125. *)
Definition duane_names : list string := ["DUANE"; "D"]%string.
Definition crow_names : list string := ["CROW AMSAA"; "CROW-AMSAA"; "CROWAMSAA"; "CROW"; "AMSAA"; "CA"; "C"]%string.
Definition resolve_model (m : name_arg) : result gmodel :=
  match m with
  | N_Other => Err ValueError
  | N_Str s =>
    if existsb (String.eqb (upper s)) duane_names then Ok G_Duane
    else if existsb (String.eqb (upper s)) crow_names then Ok G_Crow
    else Err ValueError
  end.

(** Repairable_systems.py:126-129: times / failure_numbers, for the sorted times. *)
Definition mtbf_c (times : list R) : list R :=
  map (fun p => fst p / INR (snd p)) (combine times (seq 1 (length times))).

(** What was fitted. *)
Inductive fitted := F_Crow (c : crow) | F_Duane (d : duane).

(** Repairable_systems.py:130-150.  np.polyfit(x, y, 1) solves the normal equations of the
    least squares line; when they are singular numpy warns and returns another solution:
    [Ok None], as when a result is not finite. *)
Definition fit_growth (m : gmodel) (times : list R) : result (option fitted) :=
  match m with
  | G_Crow => let! o := crow_amsaa times in Ok (match o with Some c => Some (F_Crow c) | None => None end)
  | G_Duane =>
    Ok (match solve2 (map ln times) (map ln (mtbf_c times)) with
        | Some (z0, z1) => Some (F_Duane (duane_model (rmax times) z0 z1))
        | None => None
        end)
  end.

(** Repairable_systems.py:152-160.  [Some None]: no target given; [None]: the time is not
    finite (exponent 1/0) or not a number (power of a number that is not positive). *)
Definition target_time (f : fitted) (target : option R) : option (option R) :=
  match target with
  | None => Some None
  | Some t =>
    if Rleb t 0 then None else
    match f with
    | F_Crow c => if Req_EM_T (Beta c) 1 then None else Some (Some (crow_time_to_target c t))
    | F_Duane d => if Req_EM_T (Alpha d) 0 then None else Some (Some (duane_time_to_target d t))
    end
  end.

(** np.floor(np.log10(v)), np.ceil(np.log10(v)) and 10 ** k. *)
Definition log10 (v : R) : R := ln v / ln 10.
Definition ten_below (v : R) : R := Rpower 10 (IZR (Int_part (log10 v))).
Definition ten_above (v : R) : R := Rpower 10 (IZR (- Int_part (- log10 v))).

(** The growth curve: Repairable_systems.py:199-202, [b] is 1 / A. *)
Definition growth_curve (f : fitted) (x : R) : R :=
  match f with
  | F_Crow c => 1 / (Lambda c * Rpower x (Beta c - 1))
  | F_Duane d => 1 / A d * Rpower x (Alpha d)
  end.

Record growth_plot := mkGrowthPlot {
  gp_curve : list (R * R); gp_points : list (R * R); gp_target : list (R * R);
  gp_xlim : R * R; gp_ylim : R * R; gp_log : bool }.

(** np.geomspace(0.00001, xmax * 100, 1000). *)
Definition geomspace (lo hi : R) (n : nat) : list R := map exp (linspace (ln lo) (ln hi) n).

(** Repairable_systems.py:190-275.  [t_target] is 0 without a target.  On linear axes the first
    point of the curve, at x = 0, is left out: 0 ** y may be infinite. *)
Definition draw_growth (f : fitted) (times : list R) (target t_target : option R) (log_scale : bool) : growth_plot :=
  let tt := match t_target with Some t => t | None => 0 end in
  let m := mtbf_c times in
  let xmax := if log_scale then ten_above (Rmax (rmax times) tt) else Rmax (rmax times) tt * 2 in
  let x_array := if log_scale then geomspace (1 / 100000) (xmax * 100) 1000 else tl (linspace 0 xmax 1000) in
  let top := match target with Some t => Rmax (rmax m) t | None => rmax m end in
  mkGrowthPlot
    (map (fun x => (x, growth_curve f x)) x_array)
    (combine times m)
    (match target with Some t => [(0, t); (tt, t); (tt, 0)] | None => [] end)
    (if log_scale then (ten_below (match target with Some t => Rmin (rmin times) t | None => rmin times end), xmax) else (0, xmax))
    (if log_scale then (ten_below (rmin m), ten_above (top * (12 / 10))) else (0, top * (12 / 10)))
    log_scale.

Record growth := mkGrowth { gr_fitted : fitted; gr_time_to_target : option R; gr_plot : option growth_plot }.

(** reliability_growth.__init__.  [times]: [None] is neither a list nor an array; min() of an
    empty list raises ValueError.  [Ok None]: a result is not finite. *)
Definition reliability_growth (times : option (list R)) (target : option R) (show_plot log_scale : bool)
    (model : name_arg) : result (option growth) :=
  match times with
  | None => Err ValueError
  | Some l =>
    let times := isort Rleb l in
    match times with
    | [] => Err ValueError
    | _ =>
      if Rleb (rmin times) 0 then Err ValueError else
      let! m := resolve_model model in
      let! o := fit_growth m times in
      match o with
      | None => Ok None
      | Some f =>
        match target_time f target with
        | None => Ok None
        | Some t => Ok (Some (mkGrowth f t (if show_plot then Some (draw_growth f times target t log_scale) else None)))
        end
      end
    end
  end.
