(** Model of likelihood_plot: Reliability_testing.py 1297-1543. Colours, labels and the warning
    about the title are left out. *)
From Coquelicot Require Import Coquelicot.
From Coq Require Import String.
From Coq Require Import List Arith Reals Bool.
From Verif Require Import Base Ext RList ConvertModel NonparModel RepairModel DistModel FitModel SelModel TestingModel CIModel.
Import ListNotations.
Open Scope R_scope.

(** The families, 1362-1471: the fitter called and its logf and logR. *)
Definition family (distribution : string) : option (dname * (R -> R -> fitter)) :=
  let u := upper distribution in
  if str_in u ["WEIBULL"; "WEIBULL_2P"; "WEIBULL2P"]%string then Some (D_Weibull_2P, Weibull_2P)
  else if str_in u ["GAMMA"; "GAMMA_2P"; "GAMMA2P"]%string then Some (D_Gamma_2P, Gamma_2P)
  else if str_in u ["LOGLOGISTIC"; "LOGLOGISTIC_2P"; "LOGLOGISTIC2P"]%string then Some (D_Loglogistic_2P, Loglogistic_2P)
  else if str_in u ["BETA"; "BETA_2P"; "BETA2P"]%string then Some (D_Beta_2P, Beta_2P)
  else if str_in u ["NORMAL"; "NORMAL_2P"; "NORMAL2P"]%string then Some (D_Normal_2P, Normal_2P)
  else if str_in u ["LOGNORMAL"; "LOGNORMAL_2P"; "LOGNORMAL2P"]%string then Some (D_Lognormal_2P, Lognormal_2P)
  else if str_in u ["GUMBEL"; "GUMBEL_2P"; "GUMBEL2P"]%string then Some (D_Gumbel_2P, Gumbel_2P)
  else None.

(** LLfunction, 1342-1350 *)
Definition LLfunction (F : R -> R -> fitter) (x y : R) (failures : list R) (right_censored : option (list R)) : R :=
  rsum (map (logf (F x y)) failures)
  + match right_censored with None => 0 | Some rc => rsum (map (logR (F x y)) rc) end.

(** CI, 1357-1360: a float becomes a list; np.sort refuses any other number (AxisError, a
    ValueError). Sorted from the largest to the smallest. *)
Inductive levels := L_float (c : R) | L_number (c : R) | L_list (l : list R).
Definition sorted_levels (CI : levels) : result (list R) :=
  match CI with L_float c => Ok [c] | L_number _ => Err ValueError | L_list l => Ok (rev (isort Rleb l)) end.

(** The grid of one parameter, 1371 and alike, from its row in the table of the fit. *)
Definition parameter_grid (r : limits) : option (list R) :=
  match p_lower r, p_upper r with
  | Fin l, Fin u => Some (linspace (l * (1 / 4)) (u * 4) 500)
  | _, _ => None
  end.

(** LLcontour, 1500, for 0 < ci < 1. *)
Definition contour_level (LLmax ci : R) : result R :=
  match chi2_ppf ci 1 with Some q => Ok (LLmax - 1 / 2 * q) | None => Err ValueError end.

Record contour_drawn := { d_CI : R; d_level : R; d_paths : list (list (R * R)) }.
Record likelihood_result := {
  lp_estimate : R * R; lp_X : list R; lp_Y : list R; lp_LLmax : R; lp_contours : list contour_drawn;
  lp_xlim : R * R; lp_ylim : R * R }.

(** The loop, 1499-1519. [contour]: matplotlib's contour lines at a level, as lists of vertices.
    For ci outside (0, 1) the quantile is 0, inf or nan, and matplotlib refuses the levels or
    returns no line: one error here. *)
Fixpoint draw_contours (contour : R -> list (list (R * R))) (LLmax : R) (CI : list R) : result (list contour_drawn) :=
  match CI with
  | [] => Ok []
  | ci :: rest =>
      if Rleb ci 0 || Rleb 1 ci then Err ValueError
      else
        let! level := contour_level LLmax ci in
        match contour level with
        | [] => Err IndexError
        | paths => let! others := draw_contours contour LLmax rest in Ok ({| d_CI := ci; d_level := level; d_paths := paths |} :: others)
        end
  end.
(** The vertices whose range sets the limits: the first line of each contour, 1515-1519. *)
Definition first_paths (cs : list contour_drawn) : list (R * R) := flat_map (fun c => match d_paths c with p :: _ => p | [] => [] end) cs.
(** The limits, 1520-1534. [previous]: those of a figure that already has something in it. *)
Definition widened (v : list R) (previous : option (R * R)) : R * R :=
  let lo := rmin v in
  let hi := rmax v in
  let delta := hi - lo in
  let l := lo - delta * (1 / 5) in
  let u := hi + delta * (1 / 5) in
  match previous with None => (l, u) | Some (a, b) => (Rmin a l, Rmax b u) end.

(** likelihood_plot. [fit]: the rows of the table of the fitter, called with its default CI. *)
Definition likelihood_plot (fit : dname -> result (list limits)) (contour : list R -> list R -> (R -> R -> R) -> R -> list (list (R * R)))
    (previous : option ((R * R) * (R * R))) (distribution : string) (failures : list R) (right_censored : option (list R)) (CI : levels)
    : result likelihood_result :=
  let! cis := sorted_levels CI in
  match family distribution with
  | None => Err ValueError
  | Some (d, F) =>
      let! rows := fit d in
      match rows with
      | rx :: ry :: _ =>
          match parameter_grid rx, parameter_grid ry with
          | Some X, Some Y =>
              let LLmax := LLfunction F (p_est rx) (p_est ry) failures right_censored in
              let! cs := draw_contours (contour X Y (fun x y => LLfunction F x y failures right_censored)) LLmax cis in
              match first_paths cs with
              | [] => Err ValueError
              | v => Ok {| lp_estimate := (p_est rx, p_est ry); lp_X := X; lp_Y := Y; lp_LLmax := LLmax; lp_contours := cs;
                           lp_xlim := widened (map fst v) (option_map fst previous); lp_ylim := widened (map snd v) (option_map snd previous) |}
              end
          | _, _ => Err ValueError
          end
      | _ => Err IndexError
      end
  end.
