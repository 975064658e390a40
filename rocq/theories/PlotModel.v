(** Model of anderson_darling, xy_downsample, axes_transforms, transform_spaced and
    probability_plot_xylims (Utils.py). *)
From Coquelicot Require Import Coquelicot.
From Coq Require Import String.
From Coq Require Import List Arith Reals Lra Lia Bool ZArith.
From Verif Require Import Base RealFacts Gauss Ext RList ConvertModel RepairModel TestingModel DistModel SelModel CIModel.
Import ListNotations.
Open Scope R_scope.

(** ** anderson_darling, Utils.py:1312-1350 *)

(** One entry of A + B + C, 1340-1347: z = Zi, z1 = Zi_1, lz1 = lnZi_1, p = FnZi_1. *)
Definition ad_term (z z1 lz1 p : R) : R :=
  let A := - z - ln (1 - z) + z1 + ln (1 - z1) in
  let B := 2 * ln (1 - z) * p - 2 * ln (1 - z1) * p in
  let C := ln z * p ^ 2 - ln (1 - z) * p ^ 2 - lz1 * p ^ 2 + ln (1 - z1) * p ^ 2 in
  A + B + C.
(** 1 - 1e-12 *)
Definition ad_end : R := 1 - / 10 ^ 12.
(** [None] is nan: a fitted value of 0 gives ln(0) * 0**2, a fitted value of 1 gives inf - inf, values outside
    [0, 1] the logarithm of a negative number. Arrays of different lengths cannot be broadcast (if neither is
    empty; the fitters pass arrays of the same length). A single number instead of an array of fitted values is wrapped in a list. *)
Definition anderson_darling (fitted_cdf empirical_cdf : list R) : result (option R) :=
  if negb (length fitted_cdf =? length empirical_cdf)%nat then Err ValueError
  else if existsb (fun z => negb (Rltb' 0 z && Rltb' z 1)) fitted_cdf then Ok None
  else
    let Z := isort Rleb fitted_cdf in
    let Zi := Z ++ [ad_end] in
    let Zi_1 := removelast (0 :: Zi) in
    let FnZi := isort Rleb empirical_cdf in
    let FnZi_1 := 0 :: FnZi in
    let lnZi_1 := removelast (0 :: map ln Zi) in
    let n := length fitted_cdf in
    Ok (Some (INR n * rsum (map (fun i => ad_term (nth i Zi 0) (nth i Zi_1 0) (nth i lnZi_1 0) (nth i FnZi_1 0)) (seq 0 (length Zi))))).

(** ** xy_downsample, Utils.py:6973-7035 *)
Inductive dfactor := DF_None | DF_True | DF_False | DF_num (f : R).
(** downsample_factor in [None, True]: in Python 1 == True. *)
Definition is_default (d : dfactor) : bool :=
  match d with DF_None | DF_True => true | DF_num f => if Req_EM_T f 1 then true else false | DF_False => false end.
(** np.arange(start=0, stop=n, step=k) for k > 0 *)
Definition arange (n k : nat) : list nat := map (fun i => (i * k)%nat) (seq 0 ((n + k - 1) / k)).
(** indices[-1] = v *)
Definition set_last (v : nat) (l : list nat) : list nat := removelast l ++ [v].
(** x_sorted[idx] for each idx *)
Fixpoint take_at (l : list R) (idx : list nat) : result (list R) :=
  match idx with
  | [] => Ok []
  | i :: r => match nth_error l i with
              | None => Err IndexError
              | Some v => let! t := take_at l r in Ok (v :: t)
              end
  end.
Definition xy_downsample (x y : list R) (downsample_factor : dfactor) (default_max_values : nat) : result (list R * list R) :=
  let x_sorted := isort Rleb x in
  let y_sorted := isort Rleb y in
  let len_x := length x in
  match downsample_factor with
  | DF_False => Ok (x, y)
  | _ =>
    if is_default downsample_factor && (len_x <? default_max_values)%nat then Ok (x, y)
    else
      let! f := match downsample_factor with
                | DF_num f => if is_default downsample_factor then
                                if (default_max_values =? 0)%nat then Err ZeroDivisionError
                                else Ok (IZR (rfloor (INR len_x / (1 / 2 * INR default_max_values))))
                              else Ok f
                | _ => if (default_max_values =? 0)%nat then Err ZeroDivisionError
                       else Ok (IZR (rfloor (INR len_x / (1 / 2 * INR default_max_values))))
                end in
      if Req_EM_T f 0 then Err ZeroDivisionError
      else if Rltb' (INR len_x / f) 2 then Ok (x, y)
      else
        let step := Z.to_nat (rfloor f) in
        if (step =? 0)%nat then Err ZeroDivisionError
        else
          let indices := arange len_x step in
          let indices := if existsb (Nat.eqb (len_x - 1)) indices then indices else set_last (len_x - 1) indices in
          let! xd := take_at x_sorted indices in
          let! yd := take_at y_sorted indices in
          Ok (xd, yd)
  end.

(** ** axes_transforms, Utils.py:256-319. The y-axes of the probability plots. *)
Inductive paper := P_Weibull | P_Loglogistic | P_Exponential | P_Normal | P_Gumbel | P_Gamma (beta : R) | P_Beta (alpha beta : R).
Definition forward (p : paper) (F : R) : R :=
  match p with
  | P_Weibull => ln (- ln (1 - F))
  | P_Loglogistic => ln (1 / (1 - F) - 1)
  | P_Exponential => ppf (Exponential 1 0) F
  | P_Normal => ppf (Normal 0 1) F
  | P_Gumbel => ppf (Gumbel 0 1) F
  | P_Gamma b => ppf (Gamma 1 b 0) F
  | P_Beta a b => ppf (DistModel.Beta a b) F
  end.
Definition inverse (p : paper) (r : R) : R :=
  match p with
  | P_Weibull => 1 - exp (- exp r)
  | P_Loglogistic => 1 - 1 / (exp r + 1)
  | P_Exponential => cdf (Exponential 1 0) r
  | P_Normal => cdf (Normal 0 1) r
  | P_Gumbel => cdf (Gumbel 0 1) r
  | P_Gamma b => cdf (Gamma 1 b 0) r
  | P_Beta a b => cdf (DistModel.Beta a b) r
  end.

(** ** transform_spaced, Utils.py:146-253. The pairs (fwd, inv) of 201-244. *)
Definition names_normal := ["normal"; "Normal"; "norm"; "Norm"]%string.
Definition names_gumbel := ["gumbel"; "Gumbel"; "gbl"; "gum"; "Gum"; "Gbl"]%string.
Definition names_weibull := ["weibull"; "Weibull"; "weib"; "Weib"; "wbl"]%string.
Definition names_loglogistic := ["loglogistic"; "Loglogistic"; "LL"; "ll"; "loglog"]%string.
Definition names_exponential := ["exponential"; "Exponential"; "expon"; "Expon"; "exp"; "Exp"]%string.
Definition names_gamma := ["gamma"; "Gamma"; "gam"; "Gam"]%string.
Definition names_beta := ["beta"; "Beta"]%string.
Definition spaced_pair (transform : string) (alpha beta : option R) : result ((R -> R) * (R -> R)) :=
  if str_in transform names_normal then Ok (ppf (Normal 0 1), cdf (Normal 0 1))
  else if str_in transform names_gumbel then Ok (ppf (Gumbel 0 1), cdf (Gumbel 0 1))
  else if str_in transform names_weibull then Ok (fun x => ln (- ln (1 - x)), fun x => 1 - exp (- exp x))
  else if str_in transform names_loglogistic then Ok (fun x => ln (1 / x - 1), fun x => 1 / (exp x + 1))
  else if str_in transform names_exponential then Ok (ppf (Exponential 1 0), cdf (Exponential 1 0))
  else if str_in transform names_gamma then
    match beta with None => Err ValueError | Some b => Ok (ppf (Gamma 1 b 0), cdf (Gamma 1 b 0)) end
  else if str_in transform names_beta then
    match alpha, beta with
    | Some a, Some b => Ok (ppf (DistModel.Beta b a), cdf (DistModel.Beta b a))
    | _, _ => Err ValueError
    end
  else Err ValueError.
Definition transform_spaced (transform : string) (y_lower y_upper : R) (num : Z) (alpha beta : option R) : result (list R) :=
  let lo := if Rltb' y_upper y_lower then y_upper else y_lower in
  let hi := if Rltb' y_upper y_lower then y_lower else y_upper in
  if Rleb lo 0 || Rleb 1 hi then Err ValueError
  else if (num <=? 2)%Z then Err ValueError
  else
    let! p := spaced_pair transform alpha beta in
    Ok (map (snd p) (linspace (fst p lo) (fst p hi) (Z.to_nat num))).

(** ** probability_plot_xylims, Utils.py:919-1060. [x] and [y] are the values left after the removal
    of inf and nan, 958-962. min() and max() of an empty array raise ValueError, and so does plt.xlim of nan
    (np.log10 of a number which is not positive). y-values not strictly between 0 and 1, whose transforms are
    infinite, are not modelled. *)
Inductive plot_dist := L_weibull | L_lognormal | L_loglogistic | L_normal | L_gamma (gamma_beta : R) | L_exponential | L_beta (beta_alpha beta_beta : R) | L_gumbel.
Definition log_x (d : plot_dist) : bool := match d with L_weibull | L_lognormal | L_loglogistic => true | _ => false end.
Definition signed_x (d : plot_dist) : bool := match d with L_normal | L_gumbel => true | _ => false end.
Definition y_paper (d : plot_dist) : paper :=
  match d with
  | L_weibull => P_Weibull | L_exponential => P_Exponential | L_gamma b => P_Gamma b | L_normal | L_lognormal => P_Normal
  | L_gumbel => P_Gumbel | L_beta a b => P_Beta a b | L_loglogistic => P_Loglogistic
  end.
Definition log10 (x : R) : R := ln x / ln 10.
Definition x_limits (d : plot_dist) (spacing min_x max_x : R) : result (R * R) :=
  let! p :=
    if log_x d then
      if Rleb min_x 0 then Err ValueError
      else
        let dx_log := log10 max_x - log10 min_x in
        let lower := Rpower 10 (log10 min_x - dx_log * spacing) in
        let upper := Rpower 10 (log10 max_x + dx_log * spacing) in
        if Req_EM_T lower upper then Ok (Rpower 10 (log10 lower - 10 * spacing), Rpower 10 (log10 upper + 10 * spacing)) else Ok (lower, upper)
    else
      let dx := max_x - min_x in
      let lower := min_x - dx * spacing in
      let upper := max_x + dx * spacing in
      if Req_EM_T lower upper then Ok (0, upper * 2) else Ok (lower, upper) in
  if Rltb' (fst p) 0 && negb (signed_x d) then Ok (0, snd p) else Ok p.
Definition y_limits (d : plot_dist) (spacing min_y max_y : R) : R * R :=
  let p := y_paper d in
  let min_t := forward p min_y in
  let max_t := forward p max_y in
  let dy := max_t - min_t in
  let lower := inverse p (min_t - dy * spacing) in
  let upper := inverse p (max_t + dy * spacing) in
  let '(lower, upper) := if Req_EM_T upper lower then
                           let dx := Rmin (1 - upper) (upper - 1) in (lower + spacing * dx, upper - spacing * dx)
                         else (lower, upper) in
  let lower := if Req_EM_T lower 0 then if Rltb' 0 min_y then min_y else / 10 ^ 5 else lower in
  let upper := if Req_EM_T upper 1 then if Rltb' max_y 1 then max_y else 1 - / 10 ^ 5 else upper in
  (lower, upper).
Definition probability_plot_xylims (d : plot_dist) (spacing : R) (x y : list R) : result ((R * R) * (R * R)) :=
  match x, y with
  | [], _ | _, [] => Err ValueError
  | _, _ => let! xl := x_limits d spacing (rmin x) (rmax x) in Ok (xl, y_limits d spacing (rmin y) (rmax y))
  end.
