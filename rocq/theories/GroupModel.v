(** Model of Fit_Weibull_2P (Fitters.py 1938-2364) and Fit_Weibull_2P_grouped (2367-3036) from the
    arguments to the estimates, standard errors and goodness of fit. Left out: warnings, printing and
    the plot; the Anderson-Darling statistic, the parameter limits and the table of quantiles, which
    both fitters make with the same text from values modelled here. *)
From Coquelicot Require Import Coquelicot.
From Coq Require Import String.
From Coq Require Import List Arith ZArith Reals Bool.
From Verif Require Import Base Ext Gauss ConvertModel DistModel CIModel SelModel InputModel FitModel RegModel FArgModel.
Import ListNotations.
Open Scope R_scope.

(** The attributes of a fitter. *)
Record fitW := mkW {
  w_alpha : R; w_beta : R; w_alpha_SE : R; w_beta_SE : R; w_cov : R; w_method : string; w_optimizer : option string;
  w_failures : list R; w_right_censored : list R; w_gof : gof }.

Definition LS_name (m : ls_method) : string :=
  match m with M_RRX => "Least Squares Estimation (RRX)" | M_RRY => "Least Squares Estimation (RRY)" end%string.
Definition MLE_name : string := "Maximum Likelihood Estimation (MLE)"%string.
Definition opt_name (o : opt) : string :=
  match o with TNC => "TNC" | L_BFGS_B => "L-BFGS-B" | Nelder_Mead => "nelder-mead" | Powell => "powell" end%string.

Section Fitters.
  (** The parts that are not modelled here.
      [ls]: least_squares(dist="Weibull_2P", ...), Utils.py 4649-5130: (alpha, beta).
      [min2 i o f g]: scipy.optimize.minimize of the function f of two parameters, both bounded below
      by zero, by method o from the guess g: (success, x). [i]: with the option maxiter = 300.
      [min1]: the same with one parameter.
      [cov2 f p]: the inverse of the matrix of second derivatives of f at p as (variance 1, variance 2,
      covariance); [None]: LinAlgError. [cov1]: the same with one parameter. *)
  Context (ls : rr -> option R -> list R -> list R -> result (R * R))
          (min2 : bool -> opt -> (R * R -> R) -> R * R -> bool * (R * R))
          (min1 : bool -> opt -> (R -> R) -> R -> bool * R)
          (cov2 : (R * R -> R) -> R * R -> option (R * R * R))
          (cov1 : (R -> R) -> R -> option R).

  (** LS_optimization for Weibull_2P, Utils.py 5310-5382, and the same choice in
      Fit_Weibull_2P_grouped, 2599-2670. [f]: the log-likelihood function used to choose. *)
  Definition LS_guess (f : R * R -> R) (method : string) (force : option R) (failures rc : list R) : result (ls_method * (R * R)) :=
    if String.eqb method "RRX" then let! g := ls RRX force failures rc in Ok (M_RRX, g)
    else if String.eqb method "RRY" then let! g := ls RRY force failures rc in Ok (M_RRY, g)
    else let! gx := ls RRX force failures rc in let! gy := ls RRY force failures rc in Ok (LS_choice f gx gy).
  (** LL or LL_fb as a function of the list of parameters, of which LL_fb looks at the first only. *)
  Definition chosen (LL2 : R * R -> R) (LL1 : R -> R -> R) (force : option R) : R * R -> R :=
    match force with None => LL2 | Some b => fun p => LL1 b (fst p) end.

  (** The standard errors: 2132-2212 and 2782-2866. Without an optimizer the text of the warning about
      LinAlgError is a string plus None: TypeError. *)
  Definition errors (LL2 : R * R -> R) (LL1 : R -> R -> R) (force : option R) (a b : R) (optimizer : option string) : result (R * R * R) :=
    let failed := match optimizer with None => Err TypeError | Some _ => Ok (0, 0, 0) end in
    match force with
    | None => match cov2 LL2 (a, b) with Some (va, vb, c) => Ok (sqrt (Rabs va), sqrt (Rabs vb), c) | None => failed end
    | Some fb => match cov1 (LL1 fb) a with Some va => Ok (sqrt (Rabs va), 0, 0) | None => failed end
    end.
  Definition LL2_at (LL2 : R * R -> R) (LL1 : R -> R -> R) (force : option R) (a b : R) : R := 2 * chosen LL2 LL1 force (a, b).
  Definition forcedb (force : option R) : bool := match force with None => false | Some _ => true end.

  (** ** Fit_Weibull_2P, 2055-2278 *)
  Definition Fit_Weibull_2P (a : fit_args) : result fitW :=
    let! k := fitters_input_checking D_Weibull_2P a in
    let F := i_failures k in let C := i_right_censored k in let force := i_force_beta k in
    let LL2 := fun p => LL (Weibull_2P (fst p) (snd p)) [] F C in
    let LL1 := fun fb x => Weibull_2P_LL_fb x fb F C in
    (** LS_optimization raises ValueError for the method None *)
    let! method := match i_method k with None => Err ValueError | Some m => Ok m end in
    let! g := LS_guess (chosen LL2 LL1 force) (if String.eqb method "MLE" then "LS"%string else method) force F C in
    let! e :=
      (if String.eqb method "MLE" then
        match force with
        | None => let! r := MLE_optimization (fun o p => min2 false o LL2 p) LL2 (i_optimizer k) (snd g) in Ok (snd r, MLE_name, option_map opt_name (snd (fst r)))
        | Some fb =>
            let! r := MLE_optimization (fun o p => min1 false o (LL1 fb) p) (LL1 fb) (i_optimizer k) (fst (snd g)) in
            Ok ((snd r, fb), MLE_name, option_map opt_name (snd (fst r)))
        end
      else Ok (snd g, LS_name (fst g), None)) in
    let '((al, be), name, optimizer) := e in
    let! s := errors LL2 LL1 force al be optimizer in
    let '(sa, sb, c) := s in
    Ok (mkW al be sa sb c name optimizer F C
      (goodness (Z.of_nat (length F + length C)) (Z.of_nat (if forcedb force then 1 else 2)) (LL2_at LL2 LL1 force al be))).

  (** ** Fit_Weibull_2P_grouped, 2538-2944 *)

  (** The argument dataframe: not a dataframe at all, or its column titles and rows (category, time,
      quantity). A row has its values in the columns of those names; quantities are whole numbers. *)
  Inductive frame := Not_a_frame | Frame (columns : list string) (rows : list (string * R * nat)).
  (** 2538-2570: the missing columns raise at 2547 (category), 2556 (time) and 2567 (quantity). *)
  Definition to_row (r : string * R * nat) : row := (if String.eqb (fst (fst r)) "F" then CatF else CatC, snd (fst r), snd r).
  Definition frame_rows (d : frame) : result (list row) :=
    match d with
    | Not_a_frame => Err ValueError
    | Frame columns rows =>
        if negb (forallb (fun c => str_in c ["category"; "time"; "quantity"]%string) columns) then Err ValueError
        else if negb (str_in "category" columns) then Err AttributeError
        else if negb (forallb (fun r => str_in (fst (fst r)) ["F"; "C"]%string) rows) then Err ValueError
        else if negb (str_in "time" columns) then Err KeyError
        else if negb (str_in "quantity" columns) then Err AttributeError
        else Ok (map to_row rows)
    end.
  (** The loop of up to 10 runs until BIC settles: 2688-2718, 2722-2757. [c]: np.log(n) * k. *)
  Fixpoint bic_runs {P} (minimize : P -> bool * P) (f : P -> R) (c : R) (left : nat) (guess : P) (last : R) : bool * P :=
    let (ok, x) := minimize guess in
    let bic := c + 2 * f x in
    match left with
    | S (S _ as l) => if Rlt_dec (1 / 1000) (Rabs (bic - last)) then bic_runs minimize f c l x bic else (ok, x)
    | _ => (ok, x)
    end.
  (** 2596-2597 *)
  Definition one_optimizer (o : option string) : opt :=
    match o with
    | Some s => if String.eqb s "L-BFGS-B" then L_BFGS_B else if String.eqb s "powell" then Powell
                else if String.eqb s "nelder-mead" then Nelder_Mead else TNC
    | None => TNC
    end.
  Definition Fit_Weibull_2P_grouped (d : frame) (a : fit_args) : result fitW :=
    let! df := frame_rows d in
    let! k := fitters_input_checking D_Weibull_2P
      (mkFit (D_seq (df_failures df)) (D_seq (df_censored df)) (a_method a) (a_optimizer a) (a_CI a) (a_quantiles a) (a_force_beta a) None (a_CI_type a)) in
    let F := i_failures k in let C := i_right_censored k in let force := i_force_beta k in
    let Tf := map row_time (F_rows df) in let Qf := map (fun r => INR (row_qty r)) (F_rows df) in
    let Tc := map row_time (C_rows df) in let Qc := map (fun r => INR (row_qty r)) (C_rows df) in
    let LL2 := fun p => grouped_LL (fst p) (snd p) Tf Qf Tc Qc in
    let LL1 := fun fb x => grouped_LL_fb x fb Tf Qf Tc Qc in
    let o := one_optimizer (i_optimizer k) in
    (** with the method None no estimate is made and self.alpha does not exist *)
    let! method := match i_method k with None => Err AttributeError | Some m => Ok m end in
    let! g := LS_guess (chosen LL2 LL1 force) (if String.eqb method "MLE" then "LS"%string else method) force F C in
    let n := df_n df in
    let e :=
      if String.eqb method "MLE" then
        match force with
        | None =>
            let r := bic_runs (min2 true o LL2) LL2 (ln (INR n) * 2) 10 (snd g) (IZR 1000000) in
            (if fst r then snd r else snd g, MLE_name, Some (opt_name o))
        | Some fb =>
            let r := bic_runs (min1 true o (LL1 fb)) (LL1 fb) (ln (INR n) * 1) 10 (fst (snd g)) (IZR 1000000) in
            ((if fst r then snd r else fst (snd g), fb), MLE_name, Some (opt_name o))
        end
      else (snd g, LS_name (fst g), None) in
    let '((al, be), name, optimizer) := e in
    let! s := errors LL2 LL1 force al be optimizer in
    let '(sa, sb, c) := s in
    Ok (mkW al be sa sb c name optimizer F C
      (goodness (Z.of_nat n) (Z.of_nat (if forcedb force then 1 else 2)) (LL2_at LL2 LL1 force al be))).
End Fitters.
