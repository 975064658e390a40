(** Model of the thirteen fitters of a single distribution (Fitters.py: Fit_Weibull_2P 1938-2364,
    Fit_Weibull_3P 3038-3476, Fit_Exponential_1P 5490-5842, Fit_Exponential_2P 5845-6242,
    Fit_Normal_2P 6245-6676, Fit_Gumbel_2P 6679-7044, Fit_Lognormal_2P 7047-7473, Fit_Lognormal_3P
    7476-7919, Fit_Gamma_2P 7922-8341, Fit_Gamma_3P 8344-8852, Fit_Beta_2P 8855-9188,
    Fit_Loglogistic_2P 9191-9552, Fit_Loglogistic_3P 9555-9996) from the arguments to the attributes,
    and of LS_optimization and the bounds of MLE_optimization (Utils.py 5254-5382, 5385-5827). Left
    out: warnings, printing and the plot; the row 1/Lambda of the Exponential fitters
    (exponential_inverse_limits in CIModel); the checks the distribution classes make of parameters
    that are not positive. *)
From Coquelicot Require Import Coquelicot.
From Coq Require Import String.
From Coq Require Import List Arith ZArith Reals Bool.
From Verif Require Import Base Ext Gauss RList ConvertModel DistModel NonparModel CIModel SelModel InputModel FitModel RegModel FArgModel PlotModel GroupModel.
Import ListNotations.
Open Scope R_scope.

(** The model with the parameters in a list, in the order of LL. *)
Definition model_of (d : dname) (p : list R) : fitter :=
  let x := nth 0 p 0 in let y := nth 1 p 0 in let z := nth 2 p 0 in
  match d with
  | D_Weibull_3P => Weibull_3P x y z
  | D_Exponential_1P => Exponential_1P x
  | D_Exponential_2P => Exponential_2P x y
  | D_Normal_2P => Normal_2P x y
  | D_Gumbel_2P => Gumbel_2P x y
  | D_Lognormal_2P => Lognormal_2P x y
  | D_Lognormal_3P => Lognormal_3P x y z
  | D_Gamma_2P => Gamma_2P x y
  | D_Gamma_3P => Gamma_3P x y z
  | D_Beta_2P => Beta_2P x y
  | D_Loglogistic_2P => Loglogistic_2P x y
  | D_Loglogistic_3P => Loglogistic_3P x y z
  | _ => Weibull_2P x y
  end.
(** LL, or LL_fb and LL_fs, which look at the first parameter only. *)
Definition objective (d : dname) (force : option R) (F C p : list R) : R :=
  match force, d with
  | Some s, D_Weibull_2P => Weibull_2P_LL_fb (nth 0 p 0) s F C
  | Some s, D_Normal_2P => Normal_2P_LL_fs (nth 0 p 0) s F C
  | Some s, D_Lognormal_2P => Lognormal_2P_LL_fs (nth 0 p 0) s F C
  | _, _ => LL (model_of d p) [] F C
  end.

(** Utils.py 5322-5330 *)
Definition nonlinear (d : dname) : bool :=
  match d with
  | D_Weibull_3P | D_Gamma_2P | D_Gamma_3P | D_Beta_2P | D_Lognormal_3P | D_Loglogistic_3P | D_Exponential_2P => true
  | _ => false
  end.
(** The three-parameter fitters with the fallback, and the fitter they fall back on: 3242, 7680,
    8573, 9759. *)
Definition smaller (d : dname) : option dname :=
  match d with
  | D_Weibull_3P => Some D_Weibull_2P
  | D_Lognormal_3P => Some D_Lognormal_2P
  | D_Gamma_3P => Some D_Gamma_2P
  | D_Loglogistic_3P => Some D_Loglogistic_2P
  | _ => None
  end.
(** gamma0, Utils.py 5592 *)
Definition gamma0 (F C : list R) : R := Rmax 0 (rmin (F ++ C) - 1 / 10000).
(** Utils.py 5593-5604; [None]: unbounded. *)
Definition bounds (d : dname) (F C : list R) : list (option R * option R) :=
  let positive := (Some 0, None) in let free := (None, None) in let location := (Some 0, Some (gamma0 F C)) in
  match d with
  | D_Weibull_3P | D_Gamma_3P | D_Loglogistic_3P => [positive; positive; location]
  | D_Normal_2P | D_Gumbel_2P | D_Lognormal_2P => [free; positive]
  | D_Lognormal_3P => [free; positive; location]
  | D_Exponential_1P => [positive]
  | D_Exponential_2P => [positive; location]
  | _ => [positive; positive]
  end.

(** The attributes of a fitter. [f_limits]: the rows of results (for the Gamma fitters a row for mu
    follows); [f_cov]: the standard errors given to the distribution object. *)
Record full := mkFull {
  f_params : list R; f_limits : list limits; f_cov : covs; f_distribution : dist; f_quantiles : option (list qrow);
  f_method : string; f_optimizer : option string; f_failures : list R; f_right_censored : list R; f_gof : gof; f_AD : option R }.

Section Full.
  (** The parts that are not modelled here.
      [ls]: least_squares, Utils.py 4649-5130, by rank regression or ([None]) non-linear.
      [minimize b o f g]: scipy.optimize.minimize of f by method o from the guess g within the bounds b:
      (success, x).
      [inv f p]: the inverse of the matrix of second derivatives of f at p; [None]: LinAlgError.
      [sort]: what pandas' sort_values(by="times") makes of the table in plotting_positions.
      [gj]: the derivatives of the incomplete gamma function. *)
  Context (ls : dname -> option rr -> option R -> list R -> list R -> result (list R))
          (minimize : list (option R * option R) -> opt -> (list R -> R) -> list R -> bool * list R)
          (inv : (list R -> R) -> list R -> option (nat -> nat -> R))
          (sort : list (nat * NonparModel.row) -> list (nat * NonparModel.row))
          (gj : gamma_jac).

  (** LS_optimization, Utils.py 5319-5382: (method, guess) *)
  Definition LS_optimization (d : dname) (method : option string) (force : option R) (F C : list R) : result (string * list R) :=
    match method with
    | None => Err ValueError
    | Some m =>
        if negb (str_in m ["RRX"; "RRY"; "LS"; "NLLS"]%string) then Err ValueError
        else if nonlinear d then let! g := ls d None None F C in Ok ("NLLS"%string, g)
        else if String.eqb m "RRX" then let! g := ls d (Some RRX) force F C in Ok (m, g)
        else if String.eqb m "RRY" then let! g := ls d (Some RRY) force F C in Ok (m, g)
        else
          let! gx := ls d (Some RRX) force F C in
          let! gy := ls d (Some RRY) force F C in
          let c := LS_choice (objective d force F C) gx gy in
          Ok (match fst c with M_RRX => "RRX" | M_RRY => "RRY" end%string, snd c)
    end.
  (** MLE_optimization of one function: the answer and the optimizer. *)
  Definition maximise (b : list (option R * option R)) (f : list R -> R) (optimizer : option string) (guess : list R) : result (list R * option string) :=
    let! r := MLE_optimization (fun o g => minimize b o f g) f optimizer guess in Ok (snd r, option_map opt_name (snd (fst r))).
  (** The maximum likelihood estimates: 2113-2128 and likewise in the other fitters. With a forced shape
      only the first parameter is searched (Utils.py 5568-5570); Exponential_2P inverts Lambda < 1
      (6021-6046). *)
  Definition MLE_estimate (d : dname) (force : option R) (optimizer : option string) (F C guess : list R) : result (list R * option string) :=
    match force with
    | Some s => let! r := maximise (firstn 1 (bounds d F C)) (objective d force F C) optimizer (firstn 1 guess) in Ok ([nth 0 (fst r) 0; s], snd r)
    | None =>
        if dname_eqb d D_Exponential_2P && Rltb' (nth 0 guess 0) 1 then
          let! r := maximise (bounds d F C) (fun p => Exponential_2P_LL_inv (nth 0 p 0) (nth 1 p 0) F C) optimizer [1 / nth 0 guess 0; nth 1 guess 0] in
          Ok ([1 / nth 0 (fst r) 0; nth 1 (fst r) 0], snd r)
        else maximise (bounds d F C) (objective d None F C) optimizer guess
    end.
  (** The method asked of LS_optimization, e.g. 2091-2094; 8096 for Gamma_2P. *)
  Definition LS_method (d : dname) (method : option string) : option string :=
    match d with
    | D_Gamma_2P => Some "LS"%string
    | _ => match method with Some m => Some (if String.eqb m "MLE" then "LS"%string else m) | None => None end
    end.
  (** (estimates, self.method, self.optimizer). Only Gamma_2P gets past LS_optimization with the method
      None, and then has no self.alpha. *)
  Definition estimate (d : dname) (method : option string) (force : option R) (optimizer : option string) (F C : list R)
    : result (list R * string * option string) :=
    let! g := LS_optimization d (LS_method d method) force F C in
    match method with
    | None => Err AttributeError
    | Some m =>
        if String.eqb m "MLE" then let! r := MLE_estimate d force optimizer F C (snd g) in Ok (fst r, MLE_name, snd r)
        else Ok (snd g, ("Least Squares Estimation (" ++ fst g ++ ")")%string, None)
    end.

  (** The diagonal of the covariance matrix (in the order of [param_kinds]) and the covariance:
      2132-2140, 2176-2188, 3264-3282, 5667-5673, 6052-6063, 6437-6452, 6489-6500, 6869-6876, 7240-7249,
      7287-7295, 7704-7720, 8123-8153, 8596-8625, 9033-9040, 9377-9384, 9779-9798. *)
  Definition shifted (g : R) (l : list R) : list R := map (fun t => t - g) l.
  Definition covariance (d : dname) (force : option R) (F C p : list R) : option (list R * R) :=
    let g := nth 2 p 0 in
    let two := firstn 2 p in
    match d with
    | D_Exponential_1P => match inv (fun q => LL (model_of d q) [] F C) p with Some m => Some ([m 0%nat 0%nat], 0) | None => None end
    | D_Exponential_2P =>
        let g := nth 1 p 0 in
        match inv (fun q => LL (model_of D_Exponential_1P q) [] (shifted g F) (shifted g C)) (firstn 1 p) with
        | Some m => Some ([m 0%nat 0%nat; 0], 0) | None => None end
    | D_Gamma_2P =>
        match inv (fun q => LL (model_of d q) [] F C) p, inv (fun q => LL (Gamma_2P_mb (nth 0 q 0) (nth 1 q 0)) [] F C) [ln (nth 0 p 0); nth 1 p 0] with
        | Some m, Some k => Some ([m 0%nat 0%nat; m 1%nat 1%nat; k 0%nat 0%nat], k 0%nat 1%nat)
        | _, _ => None
        end
    | D_Gamma_3P =>
        match inv (fun q => LL (model_of D_Gamma_2P q) [] (shifted g F) (shifted g C)) two,
              inv (fun q => LL (Gamma_2P_mb (nth 0 q 0) (nth 1 q 0)) [] (shifted g F) (shifted g C)) [ln (nth 0 p 0); nth 1 p 0],
              inv (fun q => LL (model_of d q) [] F C) p with
        | Some m, Some k, Some w => Some ([m 0%nat 0%nat; m 1%nat 1%nat; w 2%nat 2%nat; k 0%nat 0%nat], k 0%nat 1%nat)
        | _, _, _ => None
        end
    | _ =>
        match smaller d with
        | Some d2 =>
            match inv (fun q => LL (model_of d2 q) [] (shifted g F) (shifted g C)) two, inv (fun q => LL (model_of d q) [] F C) p with
            | Some m, Some w => Some ([m 0%nat 0%nat; m 1%nat 1%nat; w 2%nat 2%nat], m 0%nat 1%nat)
            | _, _ => None
            end
        | None =>
            match force with
            | Some s => match inv (fun q => objective d force F C q) (firstn 1 p) with Some m => Some ([m 0%nat 0%nat; 0], 0) | None => None end
            | None => match inv (fun q => LL (model_of d q) [] F C) p with Some m => Some ([m 0%nat 0%nat; m 1%nat 1%nat], m 0%nat 1%nat) | None => None end
            end
        end
    end.
  (** The estimates in the order of [param_kinds]: mu = log(alpha) follows for Gamma, 8105, 8119, 8540, 8562. *)
  Definition with_mu (d : dname) (p : list R) : list R :=
    match d with D_Gamma_2P | D_Gamma_3P => p ++ [ln (nth 0 p 0)] | _ => p end.
  Definition se (v : R) : R := sqrt (Rabs v).
  Definition stored (d : dname) (c : option (list R * R)) : covs :=
    match c with
    | None => {| se_a := 0; se_b := 0; cov_ab := 0 |}
    | Some (v, cov) =>
        {| se_a := se (nth match d with D_Gamma_2P => 2 | D_Gamma_3P => 3 | _ => 0 end v 0); se_b := se (nth 1 v 0); cov_ab := cov |}
    end.

  (** The distribution object: 2229, 3338, 5723, 6115, 6538, 6920, 7333, 7778, 8194, 8689, 9082, 9426, 9854. *)
  Definition object (f : fitter) : dist := match distribution f with Single d => d | _ => Normal 0 1 end.
  (** From the distribution object on: quantiles, goodness of fit, AD, e.g. 2229-2292. *)
  Definition assemble (d : dname) (force : option R) (k : fit_inputs) (p : list R) (rows : list limits) (s : covs) (name : string) (optimizer : option string)
    : result full :=
    let F := i_failures k in let C := i_right_censored k in
    let o := object (model_of d p) in
    let! q := quantile_table gj o (Some s) (i_CI k) (i_quantiles k) in
    let LL2 := 2 * objective d force F C p in
    let g := goodness (Z.of_nat (length F + length C)) (Z.of_nat (k_of (model_of d p) (forcedb force))) LL2 in
    let! xy := plotting_positions_unsorted None (sort (indexed (all_rows F C))) in
    let! cdf := CDF o (fst xy) in
    let! ad := anderson_darling cdf (snd xy) in
    Ok (mkFull p rows s o q name optimizer F C g ad).

  Definition own_force (d : dname) (k : fit_inputs) : option R :=
    match d with D_Weibull_2P => i_force_beta k | D_Normal_2P | D_Lognormal_2P => i_force_sigma k | _ => None end.
  (** A fitter has force_beta (Weibull_2P), force_sigma (Normal_2P, Lognormal_2P) or neither; Beta_2P has no
      CI_type. *)
  Definition own_args (d : dname) (a : fit_args) : fit_args :=
    mkFit (a_failures a) (a_right_censored a) (a_method a) (a_optimizer a) (a_CI a) (a_quantiles a)
      match d with D_Weibull_2P => a_force_beta a | _ => None end match d with D_Normal_2P | D_Lognormal_2P => a_force_sigma a | _ => None end
      match d with D_Beta_2P => No_text | _ => a_CI_type a end.

  (** The fitters without a fallback. *)
  Definition fit_plain (d : dname) (a : fit_args) : result full :=
    let! k := fitters_input_checking d (own_args d a) in
    let F := i_failures k in let C := i_right_censored k in let force := own_force d k in
    let! e := estimate d (i_method k) force (i_optimizer k) F C in
    let '(p, name, optimizer) := e in
    let c := covariance d force F C p in
    let! rows := fit_limits d (forcedb force) (i_CI k) (with_mu d p) (option_map fst c) optimizer in
    assemble d force k p rows (stored d c) name optimizer.

  (** The call of the two-parameter fitter, e.g. 3242-3248: failures, right_censored and CI, the rest by
      default. *)
  Definition default_args (k : fit_inputs) : fit_args :=
    mkFit (D_seq (i_failures k)) (D_seq (i_right_censored k)) (Text "MLE") No_text (T_float, i_CI k) Q_None None None (Text "time").
  (** gamma = 0 and its limits, in third place: 3249-3263, 7687-7701, 8580-8594, 9766-9780. *)
  Definition zero_row : limits := {| p_est := 0; p_se := 0; p_lower := Fin 0; p_upper := Fin 0 |}.
  Definition with_zero (rows : list limits) : list limits := firstn 2 rows ++ zero_row :: skipn 2 rows.
  (** The three-parameter fitters. *)
  Definition fit_three (d d2 : dname) (a : fit_args) : result full :=
    let! k := fitters_input_checking d (own_args d a) in
    let F := i_failures k in let C := i_right_censored k in
    let! e := estimate d (i_method k) None (i_optimizer k) F C in
    let '(p, name, optimizer) := e in
    if Rltb' (nth 2 p 0) (1 / 100) then
      let! r := fit_plain d2 (default_args k) in
      assemble d None k (firstn 2 (f_params r) ++ [0]) (with_zero (f_limits r)) (f_cov r) name optimizer
    else
      let c := covariance d None F C p in
      let! rows := fit_limits d false (i_CI k) (with_mu d p) (option_map fst c) optimizer in
      assemble d None k p rows (stored d c) name optimizer.

  Definition fit (d : dname) (a : fit_args) : result full :=
    match smaller d with Some d2 => fit_three d d2 a | None => fit_plain d a end.
End Full.
