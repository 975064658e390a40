(** Model of the confidence limits of the fitted parameters (Fitters.py), of clean_CI_arrays,
    no_reverse, the classes' confidence intervals on time and on reliability, and extract_CI
    (Utils.py). *)
From Coquelicot Require Import Coquelicot.
From Coq Require Import String.
From Coq Require Import List Arith Reals Lra Lia Bool.
From Verif Require Import Base RealFacts Gauss Ext RList ConvertModel RepairModel DistModel SelModel.
Import ListNotations.
Open Scope R_scope.

(** ** Confidence limits of the parameters *)

(** Z = -ss.norm.ppf((1 - CI) / 2): Fitters.py 2125, 3262, 3777, 4280, 4606, 5663 and the other
    fitters; Utils.py 2693, 2872 and the other *_CI functions. CI is checked to be strictly
    between 0 and 1 in Utils.py 1703-1710 and 7143-7149. *)
Definition Z_of (CI : R) : R := - norm_ppf ((1 - CI) / 2).

(** How the limits of a parameter are computed from its estimate and its standard error. *)
Inductive pkind :=
| PLog        (** estimate * exp(+- Z * SE / estimate): scale, shape, sigma, Lambda, gamma *)
| PLin        (** estimate +- Z * SE: mu of Normal, Lognormal and Gumbel *)
| PLogit      (** proportion_1 of the mixture, DS and ZI *)
| PFixed      (** forced parameters, gamma of Exponential_2P: no interval *)
| PLogMu.     (** mu of the Gamma fitters, which uses the formula of PLog *)

Record limits := { p_est : R; p_se : R; p_lower : ext; p_upper : ext }.

(** PLog: Fitters.py 2144-2151, 3284-3297, 3815-3830, 4295-4310, 4637-4640, 5674-5679, 6457-6462,
    8137-8140, 9041-9044, 9385-9388, 9800-9813.
    PLin: 6453-6456, 6877-6880, 7250-7254, 7722-7725.
    PLogit: 3831-3854; 4641-4664 (DS = 1 and ZI = 0 give the estimate itself; DS = 0, ZI = 1 and a mixture
    proportion of 0 or 1 are excluded by the optimizers' bounds, Utils.py 5595-5621, and not modelled);
    5011-5022, 5334-5345.
    PFixed: 2190-2191, 6066-6067, 6499-6500.
    PLogMu: 8151-8152, 8635-8636; for mu = 0 numpy divides by zero: SE/0 = inf, 0 * exp(inf) = nan
    and 0 * exp(-inf) = 0; 0/0 = nan. *)
Definition param_limits (k : pkind) (Z est SE : R) : limits :=
  match k with
  | PLog => {| p_est := est; p_se := SE; p_lower := Fin (est * exp (- Z * (SE / est))); p_upper := Fin (est * exp (Z * (SE / est))) |}
  | PLin => {| p_est := est; p_se := SE; p_lower := Fin (est + (- Z * SE)); p_upper := Fin (est + Z * SE) |}
  | PLogit =>
      if Req_EM_T est 1 then {| p_est := est; p_se := SE; p_lower := Fin 1; p_upper := Fin 1 |}
      else if Req_EM_T est 0 then {| p_est := est; p_se := SE; p_lower := Fin 0; p_upper := Fin 0 |}
      else {| p_est := est; p_se := SE;
              p_lower := Fin (est / (est + (1 - est) * exp (Z * SE / (est * (1 - est)))));
              p_upper := Fin (est / (est + (1 - est) * exp (- Z * SE / (est * (1 - est))))) |}
  | PFixed => {| p_est := est; p_se := 0; p_lower := Fin est; p_upper := Fin est |}
  | PLogMu =>
      if Req_EM_T est 0 then
        {| p_est := est; p_se := SE; p_lower := if Req_EM_T SE 0 then NaN else Fin 0; p_upper := NaN |}
      else {| p_est := est; p_se := SE; p_lower := Fin (est * exp (- Z * (SE / est))); p_upper := Fin (est * exp (Z * (SE / est))) |}
  end.

(** The parameters each fitter reports, in the order of its results table. [forced]: force_beta
    (Weibull_2P 2174-2191) or force_sigma (Normal_2P 6484-6500, Lognormal_2P 7282-7295). The
    Gamma fitters report mu as well: it stands last here. *)
Definition param_kinds (d : dname) (forced : bool) : list pkind :=
  match d with
  | D_Everything => []
  | D_Weibull_2P => if forced then [PLog; PFixed] else [PLog; PLog]
  | D_Weibull_3P | D_Loglogistic_3P => [PLog; PLog; PLog]
  | D_Gamma_2P => [PLog; PLog; PLogMu]
  | D_Gamma_3P => [PLog; PLog; PLog; PLogMu]
  | D_Exponential_1P => [PLog]
  | D_Exponential_2P => [PLog; PFixed]
  | D_Gumbel_2P => [PLin; PLog]
  | D_Normal_2P | D_Lognormal_2P => if forced then [PLin; PFixed] else [PLin; PLog]
  | D_Lognormal_3P => [PLin; PLog; PLog]
  | D_Loglogistic_2P | D_Beta_2P => [PLog; PLog]
  | D_Weibull_Mixture => [PLog; PLog; PLog; PLog; PLogit]
  | D_Weibull_CR => [PLog; PLog; PLog; PLog]
  | D_Weibull_DSZI => [PLog; PLog; PLogit; PLogit]
  | D_Weibull_DS | D_Weibull_ZI => [PLog; PLog; PLogit]
  end.

Fixpoint limits_of (kinds : list pkind) (Z : R) (ests ses : list R) : list limits :=
  match kinds, ests, ses with
  | k :: ks, e :: es, s :: ss => param_limits k Z e s :: limits_of ks Z es ss
  | _, _, _ => []
  end.
(** The end of each fitter's __init__, e.g. Fitters.py 2125-2210. [diag]: the diagonal of the
    inverse of the Hessian (of the inverses, in the three-parameter fitters), [None] if
    np.linalg.inv raises LinAlgError. The standard errors are abs(...) ** 0.5. The except branch
    first builds a warning "..." + self.optimizer + "...", a TypeError if self.optimizer is None,
    which it is after least squares; then sets the standard errors to 0 and the limits to the
    estimates (for the mixture, competing risks, DS and ZI fitters by the formulas of [param_limits],
    which give the estimate when the standard error is 0). *)
Definition fit_limits (d : dname) (forced : bool) (CI : R) (ests : list R) (diag : option (list R)) (optimizer : option string)
  : result (list limits) :=
  match diag with
  | Some c => Ok (limits_of (param_kinds d forced) (Z_of CI) ests (map (fun v => sqrt (Rabs v)) c))
  | None =>
    match optimizer with
    | None => Err TypeError
    | Some _ => Ok (map (fun e => {| p_est := e; p_se := 0; p_lower := Fin e; p_upper := Fin e |}) ests)
    end
  end.

(** The row "1/Lambda" of the Exponential fitters: Fitters.py 5680-5685 and 6068-6073. *)
Definition exponential_inverse_limits (Z Lambda SE : R) : limits :=
  let Lambda_upper := Lambda * exp (Z * (SE / Lambda)) in
  let Lambda_lower := Lambda * exp (- Z * (SE / Lambda)) in
  {| p_est := 1 / Lambda; p_se := Rabs (1 / Lambda * ln (Lambda / Lambda_upper) / Z);
     p_lower := Fin (1 / Lambda_upper); p_upper := Fin (1 / Lambda_lower) |}.

(** ** The three-parameter fitters, Fitters.py 3186-3258 (Weibull), 7626-7696 (Lognormal),
    8513-8593 (Gamma), 9705-9775 (Loglogistic): if gamma < 0.01 the two-parameter fitter is called with its
    default method (and optimizer), which is MLE, whatever method the user chose; self.method is
    not updated. *)
Inductive fmethod := M_MLE | M_LS | M_RRX | M_RRY.
Record fit3 := { r_params : R * R * R; r_method : fmethod }.
Definition fit_three_params (est3 : fmethod -> R * R * R) (est2 : fmethod -> R * R) (method : fmethod) : fit3 :=
  let gamma := snd (est3 method) in
  if Rltb' gamma (1 / 100) then {| r_params := (fst (est2 M_MLE), snd (est2 M_MLE), 0); r_method := method |}
  else {| r_params := est3 method; r_method := method |}.

(** ** no_reverse, Utils.py:738-787. [None] stands for nan or inf. A CI_type and plot_type other
    than ("time", "CHF") select the decreasing rule. *)
Definition is_some {A} (o : option A) : bool := match o with Some _ => true | None => false end.
Definition rmin (l : list R) : R := match l with [] => 0 | x :: r => fold_right Rmin x r end.
(** np.where(x == v)[0][0] *)
Fixpoint first_index (v : R) (l : list R) : nat :=
  match l with [] => 0 | x :: r => if Req_EM_T x v then 0 else S (first_index v r) end.
(** x[i::] = v *)
Definition fill_from (i : nat) (v : R) (l : list R) : list R := firstn i l ++ repeat v (length l - i).
Definition no_reverse_finite (decreasing : bool) (x : list R) : list R :=
  if decreasing then
    let i := first_index (rmin x) x in if (i <? length x - 1)%nat then fill_from i (rmin x) x else x
  else
    let i := first_index (rmax x) x in if (i <? length x - 1)%nat then fill_from i (rmax x) x else x.
Fixpoint all_finite (l : list (option R)) : option (list R) :=
  match l with
  | [] => Some []
  | None :: _ => None
  | Some v :: r => match all_finite r with Some t => Some (v :: t) | None => None end
  end.
Definition no_reverse (x : list (option R)) (CI_type plot_type : string) : result (list (option R)) :=
  if (length x <? 2)%nat then Err ValueError
  else
    let decreasing := negb (String.eqb CI_type "time" && String.eqb plot_type "CHF") in
    match all_finite x with
    | Some l => Ok (map Some (no_reverse_finite decreasing l))
    | None => Ok x
    end.

(** ** clean_CI_arrays, Utils.py:2404-2524 *)

(** The first loop, over the indices of xlower: reading a shorter array past its end raises
    IndexError; "and" does not read the arrays after the first value that is not finite. *)
Definition quad : Type := R * R * R * R.
Definition read (l : list (option R)) : result (option R) := match l with [] => Err IndexError | a :: _ => Ok a end.
Fixpoint keep_finite (xl xu yl yu : list (option R)) : result (list quad) :=
  match xl with
  | [] => Ok []
  | a :: xl' =>
    let! here :=
      match a with
      | None => Ok None
      | Some x1 =>
        let! b := read xu in
        match b with
        | None => Ok None
        | Some x2 =>
          let! c := read yl in
          match c with
          | None => Ok None
          | Some y1 =>
            let! e := read yu in
            match e with None => Ok None | Some y2 => Ok (Some (x1, x2, y1, y2)) end
          end
        end
      end in
    let! rest := keep_finite xl' (tl xu) (tl yl) (tl yu) in
    Ok (match here with Some p => p :: rest | None => rest end)
  end.
Definition q_xl (p : quad) : R := let '(a, _, _, _) := p in a.
Definition q_xu (p : quad) : R := let '(_, b, _, _) := p in b.
Definition q_yl (p : quad) : R := let '(_, _, c, _) := p in c.
Definition q_yu (p : quad) : R := let '(_, _, _, e) := p in e.
(** tol = 1e-50 *)
Definition clean_tol : R := / 10 ^ 50.
Definition clean_CI_arrays (xlower xupper ylower yupper : list (option R)) (plot_type : string) (x_given q_given : bool)
  : result (list R * list R * list R * list R) :=
  let! out := keep_finite xlower xupper ylower yupper in
  let out2 := if str_in (upper plot_type) ["CDF"; "SF"]%string
              then filter (fun p => Rltb' (q_yl p) 1 && Rltb' (q_yu p) 1) out else out in
  let out3 := filter (fun p => Rltb' clean_tol (q_yl p) && Rltb' clean_tol (q_yu p)) out2 in
  if negb (length out3 =? length xlower)%nat && x_given then Err ValueError
  else if negb (length out3 =? length ylower)%nat && q_given then Err ValueError
  else Ok (map q_xl out3, map q_xu out3, map q_yl out3, map q_yu out3).

(** ** The confidence intervals of the distributions, Utils.py:2592-4475 *)

(** What the fitter stores in the distribution object: the standard errors of the first and the
    second parameter (mu and beta for Gamma) and their covariance; for Exponential only the first
    is used. [None]: the distribution was not made by a fitter. *)
Record covs := { se_a : R; se_b : R; cov_ab : R }.

(** The numerical derivatives of the regularised incomplete Gamma function (autograd_gamma), an
    oracle: d/dmu and d/dbeta of u at t and of v at R. *)
Record gamma_jac := { gj_um : R -> R; gj_ub : R -> R; gj_vm : R -> R; gj_vb : R -> R }.

(** var_u and var_v, e.g. 2907-2927. *)
Definition var_of (s : covs) (da db : R) : R := da ^ 2 * se_a s ^ 2 + db ^ 2 * se_b s ^ 2 + 2 * da * db * cov_ab s.
(** Z * var ** 0.5; the square root of a negative number is nan. *)
Definition half_width (Z var : R) : option R := if Rlt_dec var 0 then None else Some (Z * sqrt var).

Definition ci_gamma (d : dist) : R :=
  match d with
  | Weibull _ _ g | Lognormal _ _ g | Exponential _ g | Gamma _ _ g | Loglogistic _ _ g => g
  | _ => 0
  end.
(** np.log(t): nan or -inf unless t > 0. With such a value the bounds are nan or 0 or 1, and
    clean_CI_arrays refuses the point; [None] has the same effect. *)
Definition log_of (t : R) : option R := if Rlt_dec 0 t then Some (ln t) else None.
Definition omap {A B} (f : A -> B) (o : option A) : option B := match o with Some a => Some (f a) | None => None end.
Definition obind {A B} (o : option A) (f : A -> option B) : option B := match o with Some a => f a | None => None end.

(** u and its derivatives with respect to the first and second parameter, at the time x.
    Weibull 2897-2905, Gamma 3187-3193, Normal 3475-3485, Lognormal 3756-3766, Loglogistic 4035-4043,
    Gumbel 4315-4325. jac is autograd's exact derivative. *)
Definition u_at (gj : gamma_jac) (d : dist) (x : R) : option (R * R * R) :=
  match d with
  | Weibull a b g | Loglogistic a b g => omap (fun lt => (b * (lt - ln a), - b / a, lt - ln a)) (log_of (x - g))
  | Normal m s => Some ((m - x) / s, 1 / s, - (m - x) / s ^ 2)
  | Lognormal m s g => omap (fun lt => ((m - lt) / s, 1 / s, - (m - lt) / s ^ 2)) (log_of (x - g))
  | Gumbel m s => Some ((x - m) / s, - 1 / s, - (x - m) / s ^ 2)
  | Gamma a b g => omap (fun _ => (sf (Gamma a b 0) (x - g), gj_um gj (x - g), gj_ub gj (x - g))) (log_of (x - g))
  | Exponential _ _ | DistModel.Beta _ _ => None
  end.
(** The bounds Y_lower, Y_upper on the reliability at x (the names of the code: for Normal and
    Lognormal Y_lower is the larger). Weibull 3010-3020, Gamma 3303-3313, Normal 3583-3588,
    Lognormal 3864-3870, Loglogistic 4150-4157, Gumbel 4423-4429. *)
Definition rel_bounds (gj : gamma_jac) (d : dist) (s : covs) (Z x : R) : option (R * R) :=
  obind (u_at gj d x) (fun uab => let '(u, da, db) := uab in
  omap (fun w =>
    match d with
    | Weibull _ _ _ | Gumbel _ _ => (exp (- exp (u + w)), exp (- exp (u - w)))
    | Loglogistic _ _ _ => (1 / (exp (u + w) + 1), 1 / (exp (u - w) + 1))
    | Gamma _ _ _ => (u / (u + (1 - u) * exp (w / (u * (1 - u)))), u / (u + (1 - u) * exp (- w / (u * (1 - u)))))
    | _ => (Phi (u + w), Phi (u - w))
    end) (half_width Z (var_of s da db))).

(** v and its derivatives at the reliability q; q outside (0, 1) gives nan or inf. *)
Definition v_at (gj : gamma_jac) (d : dist) (q : R) : option (R * R * R) :=
  if Rlt_dec 0 q then if Rlt_dec q 1 then
    match d with
    | Weibull a b _ => Some (1 / b * ln (- ln q) + ln a, 1 / a, - 1 / b ^ 2 * ln (- ln q))
    | Loglogistic a b _ => Some (1 / b * ln (1 / q - 1) + ln a, 1 / a, - 1 / b ^ 2 * ln (1 / q - 1))
    | Normal m s | Lognormal m s _ => Some (m - s * norm_ppf q, 1, - norm_ppf q)
    | Gumbel m s => Some (m + s * ln (- ln q), 1, ln (- ln q))
    | Gamma a b _ => Some (ln (isf (Gamma 1 b 0) q) + ln a, gj_vm gj q, gj_vb gj q)
    | Exponential _ _ | DistModel.Beta _ _ => None
    end
  else None else None.
(** The bounds t_lower, t_upper on the time at reliability q. Weibull 2948-2953, Gamma 3241-3246, Normal
    3529-3531, Lognormal 3803-3808, Loglogistic 4085-4090, Gumbel 4369-4371. *)
Definition time_bounds (gj : gamma_jac) (d : dist) (s : covs) (Z q : R) : option (R * R) :=
  obind (v_at gj d q) (fun vab => let '(v, da, db) := vab in
  omap (fun w =>
    match d with
    | Normal _ _ | Gumbel _ _ => (v - w, v + w)
    | _ => (exp (v - w) + ci_gamma d, exp (v + w) + ci_gamma d)
    end) (half_width Z (var_of s da db))).

(** The *_CI functions when q (CI_type "time") or x (CI_type "reliability") is given. extract_CI does not pass
    func, so its default "CDF" is used. *)
Definition ci_time (gj : gamma_jac) (d : dist) (s : covs) (Z : R) (q : list R) : result (list R * list R) :=
  let bs := map (time_bounds gj d s Z) q in
  let! r := clean_CI_arrays (map (omap fst) bs) (map (omap snd) bs) (map Some q) (map Some q) "CDF" false true in
  let '(tl, tu, _, _) := r in Ok (tl, tu).
Definition ci_reliability (gj : gamma_jac) (d : dist) (s : covs) (Z : R) (x : list R) : result (list R * list R) :=
  let bs := map (rel_bounds gj d s Z) x in
  let t := map (fun x => Some (x - ci_gamma d)) x in
  let! r := clean_CI_arrays t t (map (omap fst) bs) (map (omap snd) bs) "CDF" true false in
  let '(_, _, yl, yu) := r in Ok (yl, yu).

(** np.geomspace(a, b, n) for 0 < a, 0 < b. *)
Definition geomspace (a b : R) (n : nat) : list R :=
  map (fun i => a * Rpower (b / a) (INR i / INR (n - 1))) (seq 0 n).
(** exponential_CI, 2611-2780. The bounds on reliability are computed and cleaned even when q is
    given, at the default 200 points; no_reverse is applied even to the points the user asked for.
    quantile(p) - gamma = -ln(1 - p)/Lambda > 0, so the replacement of t0 <= 0 never happens. *)
Definition exponential_CI (Lambda gamma SE Z : R) (arg : list R + list R) : result (list R * list R) :=
  let Lambda_upper := Lambda * exp (Z * (SE / Lambda)) in
  let Lambda_lower := Lambda * exp (- Z * (SE / Lambda)) in
  let t := match arg with
           | inr x => map (fun x => x - gamma) x
           | inl _ => geomspace (ppf (Exponential Lambda gamma) (/ 10 ^ 5) - gamma) (ppf (Exponential Lambda gamma) (1 - / 10 ^ 5) - gamma) 200
           end in
  let Y_lower := map (fun t => exp (- Lambda_lower * t)) t in
  let Y_upper := map (fun t => exp (- Lambda_upper * t)) t in
  let! r := clean_CI_arrays (map Some t) (map Some t) (map Some Y_lower) (map Some Y_upper) "CDF"
              (match arg with inr _ => true | inl _ => false end) (match arg with inl _ => true | inr _ => false end) in
  let '(_, _, yl, yu) := r in
  let fix_reversals y := if (2 <? length yl)%nat && (2 <? length yu)%nat then no_reverse_finite true y else y in
  match arg with
  | inl q => Ok (map (fun q => - ln q / Lambda_upper + gamma) q, map (fun q => - ln q / Lambda_lower + gamma) q)
  | inr _ => Ok (fix_reversals yl, fix_reversals yu)
  end.

(** ** extract_CI, Utils.py:7267-7468, and its uses in CDF, SF and CHF, e.g. Distributions.py 548-560, 685-700,
    890-905. A result array of length 1 is unpacked by the code: not modelled. The point estimate
    returned between the bounds is [cdf], [sf], or the CHF, at CI_x, or the quantile at CI_y. *)
Inductive cfunc := F_CDF | F_SF | F_CHF.
Inductive ctype := T_time | T_reliability | T_none.
(** 7308-7315, 7357-7364 *)
Definition q_of (f : cfunc) (y : R) : R := match f with F_SF => y | F_CDF => 1 - y | F_CHF => exp (- y) end.
(** lower, upper = SF_rel[0], SF_rel[1] etc. for the distributions whose first bound is the smaller ... *)
Definition pick_plain (f : cfunc) (r : list R * list R) : list R * list R :=
  match f with
  | F_SF => (fst r, snd r)
  | F_CDF => (map (fun v => 1 - v) (snd r), map (fun v => 1 - v) (fst r))
  | F_CHF => (map (fun v => - ln v) (snd r), map (fun v => - ln v) (fst r))
  end.
(** ... and for Normal, Lognormal and Exponential, 7323-7328, 7388-7393, 7404-7409. *)
Definition pick_swapped (f : cfunc) (r : list R * list R) : list R * list R :=
  match f with
  | F_SF => (snd r, fst r)
  | F_CDF => (map (fun v => 1 - v) (fst r), map (fun v => 1 - v) (snd r))
  | F_CHF => (map (fun v => - ln v) (fst r), map (fun v => - ln v) (snd r))
  end.
Definition pick (d : dist) : cfunc -> list R * list R -> list R * list R :=
  match d with Normal _ _ | Lognormal _ _ _ | Exponential _ _ => pick_swapped | _ => pick_plain end.
(** The *_CI functions return None (so that indexing raises TypeError) if the distribution has no
    standard errors. *)
Definition needs {A} (s : option covs) (k : covs -> result A) : result A := match s with Some c => k c | None => Err TypeError end.
Definition extract_CI (gj : gamma_jac) (d : dist) (s : option covs) (f : cfunc) (t : ctype) (CI : R) (CI_y CI_x : option (list R))
  : result (option (list R * list R)) :=
  match CI_y, CI_x with
  | Some _, Some _ => Err ValueError
  | _, _ =>
    match d with
    | Exponential l g =>
      match CI_y, CI_x with
      | Some y, _ => let! r := needs s (fun c => exponential_CI l g (se_a c) (Z_of CI) (inl (map (q_of f) y))) in Ok (Some r)
      | None, Some x => let! r := needs s (fun c => exponential_CI l g (se_a c) (Z_of CI) (inr x)) in Ok (Some (pick d f r))
      | None, None => Ok None
      end
    | _ =>
      match t, CI_y, CI_x with
      | T_time, Some y, _ =>
        match d with
        | DistModel.Beta _ _ => Err ValueError
        | _ => let! r := needs s (fun c => ci_time gj d c (Z_of CI) (map (q_of f) y)) in Ok (Some r)
        end
      | T_reliability, _, Some x =>
        match d with
        | DistModel.Beta _ _ => Err ValueError
        | _ => let! r := needs s (fun c => ci_reliability gj d c (Z_of CI) x) in Ok (Some (pick d f r))
        end
      | _, _, _ => Ok None
      end
    end
  end.
