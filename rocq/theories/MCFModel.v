(** Model of MCF_parametric: Repairable_systems.py 1066-1324. Printing and plotting are left
    out, except for the verdict that is printed and the values of the curve and of its band. *)
From Coq Require Import List Arith Reals Bool.
From Verif Require Import Base Gauss RList NonparModel RepairModel PoFModel CIModel.
Import ListNotations.
Open Scope R_scope.

(** What scipy's curve_fit returns: the parameters, their variances and covariance. *)
Record curve := mkCurve { cv_alpha : R; cv_beta : R; cv_var_alpha : R; cv_var_beta : R; cv_cov : R }.

(** The objective, 1201-1202, for t, a > 0. *)
Definition mcf_eqn (t a b : R) : R := Rpower (t / a) b.

(** The starting point, 1187-1198: np.polyfit of the logarithms. [noisy]: the rank deficient
    answer of polyfit when the times are all equal. The logarithm of a time that is not
    positive makes polyfit fail with LinAlgError: RuntimeError here. A slope of 0 is shown not to
    occur. *)
Definition mcf_guess (noisy : R * R) (times MCF : list R) : result (R * R) :=
  if existsb (fun t => Rleb t 0) times then Err RuntimeError
  else
    let '(m, c) := match polyfit1 (map ln times) (map ln MCF) with Some l => l | None => noisy end in
    Ok (exp (- c / m), m).

Record mcf_parametric_result := mkPMCF {
  pm_times : list R; pm_MCF : list R; pm_alpha : R; pm_beta : R; pm_alpha_SE : R; pm_beta_SE : R; pm_cov : R;
  pm_alpha_lower : R; pm_alpha_upper : R; pm_beta_lower : R; pm_beta_upper : R; pm_verdict : trend }.

(** 1244-1255 *)
Definition verdict (lower upper : R) : trend :=
  if Rle_dec upper 1 then Improving
  else if Rlt_dec lower 1 then (if Rlt_dec 1 upper then Constant else Worsening) else Worsening.

(** __init__, 1172-1227. [curve_fit]: scipy's; it raises TypeError for fewer points than
    parameters. MCF_nonparametric is called with its default CI of 0.95. The second component is
    the caller's data afterwards. *)
Definition mcf_parametric (curve_fit : list R -> list R -> R * R -> result curve) (noisy : R * R)
    (data : list (list R)) (CI : R) : result mcf_parametric_result * list (list R) :=
  if Rleb CI 0 || Rleb 1 CI then (Err ValueError, data)
  else
    let (np, data') := mcf_nonparametric data (95 / 100) in
    (let! np := np in
     let! guess := mcf_guess noisy (mcf_time np) (mcf_MCF np) in
     let! fit := if (length (mcf_time np) <? 2)%nat then Err TypeError else curve_fit (mcf_time np) (mcf_MCF np) guess in
     let Z := Z_of CI in
     let a := cv_alpha fit in
     let b := cv_beta fit in
     let a_SE := sqrt (cv_var_alpha fit) in
     let b_SE := sqrt (cv_var_beta fit) in
     let b_lower := b * exp (- Z * (b_SE / b)) in
     let b_upper := b * exp (Z * (b_SE / b)) in
     Ok (mkPMCF (mcf_time np) (mcf_MCF np) a b a_SE b_SE (cv_cov fit)
           (a * exp (- Z * (a_SE / a))) (a * exp (Z * (a_SE / a))) b_lower b_upper (verdict b_lower b_upper)), data').

(** The curve and its band at x > 0, 1277-1293: (lower, value, upper). *)
Definition mcf_line (r : mcf_parametric_result) (x : R) : R := Rpower (x / pm_alpha r) (pm_beta r).
Definition mcf_band (r : mcf_parametric_result) (CI x : R) : R * R :=
  let Z := Z_of CI in
  let a := pm_alpha r in
  let b := pm_beta r in
  let y := mcf_line r x in
  let p1 := - (b / a) * Rpower (x / a) b in
  let p2 := Rpower (x / a) b * ln (x / a) in
  let var := pm_alpha_SE r ^ 2 * p1 ^ 2 + pm_beta_SE r ^ 2 * p2 ^ 2 + 2 * p1 * p2 * pm_cov r in
  let SD := sqrt var in
  (y * exp (- Z * SD / y), y * exp (Z * SD / y)).
