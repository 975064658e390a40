(** Model of the standard probability distributions of /repo/reliability/Distributions.py.
    The values scipy.stats returns are given by the textbook formulas of the distributions
    (scipy is external); what the code itself computes - modes, hazard functions,
    thresholds, input checks, quantile checks - is modelled as written. *)
From Coquelicot Require Import Coquelicot.
From Coq Require Import List Arith Reals Lra Lia Bool ZArith.
From Verif Require Import Base RealFacts Gauss Improper Ext.
Import ListNotations.
Open Scope R_scope.

(** The eight distribution classes with their parameters: Distributions.py 55, 1060, 1985,
    2966, 3916, 4908, 5630, 6684. *)
Inductive dist :=
| Weibull (alpha beta gamma : R)
| Normal (mu sigma : R)
| Lognormal (mu sigma gamma : R)
| Exponential (Lambda gamma : R)
| Gamma (alpha beta gamma : R)
| Beta (alpha beta : R)
| Loglogistic (alpha beta gamma : R)
| Gumbel (mu sigma : R).

(** The documented parameter ranges (the constructors do not check them). *)
Definition valid (d : dist) : Prop :=
  match d with
  | Weibull a b g | Gamma a b g | Loglogistic a b g => 0 < a /\ 0 < b /\ 0 <= g
  | Normal _ s | Gumbel _ s => 0 < s
  | Lognormal _ s g => 0 < s /\ 0 <= g
  | Exponential l g => 0 < l /\ 0 <= g
  | Beta a b => 0 < a /\ 0 < b
  end.

(** ** scipy.stats *)

(** Euler's integrals and the integrands of the Gamma and Beta distributions. *)
Definition gamma_kernel (b t : R) : R := Rpower t (b - 1) * exp (- t).
Definition gamma_fun (b : R) : R := int_over (gamma_kernel b) 0 p_infty.
Definition beta_kernel (a b t : R) : R := Rpower t (a - 1) * Rpower (1 - t) (b - 1).
Definition beta_fun (a b : R) : R := int_over (beta_kernel a b) 0 1.

(** The value of v * y ** (c - 1) at y = 0 in numpy arithmetic, v > 0. *)
Definition at_end (c v : R) : ext := if Rlt_dec c 1 then PInf else if Req_EM_T c 1 then Fin v else Fin 0.

(** ss.<distribution>.pdf. scipy's supports are closed, so the density also has a value at
    the end of the support, which may be inf. (For fisk at 0 this is what current scipy
    versions return.) *)
Definition pdf (d : dist) (x : R) : ext :=
  match d with
  | Weibull a b g => let y := (x - g) / a in
      if Rlt_dec y 0 then Fin 0 else if Req_EM_T y 0 then at_end b (1 / a)
      else Fin (b * Rpower y (b - 1) * exp (- Rpower y b) / a)
  | Normal m s => Fin (phi ((x - m) / s) / s)
  | Lognormal m s g => let y := (x - g) / exp m in
      if Rle_dec y 0 then Fin 0 else Fin (phi (ln y / s) / (s * y) / exp m)
  | Exponential l g => let y := (x - g) / (1 / l) in
      if Rlt_dec y 0 then Fin 0 else Fin (exp (- y) / (1 / l))
  | Gamma a b g => let y := (x - g) / a in
      if Rlt_dec y 0 then Fin 0 else if Req_EM_T y 0 then at_end b (1 / gamma_fun b / a)
      else Fin (gamma_kernel b y / gamma_fun b / a)
  | Beta a b =>
      if Rlt_dec x 0 then Fin 0 else if Rlt_dec 1 x then Fin 0
      else if Req_EM_T x 0 then at_end a (1 / beta_fun a b) else if Req_EM_T x 1 then at_end b (1 / beta_fun a b)
      else Fin (beta_kernel a b x / beta_fun a b)
  | Loglogistic a b g => let y := (x - g) / a in
      if Rlt_dec y 0 then Fin 0 else if Req_EM_T y 0 then at_end b (1 / a)
      else Fin (b * Rpower y (b - 1) / (1 + Rpower y b) ^ 2 / a)
  | Gumbel m s => let y := (x - m) / s in Fin (exp (y - exp y) / s)
  end.

Definition on_pos (G : R -> R) (below y : R) : R := if Rlt_dec 0 y then G y else below.

(** ss.<distribution>.cdf *)
Definition cdf (d : dist) (x : R) : R :=
  match d with
  | Weibull a b g => on_pos (fun y => 1 - exp (- Rpower y b)) 0 ((x - g) / a)
  | Normal m s => Phi ((x - m) / s)
  | Lognormal m s g => on_pos (fun y => Phi (ln y / s)) 0 ((x - g) / exp m)
  | Exponential l g => on_pos (fun y => 1 - exp (- y)) 0 ((x - g) / (1 / l))
  | Gamma a b g => on_pos (fun y => int_below (gamma_kernel b) 0 y / gamma_fun b) 0 ((x - g) / a)
  | Beta a b => on_pos (fun y => if Rlt_dec y 1 then int_below (beta_kernel a b) 0 y / beta_fun a b else 1) 0 x
  | Loglogistic a b g => on_pos (fun y => 1 / (1 + Rpower y (- b))) 0 ((x - g) / a)
  | Gumbel m s => 1 - exp (- exp ((x - m) / s))
  end.

(** ss.<distribution>.sf: computed by its own formula, not as 1 - cdf. For Gamma and Beta
    it is the integral above x. *)
Definition sf (d : dist) (x : R) : R :=
  match d with
  | Weibull a b g => on_pos (fun y => exp (- Rpower y b)) 1 ((x - g) / a)
  | Normal m s => Phi (- ((x - m) / s))
  | Lognormal m s g => on_pos (fun y => Phi (- (ln y / s))) 1 ((x - g) / exp m)
  | Exponential l g => on_pos (fun y => exp (- y)) 1 ((x - g) / (1 / l))
  | Gamma a b g => on_pos (fun y => int_over (gamma_kernel b) y p_infty / gamma_fun b) 1 ((x - g) / a)
  | Beta a b => on_pos (fun y => if Rlt_dec y 1 then int_over (beta_kernel a b) y 1 / beta_fun a b else 0) 1 x
  | Loglogistic a b g => on_pos (fun y => 1 / (1 + Rpower y b)) 1 ((x - g) / a)
  | Gumbel m s => exp (- exp ((x - m) / s))
  end.

(** ss.<distribution>.ppf and isf for 0 < q < 1. At 0 and 1 scipy returns the ends of the
    support, possibly infinite: not modelled. For Gamma and Beta scipy inverts the
    distribution function numerically: the inverse function. *)
Definition ppf (d : dist) (q : R) : R :=
  match d with
  | Weibull a b g => Rpower (- ln (1 - q)) (1 / b) * a + g
  | Normal m s => norm_ppf q * s + m
  | Lognormal m s g => exp (s * norm_ppf q) * exp m + g
  | Exponential l g => - ln (1 - q) * (1 / l) + g
  | Gamma _ _ _ | Beta _ _ => inverse_of (cdf d) q
  | Loglogistic a b g => Rpower (/ q - 1) (- (1 / b)) * a + g
  | Gumbel m s => ln (- ln (1 - q)) * s + m
  end.
Definition isf (d : dist) (q : R) : R :=
  match d with
  | Weibull a b g => Rpower (- ln q) (1 / b) * a + g
  | Normal m s => - norm_ppf q * s + m
  | Lognormal m s g => exp (s * - norm_ppf q) * exp m + g
  | Exponential l g => - ln q * (1 / l) + g
  | Gamma _ _ _ | Beta _ _ => inverse_of (cdf d) (1 - q)
  | Loglogistic a b g => Rpower (q / (1 - q)) (- (1 / b)) * a + g
  | Gumbel m s => ln (- ln q) * s + m
  end.

(** ** What the classes compute *)

(** self.median: Distributions.py 119, 1117, 2049, 3027, 3980, 4969, 5716, 6742. scipy's
    median is ppf(0.5). *)
Definition median (d : dist) : R :=
  match d with
  | Normal m _ => m
  | Gumbel m s => m + s * ln (ln 2)
  | _ => ppf d (1 / 2)
  end.

(** 0 ** y and x ** y for x >= 0, y >= 0, in the mode formulas. *)
Definition pow0 (x y : R) : R := if Rlt_dec 0 x then Rpower x y else if Req_EM_T y 0 then 1 else 0.

(** self.mode: Distributions.py 120-126, 1118, 2050, 3028, 3981-3984, 4970-4973, 5717-5723,
    6743. [None]: the message that no mode exists. *)
Definition mode (d : dist) : option R :=
  match d with
  | Weibull a b g => Some (if Rle_dec 1 b then a * pow0 ((b - 1) / b) (1 / b) + g else g)
  | Normal m _ => Some m
  | Lognormal m s g => Some (exp (m - s ^ 2) + g)
  | Exponential _ g => Some g
  | Gamma a b g => Some (if Rle_dec 1 b then (b - 1) * a + g else g)
  | Beta a b => if Rlt_dec 1 a then if Rlt_dec 1 b then Some ((a - 1) / (b + a - 2)) else None else None
  | Loglogistic a b g => Some (if Rle_dec 1 b then a * pow0 ((b - 1) / (b + 1)) (1 / b) + g else g)
  | Gumbel m _ => Some m
  end.

(** x ** y elementwise on numpy arrays: inf for a zero base and negative exponent, nan for
    a negative base unless the exponent is an integer. *)
Definition npow (x y : R) : ext :=
  if Rlt_dec 0 x then Fin (Rpower x y)
  else if Req_EM_T x 0 then (if Rlt_dec 0 y then Fin 0 else if Req_EM_T y 0 then Fin 1 else PInf)
  else if Req_EM_T y (IZR (Int_part y)) then Fin (powerRZ x (Int_part y)) else NaN.

(** k * v for k > 0. *)
Definition escale (k : R) (v : ext) : ext := match v with Fin x => Fin (k * x) | PInf => PInf | NaN => NaN end.
(** numpy division; -inf (a negative number over zero) is not distinguished from nan. *)
Definition ediv (u v : ext) : ext :=
  match u, v with
  | Fin x, Fin y => if Req_EM_T y 0 then (if Rlt_dec 0 x then PInf else NaN) else Fin (x / y)
  | PInf, Fin y => if Rle_dec 0 y then PInf else NaN
  | Fin x, PInf => Fin 0
  | _, _ => NaN
  end.
(** np.log of a value that is not negative; nan otherwise (log 0 = -inf is not used). *)
Definition elog (v : ext) : ext :=
  match v with Fin x => if Rlt_dec 0 x then Fin (ln x) else NaN | PInf => PInf | NaN => NaN end.
(** -np.log(s) of a survival probability. *)
Definition neg_log (s : R) : ext := if Rlt_dec 0 s then Fin (- ln s) else if Req_EM_T s 0 then PInf else NaN.

(** The hazard before thresholding: Distributions.py 736-738, 1688, 2646, 3603, 4591, 5381,
    6358-6361, 7314 *)
Definition hf_formula (d : dist) (x : R) : ext :=
  match d with
  | Weibull a b g => escale (b / a) (npow ((x - g) / a) (b - 1))
  | Exponential l _ => Fin l
  | Loglogistic a b g =>
      ediv (escale (b / a) (npow ((x - g) / a) (b - 1))) (eadd (Fin 1) (npow ((x - g) / a) b))
  | Gumbel m s => Fin (exp ((x - m) / s) / s)
  | _ => ediv (pdf d x) (Fin (sf d x))
  end.
(** The cumulative hazard before thresholding: 853, 1799, 2762, 3720, 4704, 5447, 6477, 7425 *)
Definition chf_formula (d : dist) (x : R) : ext :=
  match d with
  | Weibull a b g => npow ((x - g) / a) b
  | Exponential l g => Fin ((x - g) * l)
  | Loglogistic a b g => elog (eadd (Fin 1) (npow ((x - g) / a) b))
  | Gumbel m s => Fin (exp ((x - m) / s))
  | _ => neg_log (sf d x)
  end.

(** zeroise_below_gamma on arrays: Utils.py 790-820. Everything before the first X > gamma
    is set to zero. *)
Fixpoint zero_prefix (g : R) (X : list R) (Y : list ext) : list ext :=
  match X, Y with
  | x :: xs, y :: ys => if Rlt_dec g x then y :: ys else Fin 0 :: zero_prefix g xs ys
  | _, _ => Y
  end.
Definition zeroise_below_gamma (X : list R) (Y : list ext) (g : R) : list ext :=
  if Rlt_dec 0 g then zero_prefix g X Y else Y.

(** The classes that call it: 739, 854, 3604, 3721, 6362, 6478 *)
Definition zeroised (d : dist) : option R :=
  match d with Weibull _ _ g | Exponential _ g | Loglogistic _ _ g => Some g | _ => None end.

(** The checks of generate_X_array on an array xvals: Utils.py 548-575 *)
Definition is_signed (d : dist) : bool := match d with Normal _ _ | Gumbel _ _ => true | _ => false end.
Definition is_beta (d : dist) : bool := match d with Beta _ _ => true | _ => false end.
Definition Rltb' (x y : R) : bool := if Rlt_dec x y then true else false.
Definition array_ok (d : dist) (X : list R) : bool :=
  match X with
  | [] => false (* min([]) raises ValueError *)
  | _ => (is_signed d || forallb (fun x => negb (Rltb' x 0)) X) && (negb (is_beta d) || forallb (fun x => negb (Rltb' 1 x)) X)
  end.

(** The methods on array xvals (a list or a numpy array), show_plot=False: PDF 394, CDF 509,
    SF 646, HF 736-740, CHF 853-855, and likewise in the other classes. unpack_single_arrays,
    which turns a one element array into its element, is left out. *)
Definition PDF (d : dist) (X : list R) : result (list ext) := if array_ok d X then Ok (map (pdf d) X) else Err ValueError.
Definition CDF (d : dist) (X : list R) : result (list R) := if array_ok d X then Ok (map (cdf d) X) else Err ValueError.
Definition SF (d : dist) (X : list R) : result (list R) := if array_ok d X then Ok (map (sf d) X) else Err ValueError.
Definition thresholded (d : dist) (X : list R) (Y : list ext) : list ext :=
  match zeroised d with Some g => zeroise_below_gamma X Y g | None => Y end.
Definition HF (d : dist) (X : list R) : result (list ext) :=
  if array_ok d X then Ok (thresholded d X (map (hf_formula d) X)) else Err ValueError.
Definition CHF (d : dist) (X : list R) : result (list ext) :=
  if array_ok d X then Ok (thresholded d X (map (chf_formula d) X)) else Err ValueError.

(** Scalar xvals (Python int or float): no check is made, the formulas run on a Python
    float: Utils.py 7136-7143. A zero to a negative power raises ZeroDivisionError, a
    negative number to a fractional power is complex ([None]), and assigning to a slice of
    a float raises TypeError in zeroise_below_gamma (Utils.py 815-820). *)
Definition py_pow (x y : R) : result (option R) :=
  if Rlt_dec 0 x then Ok (Some (Rpower x y))
  else if Req_EM_T x 0 then
    (if Rlt_dec 0 y then Ok (Some 0) else if Req_EM_T y 0 then Ok (Some 1) else Err ZeroDivisionError)
  else if Req_EM_T y (IZR (Int_part y)) then Ok (Some (powerRZ x (Int_part y))) else Ok None.

Definition scalar_threshold {A} (d : dist) (v : A) : result A :=
  match zeroised d with Some g => if Rlt_dec 0 g then Err TypeError else Ok v | None => Ok v end.

(** Only the classes with a formula of their own; the others return ediv (pdf) (sf), numpy
    values. [None]: a complex number. *)
Definition HF_scalar (d : dist) (x : R) : result (option ext) :=
  match d with
  | Weibull a b g =>
      let! p := py_pow ((x - g) / a) (b - 1) in
      scalar_threshold d (option_map (fun p => Fin (b / a * p)) p)
  | Loglogistic a b g =>
      let! p := py_pow ((x - g) / a) (b - 1) in
      let! q := py_pow ((x - g) / a) b in
      match p, q with
      | Some p, Some q => if Req_EM_T (1 + q) 0 then Err ZeroDivisionError else scalar_threshold d (Some (Fin (b / a * p / (1 + q))))
      | _, _ => scalar_threshold d None
      end
  | _ => scalar_threshold d (Some (hf_formula d x))
  end.
Definition CHF_scalar (d : dist) (x : R) : result (option ext) :=
  match d with
  | Weibull a b g =>
      let! p := py_pow ((x - g) / a) b in scalar_threshold d (option_map Fin p)
  | Loglogistic a b g =>
      let! p := py_pow ((x - g) / a) b in
      match p with Some p => scalar_threshold d (Some (elog (Fin (1 + p)))) | None => scalar_threshold d None end
  | _ => scalar_threshold d (Some (chf_formula d x))
  end.

(** quantile and inverse_SF on a number: 917-960, and likewise in the other classes *)
Definition quantile (d : dist) (q : R) : result R :=
  if Rlt_dec q 0 then Err ValueError else if Rlt_dec 1 q then Err ValueError else Ok (ppf d q).
Definition inverse_SF (d : dist) (q : R) : result R :=
  if Rlt_dec q 0 then Err ValueError else if Rlt_dec 1 q then Err ValueError else Ok (isf d q).
(** On a list: min(q) < 0 or max(q) > 1; min of an empty list raises ValueError. *)
Definition quantile_list (d : dist) (q : list R) : result (list R) :=
  match q with
  | [] => Err ValueError
  | _ => if existsb (fun v => Rltb' v 0) q || existsb (fun v => Rltb' 1 v) q then Err ValueError else Ok (map (ppf d) q)
  end.
Definition inverse_SF_list (d : dist) (q : list R) : result (list R) :=
  match q with
  | [] => Err ValueError
  | _ => if existsb (fun v => Rltb' v 0) q || existsb (fun v => Rltb' 1 v) q then Err ValueError else Ok (map (isf d) q)
  end.
