(** Model of linear_regression and of the linearised part of least_squares in
    /repo/reliability/Utils.py. *)
From Coquelicot Require Import Coquelicot.
From Coq Require Import List Arith Reals Lra Lia Bool.
From Verif Require Import Base RealFacts Gauss Ext RList DistModel CombModel.
Import ListNotations.
Open Scope R_scope.

Inductive rr := RRX | RRY.

Definition dotp (u v : list R) : R := rsum (zip Rmult u v).
(** np.linalg.inv(A.T.dot(A)).dot(A.T).dot(b) for A with the single column u, or the columns
    u and ones: Utils.py:4569-4573, 4593-4597. [None]: LinAlgError, raised exactly when the
    determinant is zero (in exact arithmetic). *)
Definition solve1 (u v : list R) : option R :=
  if Req_EM_T (dotp u u) 0 then None else Some (/ dotp u u * dotp u v).
Definition solve2 (u v : list R) : option (R * R) :=
  let a := dotp u u in let b := rsum u in let n := INR (length u) in
  let det := a * n - b * b in
  if Req_EM_T det 0 then None
  else Some (n / det * dotp u v - b / det * rsum v, - b / det * dotp u v + a / det * rsum v).

(** RRX_or_RRY is given as a string; [None] is any string but "RRX" and "RRY". *)
(** 4600-4612: m = 1/m_x, c = -c_x/m_x. numpy scalars: division by zero gives inf or nan with
    a warning, [None]. *)
Definition rearrange (m_x c_x : R) : option (R * R) :=
  if Req_EM_T m_x 0 then None else Some (1 / m_x, - c_x / m_x).
Definition solved {A} (o : option A) : result A := match o with Some v => Ok v | None => Err RuntimeError end.

(** linear_regression, Utils.py:4478-4646 without the plot. [Ok None]: a slope or intercept
    that is not finite. *)
Definition linear_regression (x y : list R) (slope x_intercept y_intercept : option R) (RRX_or_RRY : option rr)
  : result (option (R * R)) :=
  if negb (length x =? length y)%nat then Err ValueError else
  match RRX_or_RRY with
  | None => Err ValueError
  | Some meth =>
    match meth, slope, x_intercept, y_intercept with
    | RRY, _, Some _, _ => Err ValueError
    | RRX, _, _, Some _ => Err ValueError
    | _, Some _, Some _, _ | _, Some _, _, Some _ => Err ValueError
    | RRY, None, None, Some c =>
        if (length x <? 1)%nat then Err ValueError else
        let! m := solved (solve1 x (map (fun v => v - c) y)) in Ok (Some (m, c))
    | RRY, Some m, None, None =>
        if (length x <? 1)%nat then Err ValueError else
        let! c := solved (solve1 (map (fun _ => 1) x) (zip (fun yi xi => yi - m * xi) y x)) in Ok (Some (m, c))
    | RRY, None, None, None =>
        if (length x <? 2)%nat then Err ValueError else
        let! s := solved (solve2 x y) in Ok (Some s)
    | RRX, None, Some x0, None =>
        if (length x <? 1)%nat then Err ValueError else
        let! m_x := solved (solve1 y (map (fun v => v - x0) x)) in Ok (rearrange m_x x0)
    | RRX, Some s, None, None =>
        if (length x <? 1)%nat then Err ValueError else
        let! c_x := solved (solve1 (map (fun _ => 1) y) (zip (fun xi yi => xi - s * yi) x y)) in
        (* 1 / slope with a python number *)
        if Req_EM_T s 0 then Err ZeroDivisionError else Ok (Some (1 / s, - c_x / s))
    | RRX, None, None, None =>
        if (length x <? 2)%nat then Err ValueError else
        let! s := solved (solve2 y x) in Ok (rearrange (fst s) (snd s))
    end
  end.

(** least_squares, Utils.py:4649-5130, for the distributions whose CDF is linearised. The
    plotting positions (x, y) are given: they come from plotting_positions (NonparModel). *)
Inductive ls_dist := LS_Weibull | LS_Exponential | LS_Normal | LS_Gumbel | LS_Lognormal | LS_Loglogistic.
Definition signed_dist (d : ls_dist) : bool := match d with LS_Normal | LS_Gumbel => true | _ => false end.
Definition shape_dist (d : ls_dist) : bool := match d with LS_Weibull | LS_Normal | LS_Lognormal => true | _ => false end.
(** 4726-4731, 4788, 4834, 4844, 4854, 4899: the straightened ordinates and abscissae *)
Definition ylin (d : ls_dist) (y : R) : R :=
  match d with
  | LS_Weibull | LS_Gumbel => ln (- ln (1 - y))
  | LS_Exponential => - ln (1 - y)
  | LS_Normal | LS_Lognormal => norm_ppf y
  | LS_Loglogistic => ln (1 / y - 1)
  end.
Definition xlin (d : ls_dist) (x : R) : R :=
  match d with LS_Weibull | LS_Lognormal | LS_Loglogistic => ln x | _ => x end.
(** 4727-4728 (Weibull: inverted for RRX), 4835-4836, 4856-4857 (Normal, Lognormal: inverted for RRY) *)
Definition forced_slope (d : ls_dist) (meth : rr) (force_shape : option R) : option R :=
  match d, meth with
  | LS_Weibull, RRX | LS_Normal, RRY | LS_Lognormal, RRY => option_map (fun s => 1 / s) force_shape
  | _, _ => force_shape
  end.
(** The parameters read off the line; [None]: not finite. *)
Definition line_params (d : ls_dist) (line : R * R) : option (list R) :=
  let (slope, intercept) := line in
  match d with
  | LS_Weibull => if Req_EM_T slope 0 then None else Some [exp (- intercept / slope); slope]
  | LS_Exponential => Some [slope]
  | LS_Normal | LS_Gumbel | LS_Lognormal => if Req_EM_T slope 0 then None else Some [- intercept * (1 / slope); 1 / slope]
  | LS_Loglogistic => if Req_EM_T slope 0 then None else Some [exp (intercept / - slope); - slope]
  end.
Definition least_squares (d : ls_dist) (failures x y : list R) (meth : option rr) (force_shape : option R) : result (option (list R)) :=
  if existsb (fun t => if Rle_dec t 0 then true else false) failures && negb (signed_dist d) then Err ValueError else
  let! _ := match force_shape with Some _ => if negb (shape_dist d) then Err ValueError else Ok tt | None => Ok tt end in
  match meth with
  | None => Err ValueError
  | Some me =>
      let through := match d with LS_Exponential => Some 0 | _ => None end in
      let! line := linear_regression (map (xlin d) x) (map (ylin d) y) (forced_slope d me force_shape)
                     (match me with RRX => through | RRY => None end) (match me with RRY => through | RRX => None end) (Some me) in
      Ok (match line with Some l => line_params d l | None => None end)
  end.
