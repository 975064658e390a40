(** Model of the plots of KaplanMeier, NelsonAalen and RankAdjustment (Nonparametric.py 246-347, 570-671, 884-895, 929-1012)
    and of the attributes they draw. *)
From Coq Require Import String.
From Coq Require Import List Arith Reals Bool.
From Verif Require Import Base Ext NonparModel.
Import ListNotations.
Open Scope R_scope.

(** The step arrays of an estimate. *)
Record curve := mkCurve { cv_x : list R; cv_SF : list R; cv_lower : list ext; cv_upper : list ext }.
Definition curve_of (s : steps) : curve := mkCurve (st_x s) (st_SF s) (st_lower s) (st_upper s).

(** 1 - v and -np.log(v), which is inf at 0. *)
Definition complement (v : ext) : ext := match v with Fin x => Fin (1 - x) | PInf => NaN | NaN => NaN end.
Definition neg_log (v : ext) : ext :=
  match v with
  | Fin x => if Rlt_dec 0 x then Fin (- ln x) else if Req_EM_T x 0 then PInf else NaN
  | PInf | NaN => NaN
  end.

Inductive kind := K_SF | K_CDF | K_CHF.
(** 123-124, 271, 294, 317 *)
Definition parse_kind (s : string) : option kind :=
  if (String.eqb s "SF" || String.eqb s "sf")%string then Some K_SF
  else if (String.eqb s "CDF" || String.eqb s "cdf")%string then Some K_CDF
  else if (String.eqb s "CHF" || String.eqb s "chf")%string then Some K_CHF
  else None.
(** The attributes SF, CDF, CHF and their limits, 248-256. *)
Definition values (k : kind) (c : curve) : list ext :=
  match k with
  | K_SF => map Fin (cv_SF c)
  | K_CDF => map (fun y => complement (Fin y)) (cv_SF c)
  | K_CHF => map (fun y => neg_log (Fin y)) (cv_SF c)
  end.
Definition lowers (k : kind) (c : curve) : list ext :=
  match k with K_SF => cv_lower c | K_CDF => map complement (cv_upper c) | K_CHF => map neg_log (cv_upper c) end.
Definition uppers (k : kind) (c : curve) : list ext :=
  match k with K_SF => cv_upper c | K_CDF => map complement (cv_lower c) | K_CHF => map neg_log (cv_lower c) end.

(** max of two and of a list. *)
Definition larger (a b : R) : R := if Rlt_dec a b then b else a.
Fixpoint largest (m : R) (l : list R) : R := match l with [] => m | x :: r => largest (larger m x) r end.
Definition max_time (rows : list row) : R := match rows with [] => 0 | r :: l => largest (fst r) (map fst l) end.

Record chart := mkChart { ch_x : list R; ch_y : list ext; ch_band : option (list ext * list ext); ch_xlim : R * R; ch_ylim : R * R }.
(** The upper limit of the band of a cumulative hazard is drawn at 1e10 where it is infinite: 322. *)
Definition nan_to_num (v : ext) : ext := match v with Fin x => Fin x | PInf => Fin (10 ^ 10) | NaN => Fin 0 end.
(** The chart, 268-347. [xhi], [yhi]: the upper limits of the axes before. *)
Definition draw_curve (k : kind) (plot_CI : bool) (xhi yhi : R) (rows : list row) (c : curve) : result chart :=
  let band := if plot_CI then Some (lowers k c, match k with K_CHF => map nan_to_num (uppers k c) | _ => uppers k c end) else None in
  let xlim := (0, larger (max_time rows) xhi) in
  match k with
  | K_SF | K_CDF => Ok (mkChart (cv_x c) (values k c) band xlim (0, 11 / 10))
  | K_CHF =>
      match nth (length (values k c) - 2) (values k c) NaN with
      | Fin v => Ok (mkChart (cv_x c) (values k c) band xlim (0, larger yhi (v * (12 / 10))))
      | _ => Err ValueError
      end
  end.
Definition check_kind (s : string) : result kind := match parse_kind s with Some k => Ok k | None => Err ValueError end.
(** The three classes; [E_RA] with its argument a. *)
Inductive estimator := E_KM | E_NA | E_RA (a : option R).
(** The rows of the data frame results. *)
Definition np_entries (e : estimator) (CI : R) (rows : list row) : result (list entry) :=
  match e with
  | E_KM => kaplan_meier CI rows
  | E_NA => let! hes := nelson_aalen CI rows in Ok (map snd hes)
  | E_RA a => let! res := rank_adjustment CI a rows in Ok (ra_entries res)
  end.
(** The attributes xvals, SF, SF_lower and SF_upper: 246-249, 569-573, 884-889. *)
Definition np_curve (e : estimator) (CI : R) (rows : list row) : result curve :=
  match e with
  | E_KM => let! es := kaplan_meier CI rows in Ok (curve_of (step_arrays es))
  | E_NA => let! hes := nelson_aalen CI rows in Ok (curve_of (step_arrays (map snd hes)))
  | E_RA a => let! res := rank_adjustment CI a rows in Ok (mkCurve (ra_x res) (ra_SF res) (ra_lower res) (ra_upper res))
  end.
(** The plot: the check of plot_type at 123-124 (448-449, 779-780), then the estimate, then 268-347 (592-671, 929-1012). *)
Definition np_plot (e : estimator) (plot_type : string) (plot_CI : bool) (CI xhi yhi : R) (rows : list row) : result chart :=
  let! k := check_kind plot_type in
  let! c := np_curve e CI rows in
  draw_curve k plot_CI xhi yhi rows c.
