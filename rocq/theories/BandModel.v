(** Model of the shaded confidence bands: fill_no_autoscale, line_no_autoscale (Utils.py 2527-2589) and the band of an
    exponential distribution (2670-2770). *)
From Coq Require Import String.
From Coq Require Import List Arith Reals Bool.
From Verif Require Import Base Ext ConvertModel DistModel CIModel.
Import ListNotations.
Open Scope R_scope.

(** ystack[np.where(ystack >= 1)] = 0.9999999 and ystack[np.where(ystack <= 0)] = 0.0000001 (2554-2557). *)
Definition legal_height (y : R) : R := if Rle_dec 1 y then 1 - / 10 ^ 7 else if Rle_dec y 0 then / 10 ^ 7 else y.
(** fill_no_autoscale, 2549-2559: the vertices of the polygon. [paper]: get_yscale() == "function". That the polygon does not
    count for the limits of the axes (autolim=False) is matplotlib's. *)
Definition fill_no_autoscale (paper : bool) (xlower xupper ylower yupper : list R) : list (R * R) :=
  let xstack := xlower ++ rev xupper in
  let ystack := ylower ++ rev yupper in
  combine xstack (if paper then map legal_height ystack else ystack).
(** line_no_autoscale, 2587: np.column_stack([x, y]) *)
Definition line_no_autoscale (x y : list R) : list (R * R) := combine x y.

Definition func_name (f : cfunc) : string := match f with F_CDF => "CDF" | F_SF => "SF" | F_CHF => "CHF" end.
(** What is drawn: the polygon and two invisible lines for crosshairs(). *)
Record band := { b_polygon : list (R * R); b_line_lower : list (R * R); b_line_upper : list (R * R) }.
(** exponential_CI with plot_CI=True and neither q nor x, 2711-2770. *)
Definition exponential_band (paper : bool) (f : cfunc) (Lambda gamma SE Z : R) : result band :=
  let Lambda_upper := Lambda * exp (Z * (SE / Lambda)) in
  let Lambda_lower := Lambda * exp (- Z * (SE / Lambda)) in
  let t := geomspace (ppf (Exponential Lambda gamma) (/ 10 ^ 5) - gamma) (ppf (Exponential Lambda gamma) (1 - / 10 ^ 5) - gamma) 200 in
  let Y_lower := map (fun t => exp (- Lambda_lower * t)) t in
  let Y_upper := map (fun t => exp (- Lambda_upper * t)) t in
  let! r := clean_CI_arrays (map Some t) (map Some t) (map Some Y_lower) (map Some Y_upper) (func_name f) false false in
  let '(_, t, yl, yu) := r in
  let fix_reversals y := if (2 <? length yl)%nat && (2 <? length yu)%nat then no_reverse_finite true y else y in
  let shape := match f with F_CDF => fun v => 1 - v | F_SF => fun v => v | F_CHF => fun v => - ln v end in
  let yy_upper := map shape (fix_reversals yu) in
  let yy_lower := map shape (fix_reversals yl) in
  let x := map (fun t => t + gamma) t in
  Ok {| b_polygon := fill_no_autoscale paper x x yy_lower yy_upper;
        b_line_lower := line_no_autoscale x yy_lower; b_line_upper := line_no_autoscale x yy_upper |}.
