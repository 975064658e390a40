(** Model of xy_transform (Utils.py 823-916) and probability_plot_xyticks (Utils.py 1063-1309).
    matplotlib's transforms of the current axes are modelled for axes whose two directions are independent: a position on the
    screen is affine in the scaled value (ax.transData) or in the fraction of the axis (ax.transAxes). The other coordinate that
    is passed along (0.5 or 1) does not matter then and is left out. matplotlib's tick locators are arguments. *)
From Coq Require Import ZArith Reals.
From Coq Require Import String.
From Coq Require Import List Bool.
From Verif Require Import Base Ext RoundModel.
Import ListNotations.
Local Open Scope string_scope.
Local Open Scope list_scope.
Open Scope R_scope.

(** One direction of the axes: the scale and its inverse, the limits (plt.xlim() or plt.ylim()), and where the axis starts on the
    screen and how long it is there. *)
Record axis := { scale : R -> R; unscale : R -> R; lim_1 : R; lim_2 : R; start : R; extent : R }.
Record axes := { x_axis : axis; y_axis : axis }.
(** ax.transData.transform, ax.transData.inverted().transform, ax.transAxes.transform, ax.transAxes.inverted().transform *)
Definition trans_data (a : axis) (v : R) : R := start a + extent a * ((scale a v - scale a (lim_1 a)) / (scale a (lim_2 a) - scale a (lim_1 a))).
Definition inv_data (a : axis) (s : R) : R := unscale a (scale a (lim_1 a) + (s - start a) / extent a * (scale a (lim_2 a) - scale a (lim_1 a))).
Definition trans_axes (a : axis) (u : R) : R := start a + extent a * u.
Definition inv_axes (a : axis) (s : R) : R := (s - start a) / extent a.

(** The value given: a number (int, float, np.float64), a list or array, anything else. *)
Inductive values := V_num (x : R) | V_seq (l : list R) | V_other.
Inductive transformed := T_num (x : R) | T_seq (l : list R).

Definition among (s : string) (l : list string) : bool := existsb (String.eqb s) l.

(** xy_transform: Utils.py 850-916. In the last branch the whole list is passed instead of the item (911-913), which numpy
    refuses with ValueError as 1 and a sequence make no array. *)
Definition xy_transform (ax : axes) (value : values) (direction name : string) : result transformed :=
  if negb (among direction ["reverse"; "inverse"; "inv"; "rev"; "forward"; "fwd"]) then Err ValueError
  else if negb (among name ["X"; "x"; "Y"; "y"]) then Err ValueError
  else if among direction ["reverse"; "inverse"; "inv"; "rev"] then
    match value with
    | V_num v => if String.eqb name "x" then Ok (T_num (inv_data (x_axis ax) (trans_axes (x_axis ax) v)))
                 else Ok (T_num (inv_data (y_axis ax) (trans_axes (y_axis ax) v)))
    | V_seq l => Ok (T_seq (map (fun item => if String.eqb name "x" then inv_data (x_axis ax) (trans_axes (x_axis ax) item)
                                             else inv_data (y_axis ax) (trans_axes (y_axis ax) item)) l))
    | V_other => Err ValueError
    end
  else
    match value with
    | V_num v => if String.eqb name "x" then Ok (T_num (inv_axes (x_axis ax) (trans_data (x_axis ax) v)))
                 else Ok (T_num (inv_axes (y_axis ax) (trans_data (y_axis ax) v)))
    | V_seq l => if String.eqb name "x" then Ok (T_seq (map (fun item => inv_axes (x_axis ax) (trans_data (x_axis ax) item)) l))
                 else match l with [] => Ok (T_seq []) | _ => Err ValueError end
    | V_other => Err ValueError
    end.

(** customFormatter, 1141-1177. '%g' writes six significant digits, the number of [sci 5]; the int of line 1170 is [Int_part].
    [L_plain s]: the text; [L_power sign m e]: sign, the multiplier (None if it is left out) and the exponent of ten. *)
Inductive tick_label := L_plain (s : shown) | L_power (negative : bool) (m : option shown) (e : Z).
Definition x_label (value : R) : tick_label :=
  if Req_EM_T value 0 then L_plain (Whole 0)
  else if (if Rle_dec 10000 (Rabs value) then true else false) || (if Rle_dec (Rabs value) (/ 10 ^ 4) then true else false) then
    let negative := if Rlt_dec value 0 then true else false in
    let v := if negative then value * -1 else value in
    let e := exponent v in
    let multiplier := v / powerRZ 10 e in
    if Rlt_dec (frac_part multiplier) (/ 10 ^ 7) then
      let m := Int_part multiplier in
      L_power negative (if Z.eqb m 1 then None else Some (Whole m)) e
    else L_power negative (Some (sci 5 multiplier)) e
  else L_plain (sci 5 value).

(** customPercentFormatter, 1179-1206, from value100 = value * 100, not negative. *)
Definition percent_of (value100 : R) : shown :=
  let dec := rne (frac_part value100 * 10 ^ 8) in (* round(value100 % 1, 8), in units of 1e-8 *)
  let whole := Int_part (value100 - IZR dec / 10 ^ 8) in
  (* int truncates towards zero *)
  let whole := if Rlt_dec (value100 - IZR dec / 10 ^ 8) 0 then (if Req_EM_T (frac_part (value100 - IZR dec / 10 ^ 8)) 0 then whole else (whole + 1)%Z) else whole in
  if Z.eqb dec 0 then Whole whole else Places 8 (dec + whole * 10 ^ 8).
Definition percent_label (value : R) : shown := percent_of (value * 100).

(** 1256-1278 (default yticks). *)
Definition default_yticks : list R :=
  [1 / 10000; 1 / 1000; 2 / 1000; 5 / 1000; 1 / 100; 2 / 100; 3 / 100; 5 / 100; 1 / 10; 2 / 10; 3 / 10; 4 / 10; 5 / 10; 6 / 10; 7 / 10; 8 / 10; 9 / 10;
   95 / 100; 99 / 100; 999 / 1000; 9999 / 10000; 999999 / 1000000].

(** get_tick_locations with in_lims=True: 1093-1139. *)
Definition ticks_shown (locator : R -> R -> list R) (L U : R) : list R :=
  filter (fun t => (if Rle_dec L t then true else false) && (if Rle_dec t U then true else false)) (locator L U).

(** get_edge_distances, 1208-1229; xy_transform is called with a number, "forward" and "x". *)
Definition forward_x (a : axis) (v : R) : R := inv_axes a (trans_data a v).
Definition edge_distances (a : axis) (locator : R -> R -> list R) : R :=
  let t := ticks_shown locator (lim_1 a) (lim_2 a) in
  if (length t <? 2)%nat then 1
  else (forward_x a (hd 0 t) - forward_x a (lim_1 a)) + (forward_x a (lim_2 a) - forward_x a (last t 0)).

(** The locator of the x axis: 1231-1265. [maxn], [logl]: MaxNLocator and LogLocator. *)
Inductive locator_name := MaxN | Log.
Definition log10 (x : R) : R := ln x / ln 10.
Definition first_locator (xlower xupper : R) : locator_name :=
  if Rle_dec xlower 0 then MaxN
  else if Rlt_dec xupper (1 / 10) then Log
  else if Rlt_dec xupper 1000 then MaxN
  else if Rlt_dec (log10 xupper - log10 xlower) (3 / 2) then MaxN
  else Log.
Definition x_locator (a : axis) (maxn logl : R -> R -> list R) : locator_name :=
  let run n := match n with MaxN => maxn | Log => logl end in
  let first := first_locator (lim_1 a) (lim_2 a) in
  if Rlt_dec (5 / 10) (edge_distances a (run first)) then
    if Rlt_dec (edge_distances a logl) (edge_distances a maxn) then Log else MaxN
  else first.

(** Whether the minor ticks are labelled: 1270-1281. *)
Definition label_minor (a : axis) (major minor : R -> R -> list R) : bool :=
  let xlower := lim_1 a in let xupper := lim_2 a in
  let max_minor_ticks := if (if Rlt_dec (Rmax (Rabs xlower) (Rabs xupper)) 1000 then true else false) && (if Rlt_dec (/ 10 ^ 3) (Rmin (Rabs xlower) (Rabs xupper)) then true else false) then 15%nat else 10%nat in
  (length (ticks_shown major xlower xupper) <? 2)%nat && (length (ticks_shown minor xlower xupper) <=? max_minor_ticks)%nat.
