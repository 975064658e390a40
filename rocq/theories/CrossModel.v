(** Model of the texts of crosshairs (Other_functions.py 1278-1498). Which point of the plot is selected is
    decided by mplcursors and is an argument; dates are left out. *)
From Coq Require Import ZArith Reals.
From Coq Require Import String.
From Coq Require Import List Bool.
From Verif Require Import Base Ext RoundModel.
Import ListNotations.
Open Scope R_scope.

(** What a caller may pass. *)
Inductive pyarg := ANone | AStr (s : string) | AInt (z : Z) | AFloat (x : R).
Definition is_str_or_none (a : pyarg) : bool := match a with ANone | AStr _ => true | _ => false end.
(** __init__, 1310-1320, 1337-1340: the number of decimals and the labels used from then on. A dateformat
    other than None is not modelled further. *)
Definition crosshairs (xlabel ylabel decimals dateformat : pyarg) : result (Z * string * string) :=
  if negb (is_str_or_none dateformat) then Err ValueError
  else match decimals with
  | AInt d =>
      if negb (is_str_or_none xlabel) then Err ValueError
      else if negb (is_str_or_none ylabel) then Err ValueError
      else Ok (d, match xlabel with AStr s => s | _ => "x"%string end, match ylabel with AStr s => s | _ => "y"%string end)
  | _ => Err ValueError
  end.
(** int(x): towards zero. *)
Definition trunc (x : R) : Z := if Rle_dec 0 x then Int_part x else (- Int_part (- x))%Z.
(** x_string and y_string, 1421-1429 and 1472-1480: an int or a str. *)
Inductive piece := PInt (z : Z) | PStr (s : shown).
Definition coordinate (decimals : Z) (x : R) : piece :=
  if (decimals =? 0)%Z then PInt (trunc x) else PStr (shown_number decimals x).
(** The texts at the axes while hovering, 1431-1454: matplotlib turns s into text with str. *)
Definition text_of (p : piece) : shown := match p with PInt z => Whole z | PStr s => s end.
Record hover_text := mkHover { h_text : shown; h_x : R; h_y : R; h_on_yaxis : bool }.
Definition hover (decimals : Z) (x y : R) : list hover_text :=
  [ mkHover (text_of (coordinate decimals y)) 0 y true; mkHover (text_of (coordinate decimals x)) x 0 false ].
(** The two lines, 1397-1416: a vertical one at x and a horizontal one at y, across the axes. *)
Definition cross_lines (x y : R) : list ((R * R) * (R * R)) := [((x, x), (0, 1)); ((0, 1), (y, y))].
(** The annotation after a click, 1465-1484: str + str, TypeError for str + int. *)
Definition annotation (decimals : Z) (labels : string * string) (x y : R) : result (list (string * shown)) :=
  match coordinate decimals x, coordinate decimals y with
  | PStr a, PStr b => Ok [(fst labels, a); (snd labels, b)]
  | _, _ => Err TypeError
  end.
