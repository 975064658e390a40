(** Model of distribution_explorer (Other_functions.py 1501-1834) as a machine that reacts to clicks on the
    radio buttons and to moves of the sliders.

    matplotlib's part is modelled by what its documentation says of Slider and RadioButtons: a slider moved
    to a value takes the nearest value in its range and then calls each function registered with on_changed
    once; a slider on axes that are not visible gets no mouse events; a click on any of the radio buttons
    calls the function registered with on_clicked. A slider that has been replaced by a new one on the same
    axes may still exist and call its functions: [Stale]. *)
From Coq Require Import Reals.
From Coq Require Import String.
From Coq Require Import List Bool Arith.
From Verif Require Import Base Ext DistModel InputModel AxesModel RoundModel.
Import ListNotations.
Open Scope R_scope.

(** Slider(ax, label, valmin, valmax, valinit) and the number of functions registered with it. *)
Record slider := mkSlider { l_label : string; l_lo : R; l_hi : R; l_val : R; l_calls : nat }.
Definition clip (lo hi v : R) : R := if Rle_dec v lo then lo else if Rle_dec hi v then hi else v.
Definition new_slider (label : string) (lo hi init : R) : slider := mkSlider label lo hi (clip lo hi init) 0.
Definition connect (s : slider) : slider := mkSlider (l_label s) (l_lo s) (l_hi s) (l_val s) (S (l_calls s)).
Definition set_val (s : slider) (v : R) : slider := mkSlider (l_label s) (l_lo s) (l_hi s) (clip (l_lo s) (l_hi s) v) (l_calls s).

(** The object: its name, the three sliders, whether ax2 is visible; the curves in each of the five panels
    and the title above them. *)
Record explorer := mkExp {
  e_name : string; e_s0 : slider; e_s1 : slider; e_s2 : slider; e_ax2 : bool;
  e_pdf : list (func * dist); e_cdf : list (func * dist); e_sf : list (func * dist); e_hf : list (func * dist); e_chf : list (func * dist);
  e_title : string * list (string * shown) }.
(** dist.PDF(), ... drawn into a panel; plt.cla() empties it. *)
Definition draw_in (f : func) (d : dist) (panel : list (func * dist)) : list (func * dist) := panel ++ [(f, d)].
Definition title_long (d : dist) : string * list (string * shown) := (dist_name d, param_title d).

(** The distribution of the values of the sliders: 1763-1785. *)
Definition dist_of (name : string) (v1 v2 v3 : R) : result dist :=
  if String.eqb name "Weibull" then Ok (Weibull v1 v2 v3)
  else if String.eqb name "Loglogistic" then Ok (Loglogistic v1 v2 v3)
  else if String.eqb name "Gamma" then Ok (Gamma v1 v2 v3)
  else if String.eqb name "Loglogistic" then Ok (Loglogistic v1 v2 v3)
  else if String.eqb name "Lognormal" then Ok (Lognormal v1 v2 v3)
  else if String.eqb name "Beta" then Ok (DistModel.Beta v1 v2)
  else if String.eqb name "Normal" then Ok (Normal v1 v2)
  else if String.eqb name "Gumbel" then Ok (Gumbel v1 v2)
  else if String.eqb name "Exponential" then Ok (Exponential v1 v2)
  else Err ValueError.
(** __update_params, 1762-1820: each panel is cleared and drawn again. *)
Definition update_params (e : explorer) : result explorer :=
  let! d := dist_of (e_name e) (l_val (e_s0 e)) (l_val (e_s1 e)) (l_val (e_s2 e)) in
  Ok (mkExp (e_name e) (e_s0 e) (e_s1 e) (e_s2 e) (e_ax2 e)
        (draw_in F_pdf d []) (draw_in F_cdf d []) (draw_in F_sf d []) (draw_in F_hf d []) (draw_in F_chf d []) (title_long d)).
(** __interactive, 1822-1834 *)
Definition interactive (e : explorer) : explorer :=
  mkExp (e_name e) (connect (e_s0 e)) (connect (e_s1 e)) (connect (e_s2 e)) (e_ax2 e)
    (e_pdf e) (e_cdf e) (e_sf e) (e_hf e) (e_chf e) (e_title e).
(** The sliders of a distribution: 1622-1755. None: the third slider is left as it is and hidden. *)
Definition sliders_of (name : string) : result (slider * slider * option slider) :=
  if String.eqb name "Weibull" then Ok (new_slider "Alpha" (1 / 10) 500 100, new_slider "Beta" (2 / 10) 25 2, Some (new_slider "Gamma" 0 500 0))
  else if String.eqb name "Gamma" then Ok (new_slider "Alpha" (1 / 10) 500 100, new_slider "Beta" (2 / 10) 25 5, Some (new_slider "Gamma" 0 500 0))
  else if String.eqb name "Loglogistic" then Ok (new_slider "Alpha" (1 / 10) 500 100, new_slider "Beta" (2 / 10) 50 8, Some (new_slider "Gamma" 0 500 0))
  else if String.eqb name "Lognormal" then Ok (new_slider "Mu" 0 5 (5 / 2), new_slider "Sigma" (1 / 100) 2 (1 / 2), Some (new_slider "Gamma" 0 500 0))
  else if String.eqb name "Normal" then Ok (new_slider "Mu" (-100) 100 0, new_slider "Sigma" (1 / 100) 20 10, None)
  else if String.eqb name "Gumbel" then Ok (new_slider "Mu" (-100) 100 0, new_slider "Sigma" (1 / 100) 20 10, None)
  else if String.eqb name "Exponential" then Ok (new_slider "Lambda" (1 / 1000) 5 1, new_slider "Gamma" 0 500 0, None)
  else if String.eqb name "Beta" then Ok (new_slider "Alpha" (1 / 100) 5 2, new_slider "Beta" (1 / 100) 5 2, None)
  else Err ValueError.
(** __update_distribution, 1620-1759. The title set at 1756 is set again by __update_params. *)
Definition update_distribution (name : string) (e : explorer) : result explorer :=
  let! s := sliders_of name in
  let '(s0, s1, s2) := s in
  let e1 := mkExp name s0 s1 (match s2 with Some s => s | None => e_s2 e end) (match s2 with Some _ => true | None => false end)
              (e_pdf e) (e_cdf e) (e_sf e) (e_hf e) (e_chf e) (e_title e) in
  let! e2 := update_params e1 in Ok (interactive e2).
(** __init__, 1525-1617 *)
Definition start : explorer :=
  let d := Weibull 100 2 0 in
  interactive (mkExp "Weibull" (new_slider "Alpha" (1 / 10) 500 100) (new_slider "Beta" (2 / 10) 25 2) (new_slider "Gamma" 0 500 0) true
    (draw_in F_pdf d []) (draw_in F_cdf d []) (draw_in F_sf d []) (draw_in F_hf d []) (draw_in F_chf d []) (title_long d)).
(** The radio buttons, 1602-1611. *)
Definition buttons : list string := ["Weibull"; "Gamma"; "Normal"; "Lognormal"; "Beta"; "Exponential"; "Loglogistic"; "Gumbel"]%string.

(** Events: a click on the i-th button, a move of the i-th slider to a value, a call by a replaced slider. *)
Inductive event := Click (i : nat) | Move (i : nat) (v : R) | Stale.
Fixpoint repeat_update (n : nat) (e : explorer) : result explorer :=
  match n with O => Ok e | S m => let! e1 := update_params e in repeat_update m e1 end.
Definition react (e : explorer) (ev : event) : result explorer :=
  match ev with
  | Click i => match nth_error buttons i with Some name => update_distribution name e | None => Ok e end
  | Move 0 v => repeat_update (l_calls (e_s0 e)) (mkExp (e_name e) (set_val (e_s0 e) v) (e_s1 e) (e_s2 e) (e_ax2 e) (e_pdf e) (e_cdf e) (e_sf e) (e_hf e) (e_chf e) (e_title e))
  | Move 1 v => repeat_update (l_calls (e_s1 e)) (mkExp (e_name e) (e_s0 e) (set_val (e_s1 e) v) (e_s2 e) (e_ax2 e) (e_pdf e) (e_cdf e) (e_sf e) (e_hf e) (e_chf e) (e_title e))
  | Move 2 v =>
      if e_ax2 e then
        repeat_update (l_calls (e_s2 e)) (mkExp (e_name e) (e_s0 e) (e_s1 e) (set_val (e_s2 e) v) (e_ax2 e) (e_pdf e) (e_cdf e) (e_sf e) (e_hf e) (e_chf e) (e_title e))
      else Ok e
  | Move _ _ => Ok e
  | Stale => update_params e
  end.
Fixpoint run (e : explorer) (h : list event) : result explorer :=
  match h with [] => Ok e | ev :: r => let! e1 := react e ev in run e1 r end.
