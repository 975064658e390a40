(** Model of get_axes_limits and restore_axes_limits (Utils.py 322-515): the limits of the axes after
    the methods PDF, CDF, SF, HF and CHF have drawn a curve. *)
From Coquelicot Require Import Coquelicot.
From Coq Require Import String.
From Coq Require Import List Arith Reals Bool.
From Verif Require Import Base Ext ConvertModel DistModel SelModel InputModel.
Import ListNotations.
Open Scope R_scope.

(** Limits of the two axes: (left, right), (bottom, top). *)
Record view := mkView { v_x : R * R; v_y : R * R }.
(** What restore_axes_limits asks of the object plotted. *)
Record subject := mkSubject { s_name : string; s_gamma : R; s_quantile : R -> R; s_pdf0 : ext; s_hf0 : ext }.
Definition dist_name (d : dist) : string :=
  match d with
  | Weibull _ _ _ => "Weibull" | Normal _ _ => "Normal" | Lognormal _ _ _ => "Lognormal" | Exponential _ _ => "Exponential"
  | Gamma _ _ _ => "Gamma" | DistModel.Beta _ _ => "Beta" | Loglogistic _ _ _ => "Loglogistic" | Gumbel _ _ => "Gumbel"
  end%string.
(** _hf0 is _pdf0 over the survival function at zero (gamma set to 0), which is one: Distributions.py
    198, 1168, 2125, 3077, 4069, 4993, 5795, 6793. *)
Definition subject_of (d : dist) : subject := mkSubject (dist_name d) (dist_gamma d) (ppf d) (pdf0 d) (pdf0 d).

(** Python's comparisons of numbers that may be inf or nan, max and min of a list, max of two. *)
Definition egt (a b : ext) : bool :=
  match a, b with Fin x, Fin y => lt y x | PInf, Fin _ => true | _, _ => false end.
Definition finite (a : ext) : bool := match a with Fin _ => true | _ => false end.
Definition is_inf (a : ext) : bool := match a with PInf => true | _ => false end.
Fixpoint emax (m : ext) (l : list ext) : ext := match l with [] => m | y :: r => emax (if egt y m then y else m) r end.
Fixpoint emin (m : ext) (l : list ext) : ext := match l with [] => m | y :: r => emin (if egt m y then y else m) r end.
Definition times (c : R) (a : ext) : ext := emul a (Fin c).
Fixpoint rmax (m : R) (l : list R) : R := match l with [] => m | y :: r => rmax (if lt m y then y else m) r end.
Fixpoint rmin (m : R) (l : list R) : R := match l with [] => m | y :: r => rmin (if lt y m then y else m) r end.
Definition max2 (a b : R) : R := if lt a b then b else a.
Definition min2 (a b : R) : R := if lt b a then b else a.

(** get_axes_limits, 345-354 *)
Definition is01 (p : R * R) : bool := if Req_EM_T (fst p) 0 then if Req_EM_T (snd p) 1 then true else false else false.
Definition use_prev (v : view) : bool := negb (is01 (v_x v) && is01 (v_y v)).

(** The limits of x without regard to earlier plots: 396-440. *)
Definition own_x (s : subject) (X : list R) (xvals : option (list R)) (xmin xmax : option R) : result (R * R) :=
  match xvals with
  | Some [] => Err ValueError
  | Some (x :: r) => Ok (rmin x r, rmax x r)
  | None =>
      let! lower :=
        match xmin with
        | Some m => Ok m
        | None =>
            if str_in (s_name s) ["Weibull"; "Gamma"; "Loglogistic"; "Exponential"; "Lognormal"]%string then
              if Req_EM_T (s_gamma s) 0 then Ok 0
              else let diff := s_quantile s (999 / 1000) - s_quantile s (1 / 1000) in Ok (max2 0 (s_quantile s (1 / 1000) - diff * (1 / 10)))
            else if str_in (s_name s) ["Normal"; "Gumbel"]%string then Ok (s_quantile s (1 / 1000))
            else if String.eqb (s_name s) "Beta" then Ok 0
            else if str_in (s_name s) ["Mixture"; "Competing risks"]%string then match X with [] => Err ValueError | x :: r => Ok (rmin x r) end
            else Err ValueError
        end in
      let upper :=
        match xmax with Some m => m | None => if String.eqb (s_name s) "Beta" then 1 else s_quantile s (999 / 1000) end in
      Ok (if lt upper lower then (upper, lower) else (lower, upper))
  end.
(** np.where(X >= u)[0][0], or the last index: 481-485, 487-492 *)
Fixpoint index_from (u : R) (X : list R) (i : nat) : option nat :=
  match X with [] => None | x :: r => if le u x then Some i else index_from u r (S i) end.
Definition index_at (u : R) (X : list R) : nat := match index_from u X 0 with Some i => i | None => (length X - 1)%nat end.
(** The upper limit of y: 455-498. [xhi]: the right end of the axis now, plt.xlim()[1]; [own_hi]:
    xlim_upper. A negative index counts from the end. *)
Inductive func := F_pdf | F_cdf | F_sf | F_hf | F_chf | F_none.
Definition own_y (s : subject) (f : func) (X : list R) (Y : list ext) (xhi own_hi : R) : result ext :=
  match Y with
  | [] => Err IndexError
  | y :: r =>
      let last := last Y NaN in
      let by_peak f0 otherwise :=
        if negb (finite f0) && negb (finite last) then Ok (times 5 (emin y r))
        else if negb (finite last) || is_inf f0 || egt f0 (Fin 10) then Ok (emax y r)
        else otherwise in
      match f with
      | F_pdf => by_peak (s_pdf0 s) (Ok (times (11 / 10) (emax y r)))
      | F_cdf | F_sf => Ok (Fin (11 / 10))
      | F_hf => by_peak (s_hf0 s)
          (if egt (emax y r) last then Ok (times (11 / 10) (emax y r))
           else Ok (times (11 / 10) (nth (index_at xhi X) Y NaN)))
      | F_chf =>
          let i := index_at own_hi X in
          let at_i := nth i Y NaN in
          if finite at_i then Ok (times (11 / 10) at_i)
          else Ok (times (11 / 10) (match i with O => last | S j => nth j Y NaN end))
      | F_none => Err ValueError
      end
  end.
(** restore_axes_limits. [prev]: the limits before the curve was drawn; [auto]: those matplotlib chose
    when drawing it. matplotlib widens limits that are equal, which is left out. *)
Definition restore (linear_x linear_y : bool) (prev : view) (keep : bool) (auto : view) (s : subject) (f : func)
    (X : list R) (Y : list ext) (xvals : option (list R)) (xmin xmax : option R) : result view :=
  let! own := own_x s X xvals xmin xmax in
  let lo := if keep then min2 (fst own) (fst (v_x prev)) else fst own in
  let hi := if keep then max2 (snd own) (snd (v_x prev)) else snd own in
  let vx := if linear_x && (1 <? length X)%nat then (lo, hi) else v_x auto in
  let! top := own_y s f X Y (snd vx) (snd own) in
  let bottom := if keep then min2 0 (fst (v_y prev)) else 0 in
  let TOP := if keep then (if egt (Fin (snd (v_y prev))) top then Fin (snd (v_y prev)) else top) else top in
  let vy :=
    if linear_y && (1 <? length Y)%nat then
      match TOP with
      | Fin t => if Req_EM_T bottom t then (bottom, snd (v_y auto)) else (bottom, t)
      | _ => (bottom, snd (v_y auto))
      end
    else v_y auto in
  Ok (mkView vx vy).

(** A call of one of the methods with show_plot=True on axes that show [prev]: the curve (X, Y) of the
    subject is drawn between get_axes_limits and restore_axes_limits. *)
Record request := mkReq { q_subject : subject; q_func : func; q_X : list R; q_Y : list ext; q_xvals : option (list R); q_xmin : option R; q_xmax : option R }.
Definition draw (prev auto : view) (q : request) : result view :=
  restore true true prev (use_prev prev) auto (q_subject q) (q_func q) (q_X q) (q_Y q) (q_xvals q) (q_xmin q) (q_xmax q).
