(** Model of the arguments of the fitters (fitters_input_checking, Utils.py 1507-1877) and of the
    table of quantiles they make (Fitters.py 2239-2263 and the same text at 2895, 3349, 5727, 6119,
    6548, 6930, 7343, 7789, 8207, 8703, 9436 and 9865; for Beta 9087-9101). Warnings are left out. *)
From Coquelicot Require Import Coquelicot.
From Coq Require Import String.
From Coq Require Import List Arith Reals Bool.
From Verif Require Import Base Ext Gauss ConvertModel DistModel CIModel SelModel InputModel.
Import ListNotations.
Open Scope R_scope.

(** An argument that should be a string or None. *)
Inductive text := No_text | Text (s : string) | Not_text.
(** An argument that should be a list or array of numbers. *)
Inductive data := D_seq (l : list R) | D_none | D_other.
(** The argument quantiles. *)
Inductive quant := Q_None | Q_bool (b : bool) | Q_str (s : string) | Q_seq (l : list R) | Q_other.

(** 1712-1731 *)
Definition resolve_optimizer (a : text) : result (option string) :=
  match a with
  | No_text => Ok None
  | Not_text => Err ValueError
  | Text s =>
      if str_in (upper s) ["TNC"]%string then Ok (Some "TNC"%string)
      else if str_in (upper s) ["POWELL"]%string then Ok (Some "powell"%string)
      else if str_in (upper s) ["L-BFGS-B"; "LBFGSB"]%string then Ok (Some "L-BFGS-B"%string)
      else if str_in (upper s) ["NELDER-MEAD"; "NELDERMEAD"; "NM"]%string then Ok (Some "nelder-mead"%string)
      else if str_in (upper s) ["ALL"; "BEST"]%string then Ok (Some "best"%string)
      else Err ValueError
  end.
(** 1733-1756 *)
Definition resolve_method (a : text) : result (option string) :=
  match a with
  | No_text => Ok None
  | Not_text => Err ValueError
  | Text s =>
      if str_in (upper s) ["RRX"]%string then Ok (Some "RRX"%string)
      else if str_in (upper s) ["RRY"]%string then Ok (Some "RRY"%string)
      else if str_in (upper s) ["LS"; "LEAST SQUARES"; "LSQ"; "NLRR"; "NLLS"]%string then Ok (Some "LS"%string)
      else if str_in (upper s) ["MLE"; "ML"; "MAXIMUM LIKELIHOOD ESTIMATION"; "MAXIMUM LIKELIHOOD"; "MAX LIKELIHOOD"]%string then Ok (Some "MLE"%string)
      else Err ValueError
  end.
(** 1855-1866 *)
Definition resolve_fit_CI_type (a : text) : result (option string) :=
  match a with
  | No_text => Ok None
  | Not_text => Err ValueError
  | Text s =>
      if str_in (upper s) ["T"; "TIME"]%string then Ok (Some "time"%string)
      else if str_in (upper s) ["R"; "REL"; "RELIABILITY"]%string then Ok (Some "reliability"%string)
      else if str_in (upper s) ["NONE"; "OFF"]%string then Ok (Some "none"%string)
      else Err ValueError
  end.
(** 1758-1770. A string or bool that does not ask for the default quantiles is passed on. max of an
    empty array raises ValueError. *)
Definition default_quantiles : list R :=
  [1 / 100; 5 / 100; 1 / 10; 2 / 10; 25 / 100; 5 / 10; 75 / 100; 8 / 10; 9 / 10; 95 / 100; 99 / 100].
Definition resolve_quantiles (q : quant) : result quant :=
  match q with
  | Q_bool b => if b then Ok (Q_seq default_quantiles) else Ok q
  | Q_str s => if str_in s ["auto"; "default"; "on"]%string then Ok (Q_seq default_quantiles) else Ok q
  | Q_None => Ok Q_None
  | Q_other => Err ValueError
  | Q_seq [] => Err ValueError
  | Q_seq l => if existsb (fun v => le 1 v) l || existsb (fun v => le v 0) l then Err ValueError else Ok q
  end.
(** 1772-1786 *)
Definition check_force (o : option R) : result (option R) :=
  match o with Some v => if le v 0 then Err ValueError else Ok o | None => Ok o end.

Record fit_args := mkFit {
  a_failures : data; a_right_censored : data; a_method : text; a_optimizer : text; a_CI : num; a_quantiles : quant;
  a_force_beta : option R; a_force_sigma : option R; a_CI_type : text }.
Record fit_inputs := mkInputs {
  i_failures : list R; i_right_censored : list R; i_method : option string; i_optimizer : option string; i_CI : R; i_quantiles : quant;
  i_force_beta : option R; i_force_sigma : option R; i_CI_type : option string }.

(** __init__, 1585-1877. The checks of the data are [check_data] (SelModel): the count of distinct
    failures comes after the other checks in the code, but all of them raise ValueError. *)
Definition fitters_input_checking (d : dname) (a : fit_args) : result fit_inputs :=
  match a_failures a with
  | D_seq failures =>
      let! rc := match a_right_censored a with D_seq l => Ok l | D_none => Ok [] | D_other => Err ValueError end in
      let! data := check_data d (is_some (a_force_beta a) || is_some (a_force_sigma a)) failures rc in
      if match fst (a_CI a) with T_int => true | _ => false end then Err ValueError
      else if le (snd (a_CI a)) 0 || le 1 (snd (a_CI a)) then Err ValueError
      else
        let! optimizer := resolve_optimizer (a_optimizer a) in
        let! method := resolve_method (a_method a) in
        let! quantiles := resolve_quantiles (a_quantiles a) in
        let! fb := check_force (a_force_beta a) in
        let! fs := check_force (a_force_sigma a) in
        let! CI_type := resolve_fit_CI_type (a_CI_type a) in
        Ok (mkInputs (fst data) (snd data) method optimizer (snd (a_CI a)) quantiles fb fs CI_type)
  | _ => Err ValueError
  end.

(** ** The table of quantiles *)

Record qrow := mkRow { r_quantile : R; r_lower : option R; r_point : R; r_upper : option R }.
(** pd.DataFrame refuses columns of different lengths; a value that was unpacked from an array of
    length 1 is repeated, which comes to the same. *)
Fixpoint rows (q lo p up : list R) : result (list qrow) :=
  match q, lo, p, up with
  | [], [], [], [] => Ok []
  | q :: qs, l :: ls, p :: ps, u :: us => let! r := rows qs ls ps us in Ok (mkRow q (Some l) p (Some u) :: r)
  | _, _, _, _ => Err ValueError
  end.
(** [d]: the fitted distribution, [s]: its standard errors. quantile refuses a bool or a string with
    ValueError: Distributions.py 926-933. *)
Definition quantile_table (gj : gamma_jac) (d : dist) (s : option covs) (CI : R) (q : quant) : result (option (list qrow)) :=
  match q with
  | Q_None => Ok None
  | Q_seq qs =>
      let! p := quantile_list d qs in
      match d with
      | DistModel.Beta _ _ => Ok (Some (map (fun qp => mkRow (fst qp) None (snd qp) None) (combine qs p)))
      | _ =>
          let! b := extract_CI gj d s F_CDF T_time CI (Some qs) None in
          match b with
          | Some (lo, up) => let! t := rows qs lo p up in Ok (Some t)
          | None => Ok (Some (map (fun qp => mkRow (fst qp) None (snd qp) None) (combine qs p)))
          end
      end
  | _ => Err ValueError
  end.
(** From the arguments to the table: [fit] is the rest of the fitter. *)
Definition fitter_quantiles (gj : gamma_jac) (fit : fit_inputs -> dist * option covs) (n : dname) (a : fit_args) : result (option (list qrow)) :=
  let! k := fitters_input_checking n a in
  quantile_table gj (fst (fit k)) (snd (fit k)) (i_CI k) (i_quantiles k).
