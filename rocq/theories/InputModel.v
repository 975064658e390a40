(** Model of generate_X_array and distributions_input_checking (Utils.py): the x values at which
    PDF, CDF, SF, HF and CHF are evaluated, and the checks and defaults of their arguments.
    Warnings are left out. *)
From Coquelicot Require Import Coquelicot.
From Coq Require Import String Ascii.
From Coq Require Import List Arith Reals Bool.
From Verif Require Import Base Ext Gauss ConvertModel DistModel RepairModel CIModel SelModel.
Import ListNotations.
Open Scope R_scope.

(** dist.gamma *)
Definition dist_gamma (d : dist) : R :=
  match d with
  | Weibull _ _ g | Lognormal _ _ g | Exponential _ g | Gamma _ _ g | Loglogistic _ _ g => g
  | _ => 0
  end.
(** dist._pdf0: the density of the distribution without gamma at 0. Distributions.py 195, 2122,
    3074, 4066, 5792. *)
Definition pdf0 (d : dist) : ext :=
  match d with
  | Weibull a b _ => pdf (Weibull a b 0) 0
  | Lognormal m s _ => pdf (Lognormal m s 0) 0
  | Exponential l _ => pdf (Exponential l 0) 0
  | Gamma a b _ => pdf (Gamma a b 0) 0
  | Loglogistic a b _ => pdf (Loglogistic a b 0) 0
  | DistModel.Beta _ _ => pdf d 0
  | Normal _ _ | Gumbel _ _ => Fin 0
  end.
Definition is_zero (v : ext) : bool := match v with Fin x => if Req_EM_T x 0 then true else false | _ => false end.

Definition lt (x y : R) : bool := if Rlt_dec x y then true else false.
Definition le (x y : R) : bool := if Rle_dec x y then true else false.
(** np.geomspace(a - g, b - g, n) + g *)
Definition geomspace_from (g a b : R) (n : nat) : list R := map (fun x => x + g) (geomspace (a - g) (b - g) n).
Definition just_below (g : R) : R := g - / 10 ^ 8.

(** ** generate_X_array without xvals: Utils.py 577-735 *)

(** Weibull, Lognormal, Loglogistic, Exponential, Gamma, after the default values and the exchange
    of xmin and xmax: 593-704. The handlers of ValueError (geomspace from zero, which happens only
    when a quantile is rounded to gamma) are left out. *)
Definition grid_positive (d : dist) (xmin xmax : R) : list R :=
  let QL := ppf d (1 / 10000) in
  let QU := ppf d (99 / 100) in
  let g := dist_gamma d in
  if (lt xmin QL && lt xmax QL) || (le QL xmin && le xmax QU) || (lt QU xmin && lt QU xmax)
  then linspace xmin xmax 200
  else if lt xmin QL && lt QL xmax && lt xmax QU then
    if Req_EM_T g 0
    then if is_zero (pdf0 d) then xmin :: linspace QL xmax 199 else xmin :: geomspace QL xmax 199
    else if is_zero (pdf0 d) then xmin :: just_below g :: linspace QL xmax 198
    else xmin :: just_below g :: geomspace_from g QL xmax 198
  else if lt QL xmin && lt xmin QU && lt QU xmax then
    if is_zero (pdf0 d) then linspace xmin QU 175 ++ linspace QU xmax 25
    else geomspace_from g xmin QU 175 ++ geomspace_from g QU xmax 25
  else
    if Req_EM_T g 0
    then if is_zero (pdf0 d) then xmin :: linspace QL QU 174 ++ geomspace QU xmax 25
         else xmin :: geomspace QL QU 174 ++ geomspace QU xmax 25
    else if is_zero (pdf0 d) then xmin :: just_below g :: linspace QL QU 173 ++ geomspace_from g QU xmax 25
    else xmin :: just_below g :: geomspace_from g QL QU 173 ++ geomspace_from g QU xmax 25.

Definition or_default (o : option R) (v : R) : R := match o with Some x => x | None => v end.
Definition exchanged (a b : R) : R * R := if Rlt_dec b a then (b, a) else (a, b).
Definition generate_X_array (d : dist) (xmin xmax : option R) : result (list R) :=
  match d with
  | Normal _ _ | Gumbel _ _ => (* 705-722 *)
      let '(a, b) := exchanged (or_default xmin (ppf d (1 / 10000))) (or_default xmax (ppf d (9999 / 10000))) in
      if le a 0 || lt (ppf d (1 / 10000)) a then Ok (linspace a b 200) else Ok (0 :: linspace a b 199)
  | DistModel.Beta _ _ => (* 723-738 *)
      let a := or_default xmin 0 in
      let b := or_default xmax 1 in
      if lt 1 b then Err ValueError
      else let '(a, b) := exchanged a b in Ok (linspace a b 200)
  | _ => (* 577-592 *)
      let a := or_default xmin 0 in
      if lt a 0 then Err ValueError
      else
        let b := or_default xmax (ppf d (9999 / 10000)) in
        let '(a, b) := exchanged a b in Ok (grid_positive d a b)
  end.

(** ** distributions_input_checking: Utils.py 7038-7264 *)

(** The classes a number can have. *)
Inductive numtype := T_int | T_float | T_float64.
Definition num : Type := numtype * R.
(** [A_other]: any other class. *)
Inductive arg := A_None | A_num (n : num) | A_seq (l : list R) | A_other.
Inductive ci_arg := CI_None | CI_bool (b : bool) | CI_num (n : num).
Definition is_python (n : num) : bool := match fst n with T_float64 => false | _ => true end.
Definition num_ok (a : arg) : bool := match a with A_None => true | A_num n => is_python n | A_seq _ | A_other => false end.
Definition seq_ok (a : arg) : bool := match a with A_None | A_seq _ => true | A_num n => is_python n | A_other => false end.
Definition arg_value (a : arg) : option R := match a with A_num n => Some (snd n) | _ => None end.

Record call := mkCall {
  c_func : string; c_xvals : arg; c_xmin : arg; c_xmax : arg; c_show_plot : option bool; c_plot_CI : option bool;
  c_CI_type : option string; c_CI : ci_arg; c_CI_y : arg; c_CI_x : arg }.
Inductive xs := X_number (x : R) | X_array (l : list R).
Record checked := mkChecked {
  k_X : xs; k_show_plot : bool; k_plot_CI : option bool; k_CI_type : option string; k_CI : R;
  k_CI_y : option (list R); k_CI_x : option (list R) }.

(** generate_X_array with xvals, 546-576: a number becomes an array of one element. *)
Definition checked_xvals (d : dist) (l : list R) : result (list R) := if array_ok d l then Ok l else Err ValueError.
Definition x_values (d : dist) (c : call) : result xs :=
  match c_xvals c, c_xmin c, c_xmax c with
  | A_num (_, x), A_None, A_None => Ok (X_number x)
  | A_num (_, x), _, _ => let! l := checked_xvals d [x] in Ok (X_array l)
  | A_seq l, _, _ => let! l := checked_xvals d l in Ok (X_array l)
  | _, xmin, xmax => let! l := generate_X_array d (arg_value xmin) (arg_value xmax) in Ok (X_array l)
  end.

(** CI and self.Z: 7164-7171 *)
Definition resolve_CI (CI : option R) (Z : option R) : result R :=
  match CI, Z with
  | None, None => Ok (95 / 100)
  | Some v, _ => if le v 0 || le 1 v then Err ValueError else Ok v
  | None, Some z => Ok (1 - Phi (- z) * 2)
  end.

(** CI_type: 7179-7214 *)
Definition no_CI_array := ["None"; "NONE"; "none"; "OFF"; "Off"; "off"]%string.
Definition resolve_CI_type (d : dist) (CI_type self_CI_type : option string) : option string :=
  match d with
  | Exponential _ _ | DistModel.Beta _ _ => None
  | _ =>
      let t := match CI_type with
               | None => match self_CI_type with Some s => if str_in s no_CI_array then None else Some s | None => None end
               | Some s => if str_in s no_CI_array then None else Some s
               end in
      match t with
      | Some s =>
          if str_in (upper s) ["T"; "TIME"]%string then Some "time"%string
          else if str_in (upper s) ["R"; "REL"; "RELIABILITY"]%string then Some "reliability"%string
          else None
      | None => None
      end
  end.

(** CI_x and CI_y: 7216-7254. Only one of them is kept. *)
Definition check_CI_x (d : dist) (a : arg) : result (option (list R)) :=
  match a with
  | A_num (_, v) => if le v 0 && negb (is_signed d) then Err ValueError else Ok (Some [v])
  | A_seq [] => Err ValueError
  | A_seq l => if existsb (fun v => le v 0) l && negb (is_signed d) then Err ValueError else Ok (Some l)
  | _ => Ok None
  end.
Definition check_CI_y (func : string) (a : arg) : result (option (list R)) :=
  match a with
  | A_num (_, v) =>
      if le v 0 then Err ValueError else if le 1 v && str_in func ["CDF"; "SF"]%string then Err ValueError else Ok (Some [v])
  | A_seq [] => Err ValueError
  | A_seq l =>
      if existsb (fun v => le v 0) l then Err ValueError
      else if existsb (fun v => le 1 v) l && str_in func ["CDF"; "SF"]%string then Err ValueError else Ok (Some l)
  | _ => Ok None
  end.
Definition given (a : arg) : bool := match a with A_None => false | _ => true end.

Definition input_checking (d : dist) (self_Z : option R) (self_CI_type : option string) (c : call) : result checked :=
  if negb (str_in (c_func c) ["PDF"; "CDF"; "SF"; "HF"; "CHF"; "ALL"]%string) then Err ValueError
  else if negb (seq_ok (c_xvals c) && num_ok (c_xmin c) && num_ok (c_xmax c)) then Err ValueError
  else
    let plot_CI := match c_CI c with CI_bool false => Some false | _ => c_plot_CI c end in
    let CI := match c_CI c with CI_bool _ => Some (T_float, 95 / 100) | CI_num n => Some n | CI_None => None end in
    if match CI with Some (T_int, _) | Some (T_float64, _) => true | _ => false end then Err ValueError
    else if negb (seq_ok (c_CI_y c) && seq_ok (c_CI_x c)) then Err ValueError
    else
      let! X := x_values d c in
      let show_plot := match X with X_number _ => Some false | X_array _ => c_show_plot c end in
      let! CI := resolve_CI (option_map snd CI) self_Z in
      let CI_type := resolve_CI_type d (c_CI_type c) self_CI_type in
      let both := given (c_CI_x c) && given (c_CI_y c) in
      let keep_x := match CI_type with Some s => String.eqb s "reliability" | None => false end in
      let! CI_x := check_CI_x d (if both && negb keep_x then A_None else c_CI_x c) in
      let! CI_y := check_CI_y (c_func c) (if both && keep_x then A_None else c_CI_y c) in
      Ok (mkChecked X (match show_plot with Some b => b | None => true end) plot_CI CI_type CI CI_y CI_x).

(** quantile of a number: scipy returns a numpy.float64, which unpack_single_arrays (7471-7494)
    leaves as it is. *)
Definition quantile_num (d : dist) (q : R) : result num := let! x := quantile d q in Ok (T_float64, x).
(** X.CDF(xvals=x, show_plot=False) of a number: Distributions.py 492-510, and likewise in the
    other classes. *)
Definition CDF_num (d : dist) (self_Z : option R) (self_CI_type : option string) (x : num) : result R :=
  let! k := input_checking d self_Z self_CI_type (mkCall "CDF" (A_num x) A_None A_None (Some false) (Some true) None CI_None A_None A_None) in
  match k_X k with X_number v => Ok (cdf d v) | X_array _ => Err TypeError end.
(** The quantile lines of PP_plot_parametric: Probability_plotting.py 2114-2131. *)
Definition PP_quantile_line (X Y : dist) (Z : option R) (CI_type : option string) (q : R) : result R :=
  let! t := quantile_num Y q in CDF_num X Z CI_type t.
