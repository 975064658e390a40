(** Model of round_and_string (Utils.py 72-143) and of the labels made with it: the parameter titles
    of the distributions (Distributions.py) and the legends of the probability plots
    (Probability_plotting.py).

    A text is modelled by how it is written and by the digits in it, not as characters. Floats are
    reals, so that round and format, which round the exact value of a float half to even, round a real. *)
From Coq Require Import ZArith Reals.
From Coq Require Import String.
From Coq Require Import List Bool.
From Verif Require Import Base Ext DistModel.
Import ListNotations.
Open Scope R_scope.

Inductive shown :=
| Whole (z : Z)               (* str(int): all digits of an integer *)
| Plain (x : R)               (* str(float) of a float as it is *)
| Places (k : nat) (z : Z)    (* str(round(x, k)): z units of the k-th decimal place *)
| Sci (k : nat) (z e : Z)     (* '{:0.ke}': mantissa of z units of its k-th place, times 10**e *)
| Special (x : ext).          (* nan, inf *)

(** The nearest integer, the even one of two. *)
Definition rne (x : R) : Z :=
  let f := Int_part x in
  if Rlt_dec (frac_part x) (1 / 2) then f
  else if Rlt_dec (1 / 2) (frac_part x) then (f + 1)%Z
  else if Z.even f then f else (f + 1)%Z.
(** '{:0.ke}'.format(x) for x other than zero: the mantissa has one digit before the point, also after rounding. *)
Definition exponent (x : R) : Z := Int_part (ln (Rabs x) / ln 10).
Definition sci (k : nat) (x : R) : shown :=
  let e := exponent x in
  let m := rne (x / powerRZ 10 (e - Z.of_nat k)) in
  if Z.eqb (Z.abs m) (10 ^ (Z.of_nat k + 1)) then Sci k (m / 10) (e + 1) else Sci k m e.
(** The text with ".000e" replaced by "e" shows the same number: 131-133 is [sci]. *)

(** Utils.py 119-143. [decimals] is an int; int(x) of a float without decimals is [Int_part]. *)
Definition round_and_string (number : ext) (decimals : Z) (ints : bool) (large small : R) : shown :=
  let k := if (decimals <? 1)%Z then O else Z.to_nat decimals in
  match number with
  | Fin x =>
      let whole := if Req_EM_T (frac_part x) 0 then true else false in
      if Req_EM_T x 0 then (if ints && whole then Whole (Int_part x) else Plain x)
      else if (if Rle_dec large (Rabs x) then true else false) || (if Rle_dec (Rabs x) small then true else false) then
        if whole then (if ints then Whole (Int_part x) else Plain x) else sci k x
      else if ints && whole then Whole (Int_part x)
      else Places k (rne (x * powerRZ 10 (Z.of_nat k)))
  | other => Special other
  end.
(** With the default arguments. *)
Definition shown_number (decimals : Z) (x : R) : shown := round_and_string (Fin x) decimals true (10 ^ 9) (/ 10 ^ 4).

(** param_title and param_title_long: Distributions.py 127-160, 1119-1131, 2051-2084, 3029-3051,
    3985-4018, 4974-4986, 5724-5757, 6744-6756; dec = 4 at 51. The names stand for Greek letters. *)
Definition own_params (d : dist) : list (string * R) :=
  match d with
  | Weibull a b _ | Gamma a b _ | Loglogistic a b _ | DistModel.Beta a b => [("alpha", a); ("beta", b)]
  | Lognormal m s _ | Normal m s | Gumbel m s => [("mu", m); ("sigma", s)]
  | Exponential l _ => [("lambda", l)]
  end%string.
Definition gamma_of (d : dist) : option R :=
  match d with
  | Weibull _ _ g | Gamma _ _ g | Loglogistic _ _ g | Lognormal _ _ g | Exponential _ g => Some g
  | _ => None
  end.
Definition label (decimals : Z) (l : list (string * R)) : list (string * shown) :=
  map (fun p => (fst p, shown_number decimals (snd p))) l.
Definition param_title (d : dist) : list (string * shown) :=
  match gamma_of d with
  | Some g => if Req_EM_T g 0 then label 4 (own_params d) else label 4 (own_params d ++ [("gamma"%string, g)])
  | None => label 4 (own_params d)
  end.

(** The legend of the line of a fitted distribution on a probability plot: Probability_plotting.py
    309-318, 344-355, 536-545, 571-582, 765-771, 792-800, 961-969, 1124-1132, 1306-1315, 1339-1350,
    1505-1513, 1694-1703, 1732-1743; dec = 3 at 64. *)
Definition legend (fit_gamma : bool) (d : dist) : list (string * shown) :=
  match gamma_of d with
  | Some g => if fit_gamma then label 3 (own_params d ++ [("gamma"%string, g)]) else label 3 (own_params d)
  | None => label 3 (own_params d)
  end.
