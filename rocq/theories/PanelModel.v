(** Model of the descriptive statistics in the figure of plot() and of stats() for the distributions of Distributions.py.
    Texts: Weibull 329-341, Normal 1286-1299, Lognormal 2245-2257, Exponential 3200-3212, Gamma 4189-4201, Beta 5114-5131,
    Loglogistic 5920-5966, Gumbel 6911-6925, DSZI_Model 9833-9847. *)
From Coq Require Import ZArith Reals.
From Coq Require Import String.
From Coq Require Import List.
From Verif Require Import Base Ext DistModel MomentModel RoundModel.
Import ListNotations.
Local Open Scope string_scope.
Local Open Scope list_scope.
Open Scope R_scope.

(** A statistic as text: a number, or the message that stands for it. *)
Inductive panel_text := T_number (s : shown) | T_message.
(** round_and_string(self.mean, dec) with dec = 4 (line 51). np.isfinite of a text (a statistic that is a message) raises TypeError. *)
Definition number_text (v : option R) : result panel_text :=
  match v with Some x => Ok (T_number (shown_number 4 x)) | None => Err TypeError end.
(** if type(self.mean) == str: str(self.mean), else as above. *)
Definition any_text (v : option R) : result panel_text :=
  match v with Some x => Ok (T_number (shown_number 4 x)) | None => Ok T_message end.

(** The texts at heights 9 to 1. *)
Definition panel (moment_text mode_text : option R -> result panel_text) (mean : option R) (median : R) (mode : option R) (b5 b95 : R)
  (standard_deviation variance skewness excess_kurtosis : option R) : result (list (string * panel_text)) :=
  let! text_mean := moment_text mean in
  let! text_median := number_text (Some median) in
  let! text_mode := mode_text mode in
  let! text_b5 := number_text (Some b5) in
  let! text_b95 := number_text (Some b95) in
  let! text_std := moment_text standard_deviation in
  let! text_var := moment_text variance in
  let! text_skew := moment_text skewness in
  let! text_ex_kurt := moment_text excess_kurtosis in
  Ok [("Mean", text_mean); ("Median", text_median); ("Mode", text_mode); ("5th quantile", text_b5); ("95th quantile", text_b95);
      ("Standard deviation", text_std); ("Variance", text_var); ("Skewness", text_skew); ("Excess kurtosis", text_ex_kurt)].

(** Only Loglogistic expects messages for the moments and only Beta for the mode. *)
Definition plot_panel (d : dist) : result (list (string * panel_text)) :=
  panel (match d with Loglogistic _ _ _ => any_text | _ => number_text end) (match d with Beta _ _ => any_text | _ => number_text end)
    (mean d) (median d) (mode d) (b5 d) (b95 d) (standard_deviation d) (variance d) (skewness d) (excess_kurtosis d).

(** DSZI_Model: the statistics are those of the base distribution (9672-9681), b5 and b95 its own. *)
Definition dszi_panel (base : dist) (b5 b95 : R) : result (list (string * panel_text)) :=
  panel number_text number_text
    (mean base) (median base) (mode base) b5 b95 (standard_deviation base) (variance base) (skewness base) (excess_kurtosis base).

(** stats(), 1020-1028 (the same lines in every class): print of the attributes themselves. [None]: the message is printed. *)
Definition stats (d : dist) : list (string * option R) :=
  [("Mean", mean d); ("Median", Some (median d)); ("Mode", mode d); ("5th quantile", Some (b5 d)); ("95th quantile", Some (b95 d));
   ("Standard deviation", standard_deviation d); ("Variance", variance d); ("Skewness", skewness d); ("Excess kurtosis", excess_kurtosis d)].
