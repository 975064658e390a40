(** Specifications for the choices made while fitting. *)
From Coq Require Import String.
From Coq Require Import List Arith Reals Lra Lia Bool Sorting.Sorted Permutation.
From Verif Require Import Base RList SelModel.
Import ListNotations.
Open Scope R_scope.

(** pandas' sort_values: some ascending rearrangement. *)
Definition sorts (sort : (fit_row -> R) -> list fit_row -> list fit_row) : Prop :=
  forall key rows, Permutation rows (sort key rows) /\ StronglySorted (fun a b => key a <= key b) (sort key rows).

(** The criteria, and which of two fits is at least as good. *)
Inductive criterion := By_BIC | By_AICc | By_AD | By_loglik.
Definition at_least_as_good (c : criterion) (a b : fit_row) : Prop :=
  match c with
  | By_BIC => f_BIC a <= f_BIC b
  | By_AICc => match f_AICc a, f_AICc b with Some x, Some y => x <= y | _, _ => False end
  | By_AD => f_AD a <= f_AD b
  | By_loglik => f_loglik b <= f_loglik a
  end.
Definition least_bad (c : criterion) (best : fit_row) (rows : list fit_row) : Prop :=
  In best rows /\ forall r, In r rows -> at_least_as_good c best r.

(** [n] applications of the optimizer, each starting from the previous answer. *)
Fixpoint rerun {P} (minimize : P -> bool * P) (n : nat) (guess : P) : bool * P :=
  match n with
  | O => (false, guess)
  | S O => minimize guess
  | S k => rerun minimize k (snd (minimize guess))
  end.

(** The names by which a distribution can be excluded, in capitals: with an underscore and a P, without
    the underscore, without both. *)
Definition forms (name n : string) : list string := map (fun tail => name ++ tail)%string ["_" ++ n ++ "P"; n ++ "P"; n]%string.
Definition spaced (a b : string) : list string := map (fun sep => a ++ sep ++ b)%string [" "; ""; "_"]%string.
Definition spellings (d : dname) : list string :=
  match d with
  | D_Weibull_2P => forms "WEIBULL" "2" | D_Weibull_3P => forms "WEIBULL" "3"
  | D_Gamma_2P => forms "GAMMA" "2" | D_Gamma_3P => forms "GAMMA" "3"
  | D_Lognormal_2P => forms "LOGNORMAL" "2" | D_Lognormal_3P => forms "LOGNORMAL" "3"
  | D_Loglogistic_2P => forms "LOGLOGISTIC" "2" | D_Loglogistic_3P => forms "LOGLOGISTIC" "3"
  | D_Exponential_1P => (forms "EXPONENTIAL" "1" ++ forms "EXPON" "1")%list | D_Exponential_2P => (forms "EXPONENTIAL" "2" ++ forms "EXPON" "2")%list
  | D_Normal_2P => forms "NORMAL" "2" | D_Gumbel_2P => forms "GUMBEL" "2" | D_Beta_2P => forms "BETA" "2"
  | D_Weibull_Mixture => (spaced "WEIBULL" "MIXTURE" ++ ["MIXTURE"; "MIX"; "WEIBULLMIX"; "WEIBULL_MIX"])%list
  | D_Weibull_CR => (spaced "WEIBULL" "CR" ++ spaced "WEIBULL" "COMPETINGRISKS" ++
      ["WEIBULL_COMPETING_RISKS"; "WEIBULL COMPETING RISKS"; "COMPETING RISKS"; "COMPETINGRISKS"; "CR"])%list
  | D_Weibull_DS => (spaced "WEIBULL" "DS" ++ ["WEIBULL_DEFECTIVE_SUBPOPULATION"; "WEIBULL_DEFECTIVESUBPOPULATION"; "WEIBULLDEFECTIVESUBPOPULATION";
      "WEIBULL DEFECTIVE SUBPOPULATION"; "DEFECTIVE SUBPOPULATION"; "DEFECTIVESUBPOPULATION"; "DS"])%list
  | _ => []
  end%string.
