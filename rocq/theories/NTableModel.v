(** Model of the results tables of KaplanMeier (Nonparametric.py:151-154, 186-206),
    NelsonAalen (476-479, 510-530) and RankAdjustment (803-806, 897-917): the data frame in
    the attribute results. *)
From Coquelicot Require Import Coquelicot.
From Coq Require Import List Arith Reals Bool.
From Verif Require Import Base Ext Gauss NonparModel.
Import ListNotations.
Open Scope R_scope.

(** One row of the data frame: times, censoring code, items remaining, estimate, bounds. *)
Record results_row := mkRes {
  c_time : R; c_code : bool; c_remaining : nat; c_est : R; c_lower : ext; c_upper : ext }.

(** failures_array = np.arange(1, n + 1), remaining_array = failures_array[::-1], put beside
    the other columns (Nonparametric.py:153-154, 187-194). *)
Definition results_table (es : list entry) : list results_row :=
  map (fun p => mkRes (e_time (fst p)) (e_code (fst p)) (snd p) (e_est (fst p)) (e_lower (fst p)) (e_upper (fst p)))
      (combine es (rev (seq 1 (length es)))).

Inductive estimator := Kaplan_Meier | Nelson_Aalen | Rank_Adjustment (a : option R).

(** The attribute results of the three classes. *)
Definition results (k : estimator) (CI : R) (sorted_rows : list (R * bool)) : result (list results_row) :=
  match k with
  | Kaplan_Meier => let! es := kaplan_meier CI sorted_rows in Ok (results_table es)
  | Nelson_Aalen => let! hes := nelson_aalen CI sorted_rows in Ok (results_table (map snd hes))
  | Rank_Adjustment a => let! r := rank_adjustment CI a sorted_rows in Ok (results_table (ra_entries r))
  end.
