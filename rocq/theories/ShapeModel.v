(** Model of the columns "common beta", "beta change" (sigma for Lognormal and Normal) of change_of_parameters and of the
    warning printed below it: ALT_fitters.py 28, 3098-3116 and 3172-3179, and the copies in the other 23 fitters
    (3557-3575, 4004-4022, 4517-4535, 5039-5057, 5558-5576, 6019-6037, 6485-6503, 6941-6959, 7457-7475, 7980-7998, 8500-8518,
    8966-8984, 9427-9445, 9878-9896, 10389-10407, 10911-10929, 11430-11448, 11865-11883, 12298-12316, 12723-12741, 13213-13231,
    13712-13730, 14208-14226).
    A text is modelled by the digits in it (RoundModel); -0.0 and 0.0 are the same. *)
From Coq Require Import ZArith Reals List Bool.
From Verif Require Import Base RoundModel ALTModel.
Import ListNotations.
Open Scope R_scope.

(** 28: shape_change_threshold *)
Definition shape_change_threshold : R := 5 / 10.

(** 3098: the common shape; 11865: the Exponential models compare with a Weibull shape of 1. *)
Definition common_column (d : alt_dist) (r : alt_result) : R := match d with A_Exponential => 1 | _ => a_shape r end.

(** betas_for_change_df, 2945-2967: 0 for a stress with one failure. *)
Definition shape_for_change (row : change_row) : R := match h_original row with None => 0 | Some p => snd p end.

(** A cell of the column: empty, or a percentage, with or without a plus sign before it. *)
Record percentage := { plus_sign : bool; digits : shown }.

(** 3106-3108 *)
Definition shape_diff (common own : R) : R := (common - own) / own.

(** 3102-3116, one row: the cell and whether the threshold is exceeded. *)
Definition change_cell (common own : R) : option percentage * bool :=
  if Req_EM_T own 0 then (None, false)
  else
    let diff := shape_diff common own in
    let cell := if Rlt_dec 0 diff then {| plus_sign := true; digits := Places 2 (rne (diff * 100 * 10 ^ 2)) |}
                else {| plus_sign := false; digits := Places 2 (rne (diff * 100 * 10 ^ 2)) |} in
    (Some cell, if Rlt_dec shape_change_threshold (Rabs diff) then true else false).

(** 3099-3116: the loop over the stresses. *)
Fixpoint change_loop (common : R) (rows : list change_row) (cells : list (option percentage)) (exceeded : bool) : list (option percentage) * bool :=
  match rows with
  | [] => (cells, exceeded)
  | row :: rest =>
      let c := change_cell common (shape_for_change row) in
      change_loop common rest (cells ++ [fst c]) (if snd c then true else exceeded)
  end.

(** The column and whether the warning is printed (3172, with print_results). *)
Definition shape_column (d : alt_dist) (r : alt_result) : list (option percentage) * bool := change_loop (common_column d r) (a_change r) [] false.
