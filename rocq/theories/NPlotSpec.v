(** Specification for the nonparametric plots. *)
From Coq Require Import String.
From Coq Require Import List Arith Reals.
From Verif Require Import Base Ext NonparModel NonparSpec NPlotModel.
Import ListNotations.
Open Scope R_scope.

(** What a plot of each kind shows for a reliability. *)
Definition shown (k : kind) (r : R) (y : ext) : Prop :=
  match k with
  | K_SF => y = Fin r
  | K_CDF => y = Fin (1 - r)
  | K_CHF => (0 < r -> y = Fin (- ln r)) /\ (r = 0 -> y = PInf)
  end.
(** The chart goes through a point. *)
Definition goes_through (c : chart) (x : R) (y : ext) : Prop := exists i, nth_error (ch_x c) i = Some x /\ nth_error (ch_y c) i = Some y.
(** The line of the chart is at height y above x: at one of its points or along a horizontal piece. *)
Definition covers (c : chart) (x : R) (y : ext) : Prop :=
  goes_through c x y \/
  exists i x0 x1, nth_error (ch_x c) i = Some x0 /\ nth_error (ch_x c) (S i) = Some x1 /\ x0 <= x <= x1 /\
    nth_error (ch_y c) i = Some y /\ nth_error (ch_y c) (S i) = Some y.
(** Every piece is horizontal or vertical. *)
Definition steps_only (c : chart) : Prop :=
  forall i x x' y y', nth_error (ch_x c) i = Some x -> nth_error (ch_x c) (S i) = Some x' -> nth_error (ch_y c) i = Some y -> nth_error (ch_y c) (S i) = Some y' -> x = x' \/ y = y'.
(** Point i is on the chart; infinite ones cannot be. *)
Definition in_view (c : chart) (i : nat) : Prop :=
  forall x y, nth_error (ch_x c) i = Some x -> nth_error (ch_y c) i = Some (Fin y) -> fst (ch_xlim c) <= x <= snd (ch_xlim c) /\ fst (ch_ylim c) <= y <= snd (ch_ylim c).
(** The names of the kinds. *)
Definition names (k : kind) : list string := match k with K_SF => ["SF"; "sf"] | K_CDF => ["CDF"; "cdf"] | K_CHF => ["CHF"; "chf"] end%string.
(** a <= b where both may be infinite. *)
Definition ext_le (a b : ext) : Prop := match a, b with Fin x, Fin y => x <= y | Fin _, PInf => True | PInf, PInf => True | _, _ => False end.
(** The argument a of RankAdjustment is below 1. *)
Definition sane (e : estimator) : Prop := match e with E_RA a => a_value a < 1 | _ => True end.
(** The limits drawn for a reliability between l and u; an infinite upper limit is drawn at 1e10. *)
Definition band_shows (k : kind) (l u : R) (lower upper : ext) : Prop :=
  match k with
  | K_SF => lower = Fin l /\ upper = Fin u
  | K_CDF => lower = Fin (1 - u) /\ upper = Fin (1 - l)
  | K_CHF => shown K_CHF u lower /\ (0 < l -> upper = Fin (- ln l)) /\ (l = 0 -> upper = Fin (10 ^ 10))
  end.
(** The last item observed is censored. *)
Definition ends_censored (rows : list row) : Prop := exists pre t, rows = pre ++ [(t, false)].
