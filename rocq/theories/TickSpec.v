(** What axes coordinates and tick labels mean. *)
From Coq Require Import ZArith Reals.
From Coq Require Import String.
From Coq Require Import List.
From Verif Require Import Base RoundModel RoundSpec TickModel.
Import ListNotations.
Local Open Scope string_scope.
Local Open Scope list_scope.
Open Scope R_scope.

(** An axis matplotlib can draw: different limits, a length on the screen, and a scale that is strictly increasing on the values
    it can show, which include the limits, with its inverse. *)
Record drawable (shows : R -> Prop) (a : axis) : Prop := {
  d_lim_1 : shows (lim_1 a); d_lim_2 : shows (lim_2 a); d_lims : lim_1 a <> lim_2 a; d_extent : 0 < extent a;
  d_scale : forall x y, shows x -> shows y -> x < y -> scale a x < scale a y;
  d_back : forall x, shows x -> unscale a (scale a x) = x;
  d_onto : forall s, Rmin (scale a (lim_1 a)) (scale a (lim_2 a)) <= s <= Rmax (scale a (lim_1 a)) (scale a (lim_2 a)) ->
             shows (unscale a s) /\ scale a (unscale a s) = s }.

Definition on_axis (a : axis) (v : R) : Prop := Rmin (lim_1 a) (lim_2 a) <= v <= Rmax (lim_1 a) (lim_2 a).
(** The documented names of the directions and the axes (the code has synonyms). *)
Definition the_axis (ax : axes) (name : string) : axis := if String.eqb name "x" then x_axis ax else y_axis ax.

(** The number a label of a tick says. *)
Definition label_says (l : tick_label) : option R :=
  match l with
  | L_plain s => says s
  | L_power negative m e =>
      match (match m with None => Some 1 | Some s => says s end) with
      | None => None
      | Some x => Some ((if negative then -1 else 1) * x * powerRZ 10 e)
      end
  end.

(** Space at both ends of an axis without ticks, as a fraction of it; all of it with less than two ticks. *)
Definition free_ends (fraction : R -> R) (ticks : list R) (d : R) : Prop :=
  match ticks with
  | [] | [_] => d = 1
  | t :: r => d = fraction t + (1 - fraction (last r 0))
  end.
