(** What a reader takes from the change of the shape parameter. *)
From Coq Require Import Reals List.
From Verif Require Import Base RoundModel RoundSpec ALTModel ShapeModel.
Import ListNotations.
Open Scope R_scope.

(** The percentage a cell says. *)
Definition says_percent (c : percentage) : option R := says (digits c).

(** The shape the model gives to all stresses; an Exponential distribution is a Weibull distribution of shape 1. *)
Definition shape_of_model (d : alt_dist) (shape : R) : R := match d with A_Exponential => 1 | _ => shape end.

(** The shape fitted at a stress, if one was. *)
Definition fitted_shape (row : change_row) (own : R) : Prop := exists scale, h_original row = Some (scale, own).

(** [common] is more than half away from [own], relative to [own]. *)
Definition changed_by_half (own common : R) : Prop := common < own / 2 \/ 3 / 2 * own < common.
