(** Values of a call, whatever was done before. *)
From Coq Require Import List Reals Bool.
From Verif Require Import Base Ext DistModel CombModel HistModel.
Import ListNotations.
Open Scope R_scope.

(** The array of a function. *)
Definition values_of (f : func) (v : arrays) : array :=
  match f with PDF_ => v_pdf v | CDF_ => v_cdf v | SF_ => v_sf v | HF_ => v_hf v | CHF_ => v_chf v end.
(** What the caller sees: an array of one value is shown as the value. *)
Definition sees (h : heap) (r : result returned) : result array :=
  match r with Ok (R_array a) => Ok (contents h a) | Ok (R_number v) => Ok [v] | Err e => Err e end.
(** No action of the history writes to the address. *)
Definition never_written (a : nat) (c : list action) : Prop := forall i v, ~ In (A_write a i v) c.
(** Values that can be drawn. *)
Definition moderate (v : ext) : Prop := match v with Fin x => x <= 10 ^ 100 | PInf => False | NaN => True end.
