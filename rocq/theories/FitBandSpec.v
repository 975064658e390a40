(** Specifications for the confidence bands of fitted distributions. *)
From Coq Require Import List Arith Reals Bool.
From Verif Require Import Base Ext DistModel CIModel.
Import ListNotations.
Open Scope R_scope.

(** The distributions with these bounds. *)
Definition two_parameters (d : dist) : Prop := match d with Exponential _ _ | DistModel.Beta _ _ => False | _ => True end.

(** A limit that goes down, or up, as drawn. *)
Definition goes (down : bool) (l : list R) : Prop := forall i j, (i <= j < length l)%nat -> if down then nth j l 0 <= nth i l 0 else nth i l 0 <= nth j l 0.
(** What is drawn for the limit l: l itself, if it goes the right way; otherwise l up to its lowest (highest) point and
    this value from there on. *)
Definition drawn_limit (down : bool) (l l' : list R) : Prop :=
  length l' = length l /\ (goes down l -> l' = l) /\
  (l' = l \/ exists k, (k < length l)%nat /\ (forall i, (i < k)%nat -> nth i l' 0 = nth i l 0) /\ (forall i, (k <= i < length l)%nat -> nth i l' 0 = nth k l 0) /\
     forall v, In v l -> if down then nth k l 0 <= v else v <= nth k l 0).
