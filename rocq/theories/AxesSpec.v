(** Specification of what the axes show. *)
From Coquelicot Require Import Coquelicot.
From Coq Require Import String.
From Coq Require Import List Arith Reals Bool.
From Verif Require Import Base Ext DistModel InputModel AxesModel.
Import ListNotations.
Open Scope R_scope.

Definition on (l : R * R) (x : R) : Prop := fst l <= x <= snd l.
Definition part_of (l l' : R * R) : Prop := fst l' <= fst l /\ snd l <= snd l'.
(** Fresh axes as matplotlib makes them. *)
Definition blank (v : view) : Prop := v_x v = (0, 1) /\ v_y v = (0, 1).
(** The x values that belong to a plot: those given, or from xmin to xmax in either order; without
    limits all but the extreme thousandths. *)
Definition belongs (d : dist) (xvals : option (list R)) (xmin xmax : option R) (x : R) : Prop :=
  match xvals, xmin, xmax with
  | Some l, _, _ => In x l
  | None, Some a, Some b => a <= x <= b \/ b <= x <= a
  | None, Some a, None => a <= x <= ppf d (999 / 1000)
  | None, None, Some b => ppf d (1 / 1000) <= x <= b
  | None, None, None => ppf d (1 / 1000) <= x <= ppf d (999 / 1000)
  end.
(** A sequence of plots on the same axes, each of a curve with at least two points, that never leaves
    a view of exactly 0 to 1 in both directions. *)
Inductive never_blank : view -> list request -> view -> Prop :=
| Never_nil v : never_blank v [] v
| Never_cons v auto q v' rest v'' : (1 < length (q_X q))%nat -> length (q_Y q) = length (q_X q) -> draw v auto q = Ok v' -> ~ blank v' -> never_blank v' rest v'' -> never_blank v (q :: rest) v''.
