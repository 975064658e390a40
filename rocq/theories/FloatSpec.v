(** What the estimators are in exact arithmetic, and how far a computed number may be from
    an exact one. *)
From Coq Require Import List Reals.
From Flocq Require Import Core.
Import ListNotations.
Open Scope R_scope.

(** [x] is a number of IEEE 754 binary64 (ignoring overflow): m * 2^e with |m| < 2^53 and
    e >= -1074. *)
Definition double (x : R) : Prop :=
  exists m e : Z, x = IZR m * powerRZ 2 e /\ (Z.abs m < 2 ^ 53)%Z /\ (-1074 <= e)%Z.

(** Item number i (from 0) failed, and the items at risk when it left. *)
Definition failed (codes : list bool) (i : nat) : bool := nth i codes false.

(** The product limit estimate after the first k of n items. *)
Definition survival (codes : list bool) (k : nat) : R :=
  fold_right Rmult 1 (map (fun i => if failed codes i then 1 - 1 / INR (length codes - i) else 1) (seq 0 k)).

(** The cumulative hazard after the first k of n items. *)
Definition hazard (codes : list bool) (k : nat) : R :=
  fold_right Rplus 0 (map (fun i => if failed codes i then 1 / INR (length codes - i) else 0) (seq 0 k)).

(** Systems not yet retired at event number i: all without those whose end came before. *)
Definition systems_left (systems : nat) (states : list bool) (i : nat) : nat :=
  systems - length (filter negb (firstn i states)).

(** The mean cumulative number of repairs after the first k events. *)
Definition mean_repairs (systems : nat) (states : list bool) (k : nat) : R :=
  fold_right Rplus 0
    (map (fun i => if failed states i then 1 / INR (systems_left systems states i) else 0) (seq 0 k)).

(** [v] is [x] up to [m] roundings of relative size at most 2^-53. *)
Definition within_roundings (m : nat) (x v : R) : Prop :=
  x * (1 - / 2 ^ 53) ^ m <= v <= x * (1 + / 2 ^ 53) ^ m.
