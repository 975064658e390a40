(** Specification for the plots of the mean cumulative function. *)
From Coq Require Import List Arith Reals Permutation Sorted.
From Verif Require Import Base RList NonparModel RepairModel RepairSpec MPlotModel.
Import ListNotations.
Open Scope R_scope.

(** [repairs]: all recorded times except the last of each system. *)
Definition repairs_of (data : list (list R)) (repairs : list R) : Prop := Permutation (repairs ++ map rmax data) (concat data).
(** The mean number of repairs per system up to time t: each repair counts one over the number of systems observed at
    that time. *)
Definition mean_repairs (data : list (list R)) (repairs : list R) (t : R) : R :=
  rsum (map (fun s => 1 / INR (systems_observed data s)) (filter (fun s => if Rle_dec s t then true else false) repairs)).
(** The line has a horizontal piece at height y above t. *)
Definition flat_at (l : list (R * R)) (t y : R) : Prop :=
  exists pre a b post, l = pre ++ a :: b :: post /\ fst a <= t <= fst b /\ snd a = y /\ snd b = y.
(** Every piece is horizontal to the right or vertical upwards. *)
Fixpoint climbs (l : list (R * R)) : Prop :=
  match l with
  | a :: (b :: _) as r => (fst a <= fst b /\ snd a = snd b \/ fst a = fst b /\ snd a <= snd b) /\ climbs r
  | _ => True
  end.
Definition inside (xlim ylim : R * R) (v : R * R) : Prop := fst xlim <= fst v <= snd xlim /\ fst ylim <= snd v <= snd ylim.
Definition latest (data : list (list R)) : R := rmax (concat data).
