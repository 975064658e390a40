(** Specification of the PP and QQ plots and plot_points. *)
From Coq Require Import String.
From Coq Require Import List Reals Sorted Permutation.
From Verif Require Import Base Ext NonparModel DistModel.
Import ListNotations.
Open Scope R_scope.

(** The entries of the nonparametric estimate the user asked for. *)
Definition estimated_by (method : string) (a : option R) (rows : list row) (es : list entry) : Prop :=
  (method = "KM"%string /\ kaplan_meier (95 / 100) rows = Ok es) \/
  (method = "NA"%string /\ exists hes, nelson_aalen (95 / 100) rows = Ok hes /\ es = map snd hes) \/
  (method = "RA"%string /\ exists r, rank_adjustment (95 / 100) a rows = Ok r /\ es = ra_entries r).

(** The estimated probabilities of failure at the failure times, in time order. *)
Definition failure_probabilities (es : list entry) : list R := map (fun e => 1 - e_est e) (filter e_code es).

(** The value before the i-th, 0 before the first. *)
Definition before (l : list R) (i : nat) : R := match i with O => 0 | S j => nth j l 0 end.

(** [Y] is the distribution of k times a variable distributed as [X], plus c. *)
Definition linear_image (inside : dist -> R -> Prop) (X Y : dist) (k c : R) : Prop :=
  forall x, inside X x -> inside Y (k * x + c) /\ cdf Y (k * x + c) = cdf X x.

(** The data with their positions, sorted by time. *)
Definition sorted_data (f rc : list R) (rows : list (nat * row)) : Prop :=
  Permutation (indexed (all_rows f rc)) rows /\ StronglySorted (fun r s => fst (snd r) <= fst (snd s)) rows.
