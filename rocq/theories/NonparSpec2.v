(** Specifications for C114-C116. *)
From Coq Require Import List Reals.
From Verif Require Import Base Ext NonparModel.
Import ListNotations.
Open Scope R_scope.

Definition increasing (h : R -> R) : Prop := forall x y, x < y -> h x < h y.

(** The same row, and the same entry of a result, at the transformed time. *)
Definition retime_row (h : R -> R) (r : row) : row := (h (fst r), snd r).
Definition retime (h : R -> R) (e : entry) : entry := mkEntry (h (e_time e)) (e_code e) (e_est e) (e_lower e) (e_upper e).

(** A function applied to the result of a call; errors are kept. *)
Definition rmap {A B} (g : A -> B) (r : result A) : result B := match r with Ok a => Ok (g a) | Err e => Err e end.

(** The same data in which some of the failures have been replaced by censorings at the
    same times. *)
Definition censors_more (rows rows' : list row) : Prop :=
  Forall2 (fun r r' => fst r' = fst r /\ (snd r' = true -> snd r = true)) rows rows'.
