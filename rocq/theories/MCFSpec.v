(** Specification of the parametric mean cumulative function. *)
From Coquelicot Require Import Coquelicot.
From Coq Require Import List Arith Reals Sorted.
From Verif Require Import Base RList RepairModel.
Import ListNotations.
Open Scope R_scope.

(** The mean number of repairs by t under the power law. *)
Definition power_law (alpha beta t : R) : R := Rpower (t / alpha) beta.

(** The rate of repair never rises, never falls: the repairs in the second of two successive
    periods of equal length against those in the first. *)
Definition never_rises (M : R -> R) : Prop := forall t h, 0 < t -> 0 < h -> M (t + 2 * h) - M (t + h) <= M (t + h) - M t.
Definition never_falls (M : R -> R) : Prop := forall t h, 0 < t -> 0 < h -> M (t + h) - M t <= M (t + 2 * h) - M (t + h).
Definition really_falls (M : R -> R) : Prop := forall t h, 0 < t -> 0 < h -> M (t + 2 * h) - M (t + h) < M (t + h) - M t.
Definition really_rises (M : R -> R) : Prop := forall t h, 0 < t -> 0 < h -> M (t + h) - M t < M (t + 2 * h) - M (t + h).

(** The sum of the squared differences of the logarithms from those of a power law. *)
Definition log_error (alpha beta : R) (times MCF : list R) : R :=
  rsum (map (fun p => (ln (snd p) - ln (power_law alpha beta (fst p))) ^ 2) (combine times MCF)).

(** A covariance matrix. *)
Definition covariance (va vb c : R) : Prop := 0 <= va /\ 0 <= vb /\ c ^ 2 <= va * vb.
