(** Improper integrals over open intervals, for expectations. *)
From Coquelicot Require Import Coquelicot.
From Coq Require Import Reals Lra.
Open Scope R_scope.

(** x lies in the open interval (lo, hi). *)
Definition between (lo hi : Rbar) (x : R) : Prop := Rbar_lt lo x /\ Rbar_lt x hi.

(** The integral of h over the open interval (lo, hi) exists and is v: the Riemann integrals
    over [a, b] come as close to v as wanted when a and b come close to the ends. *)
Definition integral_over (h : R -> R) (lo hi : Rbar) (v : R) : Prop :=
  forall eps, 0 < eps -> exists a0 b0, between lo hi a0 /\ between lo hi b0 /\ a0 <= b0 /\
    forall a b, between lo hi a -> between lo hi b -> a <= a0 -> b0 <= b ->
      exists I, is_RInt h a b I /\ Rabs (I - v) < eps.

(** Limits at the ends of the interval. *)
Definition limit_lo (H : R -> R) (lo hi : Rbar) (v : R) : Prop :=
  forall eps, 0 < eps -> exists a0, between lo hi a0 /\ forall a, between lo hi a -> a <= a0 -> Rabs (H a - v) < eps.
Definition limit_hi (H : R -> R) (lo hi : Rbar) (v : R) : Prop :=
  forall eps, 0 < eps -> exists b0, between lo hi b0 /\ forall b, between lo hi b -> b0 <= b -> Rabs (H b - v) < eps.
