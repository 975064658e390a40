(** Specifications for the competing risks, mixture and DSZI models. *)
From Coquelicot Require Import Coquelicot.
From Coq Require Import List Arith Reals Lra Lia.
From Verif Require Import Base Ext RList DistModel DistSpec.
Import ListNotations.
Open Scope R_scope.

Definition rprod (l : list R) : R := fold_right Rmult 1 l.

(** The weighted sum of values with weights [ps]. *)
Fixpoint dot (ps vs : list R) : R :=
  match ps, vs with p :: ps, v :: vs => p * v + dot ps vs | _, _ => 0 end.

(** Negative entries come before the others; true of every increasing array. *)
Definition negatives_first (X : list R) : Prop :=
  forall i j, (i < j < length X)%nat -> nth j X 0 < 0 -> nth i X 0 < 0.

(** A component whose methods accept the array: the library evaluates a Normal or Gumbel
    component everywhere and the others on the non-negative entries, of which there has to
    be at least one; a Beta distribution takes no value above 1. *)
Definition component_accepts (d : dist) (X : list R) : Prop :=
  match d with
  | Normal _ _ | Gumbel _ _ => True
  | Beta _ _ => (exists x, In x X /\ 0 <= x) /\ forall x, In x X -> x <= 1
  | _ => exists x, In x X /\ 0 <= x
  end.

(** The entry is not the one point where a component's hazard is cut off although its
    density is not zero. *)
Definition hazard_defined (d : dist) (x : R) : Prop :=
  0 < sf d x /\ (cut_off_family d = false \/ location d = 0 \/ x <> location d).

(** lo and hi are at least as extreme as the 1e-10 and 1 - 1e-10 quantiles of every component. *)
Definition extremes (ds : list dist) (lo hi : R) : Prop :=
  (forall d, In d ds -> lo <= ppf d (/ 10 ^ 10) /\ ppf d (1 - / 10 ^ 10) <= hi) /\ lo <= hi.

(** [m] is the mean residual life at t of the survival function S. *)
Definition mean_residual (S : R -> R) (t m : R) : Prop :=
  0 < S t /\ exists I : R -> R, (forall T, t <= T -> is_RInt S t T (I T)) /\ is_lim (fun T => I T / S t) p_infty m.
