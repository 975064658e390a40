(** Specification of straight line fitting. *)
From Coq Require Import List Reals.
From Verif Require Import Base RList DistModel RegModel.
Import ListNotations.
Open Scope R_scope.

(** Sums of squared vertical and horizontal distances of the points from y = m x + c. *)
Definition vertical (pts : list (R * R)) (m c : R) : R := rsum (map (fun p => (snd p - (m * fst p + c)) ^ 2) pts).
Definition horizontal (pts : list (R * R)) (m c : R) : R := rsum (map (fun p => (fst p - (snd p - c) / m) ^ 2) pts).

(** [v] is what was asked for, if anything was. *)
Definition honours (forced : option R) (v : R) : Prop := forall w, forced = Some w -> v = w.

Definition two_different (l : list R) : Prop := exists a b, In a l /\ In b l /\ a <> b.

(** The distribution with parameters [p] in the order least_squares returns them. *)
Definition fitted_dist (d : ls_dist) (p : list R) : option dist :=
  match d, p with
  | LS_Weibull, [a; b] => Some (Weibull a b 0)
  | LS_Exponential, [l] => Some (Exponential l 0)
  | LS_Normal, [m; s] => Some (Normal m s)
  | LS_Gumbel, [m; s] => Some (Gumbel m s)
  | LS_Lognormal, [m; s] => Some (Lognormal m s 0)
  | LS_Loglogistic, [a; b] => Some (Loglogistic a b 0)
  | _, _ => None
  end.
(** The parameter that can be forced: beta or sigma. *)
Definition shape_of (d : ls_dist) (p : list R) : R := nth 1 p 0.
