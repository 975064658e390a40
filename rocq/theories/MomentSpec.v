(** Expectations under a distribution. *)
From Coquelicot Require Import Coquelicot.
From Coq Require Import Reals Lra.
From Verif Require Import Base Ext DistModel DistSpec ExpectSpec.
Open Scope R_scope.

(** The density as a real function (it is finite inside the support). *)
Definition density (d : dist) (x : R) : R := match pdf d x with Fin v => v | _ => 0 end.

(** The expectation of g under d exists and is v: the integral of g times the density over
    the support. *)
Definition expectation (d : dist) (g : R -> R) (v : R) : Prop :=
  integral_over (fun x => g x * density d x) (supp_lo d) (supp_hi d) v.

(** The times later than t that d can produce start here. *)
Definition from_time (d : dist) (t : R) : Rbar := if Rbar_lt_dec (supp_lo d) t then Finite t else supp_lo d.
(** The expected remaining life at time t of a unit that has survived to t, times the
    probability of surviving to t. *)
Definition remaining (d : dist) (t v : R) : Prop :=
  integral_over (fun x => (x - t) * density d x) (from_time d t) (supp_hi d) v.
(** quad returns the integral from t to infinity whenever there is one. *)
Definition quad_right (quad : (R -> R) -> R -> R) : Prop := forall f (t v : R), integral_over f t p_infty v -> quad f t = v.
