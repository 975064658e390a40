(** Specifications for the distributions: supports, distribution functions, the order on
    extended values, and conditions on arrays. *)
From Coquelicot Require Import Coquelicot.
From Coq Require Import List Arith Reals Lra Lia.
From Verif Require Import Base Ext DistModel.
Import ListNotations.
Open Scope R_scope.

(** The support is the open interval between these ends. *)
Definition supp_lo (d : dist) : Rbar :=
  match d with
  | Weibull _ _ g | Lognormal _ _ g | Exponential _ g | Gamma _ _ g | Loglogistic _ _ g => Finite g
  | Normal _ _ | Gumbel _ _ => m_infty
  | Beta _ _ => Finite 0
  end.
Definition supp_hi (d : dist) : Rbar := match d with Beta _ _ => Finite 1 | _ => p_infty end.
Definition inside (d : dist) (x : R) : Prop := Rbar_lt (supp_lo d) x /\ Rbar_lt x (supp_hi d).

(** A distribution function on the reals. *)
Record distribution_function (F : R -> R) : Prop := {
  df_incr : forall x y, x <= y -> F x <= F y;
  df_range : forall x, 0 <= F x <= 1;
  df_low : is_lim F m_infty 0;
  df_high : is_lim F p_infty 1
}.

Definition ext_le (u v : ext) : Prop :=
  match u, v with
  | Fin x, Fin y => x <= y
  | Fin _, PInf | PInf, PInf => True
  | _, _ => False
  end.

(** The location parameter. *)
Definition location (d : dist) : R :=
  match d with
  | Weibull _ _ g | Lognormal _ _ g | Exponential _ g | Gamma _ _ g | Loglogistic _ _ g => g
  | _ => 0
  end.
Definition unshifted (d : dist) : dist :=
  match d with
  | Weibull a b _ => Weibull a b 0 | Lognormal m s _ => Lognormal m s 0 | Exponential l _ => Exponential l 0
  | Gamma a b _ => Gamma a b 0 | Loglogistic a b _ => Loglogistic a b 0 | d => d
  end.

(** The points of the array that are not above g come first; true of every array in
    increasing order. *)
Definition below_first (g : R) (X : list R) : Prop :=
  forall i j, (i < j < length X)%nat -> nth j X 0 <= g -> nth i X 0 <= g.

(** The families whose HF and CHF the library computes by a formula of its own that has to
    be cut off below the location parameter. *)
Definition cut_off_family (d : dist) : bool :=
  match d with Weibull _ _ _ | Exponential _ _ | Loglogistic _ _ _ => true | _ => false end.

(** Arrays on which the cut-off is right: any array if nothing has to be cut off. *)
Definition cut_off_safe (d : dist) (X : list R) : Prop :=
  cut_off_family d = false \/ location d = 0 \/ below_first (location d) X.

(** [h] is the quotient of the density [p] by the number [s > 0]. *)
Definition is_quotient (h p : ext) (s : R) : Prop :=
  match p with Fin x => h = Fin (x / s) | PInf => h = PInf | NaN => h = NaN end.
