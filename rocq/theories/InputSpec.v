(** Specification of the x values and arguments of the distribution methods. *)
From Coquelicot Require Import Coquelicot.
From Coq Require Import String.
From Coq Require Import List Reals Sorted.
From Verif Require Import Base ConvertModel DistModel DistSpec.
Import ListNotations.
Open Scope R_scope.

(** 200 values that never fall, from a to b. *)
Definition plot_range (a b : R) (X : list R) : Prop :=
  length X = 200%nat /\ StronglySorted Rle X /\ nth 0 X 0 = a /\ last X 0 = b.

(** The distributions on the positive half line: all but Normal, Gumbel and Beta. *)
Definition half_line (d : dist) : Prop := supp_lo d <> m_infty /\ supp_hi d = p_infty.

(** The limits the user asked for, in order; the defaults are 0 and the 99.99 per cent quantile. *)
Definition lower (xmin xmax : option R) (def_lo def_hi : R) : R :=
  Rmin match xmin with Some v => v | None => def_lo end match xmax with Some v => v | None => def_hi end.
Definition upper_limit (xmin xmax : option R) (def_lo def_hi : R) : R :=
  Rmax match xmin with Some v => v | None => def_lo end match xmax with Some v => v | None => def_hi end.

(** Equal steps, and equal ratios of the distances from g. *)
Definition equal_steps (l : list R) : Prop := exists h, forall i, (S i < length l)%nat -> nth (S i) l 0 - nth i l 0 = h.
Definition equal_ratios (g : R) (l : list R) : Prop := exists q, forall i, (S i < length l)%nat -> nth (S i) l 0 - g = q * (nth i l 0 - g).

(** ** Arguments *)

(** What a name of a type of interval stands for. *)
Definition stands_for_time (s : string) : Prop := In (ConvertModel.upper s) ["T"; "TIME"]%string.
Definition stands_for_reliability (s : string) : Prop := In (ConvertModel.upper s) ["R"; "REL"; "RELIABILITY"]%string.
Definition meaning (s : option string) : option string -> Prop := fun t =>
  match s with
  | None => t = None
  | Some s =>
      (stands_for_time s /\ t = Some "time"%string) \/ (stands_for_reliability s /\ t = Some "reliability"%string) \/
      (~ stands_for_time s /\ ~ stands_for_reliability s /\ t = None)
  end.
(** Exponential and Beta objects have no type of interval. *)
Definition has_type (d : dist) : Prop := match d with Exponential _ _ | DistModel.Beta _ _ => False | _ => True end.
(** The values a distribution can take, as far as its class knows. *)
Definition in_domain (d : dist) (x : R) : Prop :=
  match d with Normal _ _ | Gumbel _ _ => True | DistModel.Beta _ _ => 0 <= x <= 1 | _ => 0 <= x end.
