(** Specification of what the plots of the accelerated life test fitters show. *)
From Coquelicot Require Import Coquelicot.
From Coq Require Import String.
From Coq Require Import List Arith Reals Bool.
From Verif Require Import Base NonparModel RepairModel DistModel SelModel OtherModel ALTModel ALTSpec.
Import ListNotations.
Open Scope R_scope.

(** The distribution fitted to the failures at one stress alone, from its two parameters. *)
Definition alone (d : alt_dist) (p : R * R) : dist :=
  match fitted_alone d with
  | D_Lognormal_2P => Lognormal (fst p) (snd p) 0
  | D_Normal_2P => Normal (fst p) (snd p)
  | _ => Weibull (fst p) (snd p) 0
  end.
(** The failures and the censored items at a stress. *)
Definition failed_at (dual : bool) (k : alt_checked) (s : R * R) : list R := at_stress Rpair_dec s (failure_stresses dual k) (k_failures k).
Definition censored_at (dual : bool) (k : alt_checked) (s : R * R) : list R := at_stress Rpair_dec s (censored_stresses dual k) (k_censored k).
(** Positive stresses; the second matters for two stresses only. *)
Definition positive_stress (dual : bool) (s : R * R) : Prop := 0 < fst s /\ (dual = true -> 0 < snd s).
(** A point is on the chart. *)
Definition on_chart (xl yl : R * R) (p : R * R) : Prop := fst xl <= fst p <= snd xl /\ fst yl <= snd p <= snd yl.
(** Life falls with the stress. *)
Definition falling (life : R -> R) : Prop := forall a b, 0 < a -> a <= b -> life b <= life a.
(** Stress against life, or life against stress. *)
Definition oriented (swap : bool) (s t : R) : R * R := if swap then (t, s) else (s, t).
(** A line of points reaches a stress: the stress lies between those of two neighbours. *)
Definition reaches (swap : bool) (line : list (R * R)) (s : R) : Prop :=
  exists i p q, nth_error line i = Some p /\ nth_error line (i + 1) = Some q /\ (if swap then snd p <= s <= snd q else fst p <= s <= fst q).
