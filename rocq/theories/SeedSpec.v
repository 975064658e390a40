(** Specifications for the seeds of make_right_censored_data and make_ALT_data. *)
From Coquelicot Require Import Coquelicot.
From Coq Require Import List Arith Reals Lra Lia Bool ZArith Permutation.
From Verif Require Import Base RealFacts Ext RList DistModel OtherModel RandSpec.
Import ListNotations.
Open Scope R_scope.

(** The i-th integer of a source of integers, and the state after i integers. *)
Fixpoint after_int {G} (next : G -> Z * G) (i : nat) (g : G) : G := match i with O => g | S i => after_int next i (snd (next g)) end.
Definition integer {G} (next : G -> Z * G) (g : G) (i : nat) : Z := fst (next (after_int next i g)).

(** n samples of d, made from the numbers of a source of standard values. *)
Definition scale_of (d : dist) : R :=
  match d with Weibull a _ _ | Gamma a _ _ | Loglogistic a _ _ => a | Normal _ s | Gumbel _ s => s | Lognormal m _ _ => exp m | Exponential l _ => 1 / l | Beta _ _ => 1 end.
Definition shift_of (d : dist) : R :=
  match d with Weibull _ _ g | Gamma _ _ g | Loglogistic _ _ g | Lognormal _ _ g | Exponential _ g => g | Normal m _ | Gumbel m _ => m | Beta _ _ => 0 end.
Definition samples_from {G} (std_draw : dist -> G -> R * G) (d : dist) (n : nat) (g : G) : list R :=
  map (fun y => y * scale_of d + shift_of d) (first_numbers (std_draw (standard d)) g n).

(** np.random.shuffle gives the items of an array another order. *)
Definition reorders {G} (order : nat -> G -> list nat * G) : Prop := forall n g, Permutation (seq 0 n) (fst (order n g)).
Definition reordered (positions : list nat) (l : list R) : list R := map (fun i => nth i l 0) positions.

(** The data set d2 begins with the data set d1. *)
Definition extends (d1 d2 : alt_data) : Prop :=
  exists f fs1 fs2 c cs1 cs2,
    ad_failures d2 = ad_failures d1 ++ f /\ ad_fs1 d2 = ad_fs1 d1 ++ fs1 /\ ad_fs2 d2 = ad_fs2 d1 ++ fs2 /\
    ad_censored d2 = ad_censored d1 ++ c /\ ad_cs1 d2 = ad_cs1 d1 ++ cs1 /\ ad_cs2 d2 = ad_cs2 d1 ++ cs2.
