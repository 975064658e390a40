(** What reliability growth is about, without reference to the program. *)
From Coquelicot Require Import Coquelicot.
From Coq Require Import String.
From Coq Require Import List Arith Reals Bool Permutation Sorted.
From Verif Require Import Base RList.
Import ListNotations.
Open Scope R_scope.

(** [N t]: the number of failures expected by time t. The four demonstrated values at the end
    [T] of the test: failures per unit time so far, failures per unit time now, and their
    reciprocals. *)
Definition demonstrates (N : R -> R) (T mtbf_cumulative mtbf_now intensity_cumulative intensity_now : R) : Prop :=
  intensity_cumulative = N T / T /\ mtbf_cumulative = T / N T /\
  is_derive N T intensity_now /\ 0 < intensity_now /\ mtbf_now = / intensity_now.

(** The observed cumulative MTBF of each failure: its time over the number of failures up to
    it, in order of time. *)
Definition observed (times : list R) (pts : list (R * R)) : Prop :=
  Permutation (map fst pts) times /\ StronglySorted Rle (map fst pts) /\
  forall i x y, nth_error pts i = Some (x, y) -> y = x / INR (S i).

(** The sum of the squared vertical distances, on log axes, from the power law b t^a. *)
Definition log_misfit (pts : list (R * R)) (a b : R) : R :=
  fold_right Rplus 0 (map (fun p => (ln (snd p) - ln (b * Rpower (fst p) a)) ^ 2) pts).

Definition two_times (l : list R) : Prop := exists a b, In a l /\ In b l /\ a <> b.

Definition shows (xlim ylim : R * R) (p : R * R) : Prop :=
  fst xlim <= fst p <= snd xlim /\ fst ylim <= snd p <= snd ylim.
