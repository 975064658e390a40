(** What the histogram and the P-P plots of Fit_Everything should show (C169). *)
From Coquelicot Require Import Coquelicot.
From Coq Require Import List Arith Reals Bool.
From Verif Require Import Base RealFacts Gauss RList NonparModel RepairModel TestingModel EvPlotModel.
Import ListNotations.
Open Scope R_scope.

Definition no_bar : bar := mkBar 0 0 0.
Definition left_edge (b : bar) : R := b_centre b - b_width b / 2.
Definition right_edge (b : bar) : R := b_centre b + b_width b / 2.

(** The bars stand side by side, all of one positive width, from lo to hi. *)
Definition tiles (lo hi : R) (l : list bar) : Prop :=
  l <> [] /\
  left_edge (nth 0 l no_bar) = lo /\ right_edge (nth (length l - 1) l no_bar) = hi /\
  (forall i, (S i < length l)%nat -> right_edge (nth i l no_bar) = left_edge (nth (S i) l no_bar)) /\
  (exists w, 0 < w /\ Forall (fun b => b_width b = w) l).

(** The number of values of X that satisfy a test. *)
Definition count (test : R -> bool) (X : list R) : nat := length (filter test X).

(** x lies in bar i of l: the right edge belongs to the next bar, if there is one. *)
Definition in_bar (l : list bar) (i : nat) (x : R) : bool :=
  Rleb (left_edge (nth i l no_bar)) x &&
  (if (S i =? length l)%nat then Rleb x (right_edge (nth i l no_bar)) else Rltb x (right_edge (nth i l no_bar))).

(** x lies in bar i or in one before it. *)
Definition up_to_bar (l : list bar) (i : nat) (x : R) : bool :=
  if (S i =? length l)%nat then Rleb x (right_edge (nth i l no_bar)) else Rltb x (right_edge (nth i l no_bar)).

(** Values (x, y) inside square plot limits. *)
Definition inside (lim : R * R) (v : R) : Prop := fst lim <= v <= snd lim.
