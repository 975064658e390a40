(** The inside of a polygon and the height of a line. *)
From Coq Require Import List Arith Reals.
Import ListNotations.
Open Scope R_scope.

(** The point of the line through a and b at x. *)
Definition chord (a b : R * R) (x : R) : R := snd a + (snd b - snd a) / (fst b - fst a) * (x - fst a).
Definition spans (a b : R * R) (x : R) : Prop := fst a <= x < fst b \/ fst b <= x < fst a.
Lemma spans_dec a b x : {spans a b x} + {~ spans a b x}.
Proof.
  unfold spans. destruct (Rle_dec (fst a) x), (Rlt_dec x (fst b)), (Rle_dec (fst b) x), (Rlt_dec x (fst a)); tauto.
Qed.
(** Does the edge from a to b lie above p? *)
Definition above (p a b : R * R) : bool := if spans_dec a b (fst p) then (if Rlt_dec (snd p) (chord a b (fst p)) then true else false) else false.

(** The number of edges of a line above a point. *)
Fixpoint edges_above (p : R * R) (l : list (R * R)) : nat :=
  match l with
  | a :: ((b :: _) as r) => (if above p a b then 1 else 0) + edges_above p r
  | _ => 0
  end.
(** The even-odd rule: a vertical ray from the point crosses the closed line an odd number of times. *)
Definition inside (p : R * R) (polygon : list (R * R)) : Prop :=
  match polygon with [] => False | a :: _ => Nat.odd (edges_above p (polygon ++ [a])) = true end.

(** The line has the height y at x. *)
Definition height (line : list (R * R)) (x y : R) : Prop := exists u a b v, line = u ++ a :: b :: v /\ spans a b x /\ y = chord a b x.
(** Between two heights, whichever is larger. *)
Definition between_heights (h k y : R) : Prop := h <= y < k \/ k <= y < h.

Definition increasing (l : list R) : Prop := forall i j, (i < j < length l)%nat -> nth i l 0 < nth j l 0.
Definition strictly_monotone (l : list R) : Prop := increasing l \/ increasing (rev l).
(** The figure with its axes exchanged. *)
Definition swap (p : R * R) : R * R := (snd p, fst p).
