(** Sums and elementary facts about lists of reals. *)
From Coq Require Import List Arith Reals Permutation Sorted Lra Lia.
Import ListNotations.
Open Scope R_scope.

Definition rsum (l : list R) : R := fold_right Rplus 0 l.

Lemma rsum_cons x l : rsum (x :: l) = x + rsum l.
Proof. reflexivity. Qed.
Lemma rsum_app l m : rsum (l ++ m) = rsum l + rsum m.
Proof. induction l as [|x l IH]; simpl; [ring|]. fold (rsum (l ++ m)) (rsum l). rewrite IH. ring. Qed.
Lemma rsum_perm l m : Permutation l m -> rsum l = rsum m.
Proof. induction 1; simpl in *; try congruence. ring. Qed.
Lemma rsum_scal {A} c (f : A -> R) l : rsum (map (fun x => c * f x) l) = c * rsum (map f l).
Proof. induction l as [|x l IH]; [simpl; ring|]. cbn [map]. rewrite !rsum_cons, IH. ring. Qed.
Lemma rsum_map_scal c l : rsum (map (Rmult c) l) = c * rsum l.
Proof. induction l as [|x l IH]; [simpl; ring|]. cbn [map]. rewrite !rsum_cons, IH. ring. Qed.
Lemma rsum_plus {A} (f g : A -> R) l : rsum (map (fun x => f x + g x) l) = rsum (map f l) + rsum (map g l).
Proof. induction l as [|x l IH]; [simpl; ring|]. cbn [map]. rewrite !rsum_cons, IH. ring. Qed.
Lemma rsum_minus {A} (f g : A -> R) l : rsum (map (fun x => f x - g x) l) = rsum (map f l) - rsum (map g l).
Proof. induction l as [|x l IH]; [simpl; ring|]. cbn [map]. rewrite !rsum_cons, IH. ring. Qed.
Lemma rsum_const {A} c (l : list A) : rsum (map (fun _ => c) l) = INR (length l) * c.
Proof.
  induction l as [|x l IH]; [simpl; ring|]. cbn [map length]. rewrite rsum_cons, IH, S_INR. ring.
Qed.
Lemma rsum_rev l : rsum (rev l) = rsum l.
Proof. apply rsum_perm. symmetry. apply Permutation_rev. Qed.
Lemma rsum_nonneg l : Forall (fun x => 0 <= x) l -> 0 <= rsum l.
Proof. induction 1; simpl; [lra|]. unfold rsum in *. lra. Qed.
Lemma rsum_pos l : Forall (fun x => 0 < x) l -> l <> [] -> 0 < rsum l.
Proof.
  intros H Hn. destruct H as [|x l Hx H]; [congruence|]. rewrite rsum_cons.
  assert (0 <= rsum l); [|lra]. apply rsum_nonneg. eapply Forall_impl; [|exact H]. simpl; intros; lra.
Qed.
Lemma rsum_le {A} (f g : A -> R) l : (forall x, In x l -> f x <= g x) -> rsum (map f l) <= rsum (map g l).
Proof.
  induction l as [|x l IH]; intros H; simpl; [lra|]. fold (rsum (map f l)) (rsum (map g l)).
  pose proof (H x (or_introl eq_refl)). assert (rsum (map f l) <= rsum (map g l)); [|lra].
  apply IH. intros; apply H; now right.
Qed.
Lemma rsum_lt {A} (f g : A -> R) l : (forall x, In x l -> f x <= g x) ->
  (exists x, In x l /\ f x < g x) -> rsum (map f l) < rsum (map g l).
Proof.
  induction l as [|x l IH]; intros H (y & Hy & Hlt); [destruct Hy|].
  cbn [map]. rewrite !rsum_cons. pose proof (H x (or_introl eq_refl)) as H0.
  pose proof (rsum_le f g l (fun z Hz => H z (or_intror Hz))) as H1.
  destruct Hy as [->|Hy]; [lra|].
  assert (rsum (map f l) < rsum (map g l)); [|lra]. apply IH; [intros; apply H; now right|eauto].
Qed.
Lemma rsum_ext {A} (f g : A -> R) l : (forall x, In x l -> f x = g x) -> rsum (map f l) = rsum (map g l).
Proof. intros H. f_equal. now apply map_ext_in. Qed.
Lemma rsum_zero_nonneg l : Forall (fun x => 0 <= x) l -> rsum l = 0 -> Forall (fun x => x = 0) l.
Proof.
  induction 1 as [|x l Hx HF IH]; intros E; constructor; rewrite rsum_cons in E;
    pose proof (rsum_nonneg l HF); [lra|apply IH; lra].
Qed.
