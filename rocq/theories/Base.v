(** Shared vocabulary: Python exceptions as values, total orders, sorting. *)
From Coq Require Import List Arith Bool Lia Permutation Sorted.
Import ListNotations.

(** The Python exception classes that the modelled code raises. *)
Inductive pyerr :=
| ValueError | TypeError | ZeroDivisionError | NameError | AttributeError
| IndexError | RuntimeError | KeyError.

(** The outcome of running a piece of Python: a value, or an exception. *)
Inductive result (A : Type) : Type :=
| Ok (a : A)
| Err (e : pyerr).
Arguments Ok {A} a.
Arguments Err {A} e.

Definition bind {A B} (r : result A) (f : A -> result B) : result B :=
  match r with Ok a => f a | Err e => Err e end.

Notation "'let!' x := r 'in' k" := (bind r (fun x => k))
  (at level 200, x name, r at level 100, k at level 200).

Definition rmap {A B} (f : A -> B) (r : result A) : result B :=
  match r with Ok a => Ok (f a) | Err e => Err e end.

(** A decidable total order, as a boolean comparison. *)
Record total_order {T : Type} (leb : T -> T -> bool) : Prop := {
  to_total : forall x y, leb x y = true \/ leb y x = true;
  to_trans : forall x y z, leb x y = true -> leb y z = true -> leb x z = true;
  to_antisym : forall x y, leb x y = true -> leb y x = true -> x = y
}.

Section Sorting.
  Context {T : Type} (leb : T -> T -> bool).

  Fixpoint insert (x : T) (l : list T) : list T :=
    match l with
    | [] => [x]
    | y :: r => if leb x y then x :: l else y :: insert x r
    end.

  Fixpoint isort (l : list T) : list T :=
    match l with
    | [] => []
    | x :: r => insert x (isort r)
    end.

  (** [sorted l]: every element is [<=] every later one. *)
  Definition sorted : list T -> Prop := StronglySorted (fun x y => leb x y = true).

  Lemma insert_perm x l : Permutation (x :: l) (insert x l).
  Proof.
    induction l as [|y r IH]; simpl; [reflexivity|].
    destruct (leb x y); [reflexivity|].
    rewrite perm_swap. now constructor.
  Qed.

  Lemma isort_perm l : Permutation l (isort l).
  Proof.
    induction l as [|x r IH]; simpl; [reflexivity|].
    rewrite <- insert_perm. now constructor.
  Qed.

  Lemma isort_length l : length (isort l) = length l.
  Proof. symmetry. apply Permutation_length, isort_perm. Qed.

  Hypothesis ord_total : forall x y, leb x y = true \/ leb y x = true.
  Hypothesis ord_trans : forall x y z, leb x y = true -> leb y z = true -> leb x z = true.

  Lemma insert_sorted x l : sorted l -> sorted (insert x l).
  Proof.
    induction 1 as [|y r Hr IH Hy]; simpl.
    - repeat constructor.
    - destruct (leb x y) eqn:E.
      + constructor; [now constructor|].
        constructor; [assumption|].
        eapply Forall_impl; [|exact Hy]. intros z Hz. now apply ord_trans with y.
      + constructor; [assumption|].
        apply Forall_forall. intros z Hz.
        apply (Permutation_in _ (Permutation_sym (insert_perm x r))) in Hz.
        destruct Hz as [<-|Hz].
        * destruct (ord_total x y) as [H|H]; congruence.
        * rewrite Forall_forall in Hy. auto.
  Qed.

  Lemma isort_sorted l : sorted (isort l).
  Proof.
    induction l as [|x r IH]; simpl; [constructor|now apply insert_sorted].
  Qed.

  Hypothesis ord_antisym : forall x y, leb x y = true -> leb y x = true -> x = y.

  (** Two sorted permutations of the same data are equal, so the result of a sort of
      plain values does not depend on the sorting algorithm. *)
  Lemma sorted_perm_eq l1 l2 : sorted l1 -> sorted l2 -> Permutation l1 l2 -> l1 = l2.
  Proof.
    intros H1. revert l2. induction H1 as [|x r Hr IH Hx]; intros l2 H2 P.
    - now apply Permutation_nil in P.
    - destruct H2 as [|y s Hs Hy].
      + symmetry in P. now apply Permutation_nil in P.
      + assert (x = y) as <-.
        { apply ord_antisym.
          - assert (In y (x :: r)) as [->|Hin]
              by (eapply Permutation_in; [symmetry; exact P|now left]).
            + destruct (ord_total y y); auto.
            + rewrite Forall_forall in Hx. auto.
          - assert (In x (y :: s)) as [->|Hin]
              by (eapply Permutation_in; [exact P|now left]).
            + destruct (ord_total x x); auto.
            + rewrite Forall_forall in Hy. auto. }
        f_equal. apply IH; [assumption|]. now apply Permutation_cons_inv with x.
  Qed.

  Lemma isort_id l : sorted l -> isort l = l.
  Proof.
    intros H. apply sorted_perm_eq; [apply isort_sorted|assumption|].
    symmetry. apply isort_perm.
  Qed.

  Lemma isort_perm_eq l1 l2 : Permutation l1 l2 -> isort l1 = isort l2.
  Proof.
    intros P. apply sorted_perm_eq; try apply isort_sorted.
    rewrite <- isort_perm, P. apply isort_perm.
  Qed.
End Sorting.

Lemma nat_order : total_order Nat.leb.
Proof.
  constructor; intros.
  - destruct (Nat.le_ge_cases x y); [left|right]; now apply Nat.leb_le.
  - apply Nat.leb_le in H, H0. apply Nat.leb_le. eauto using Nat.le_trans.
  - apply Nat.leb_le in H, H0. now apply Nat.le_antisymm.
Qed.
