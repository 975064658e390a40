(** General facts about real functions used by several areas: inverse functions and
    monotonicity from the sign of the derivative. *)
From Coq Require Import Reals Lra Lia.
From Coquelicot Require Import Coquelicot.
Open Scope R_scope.

(** Coquelicot states many equalities in abstract structures over R. *)
Ltac as_R := match goal with |- @eq _ ?a ?b => change (@eq R a b) end.

(** The inverse of a non-decreasing function: the supremum of [{x | F x <= p}].  This is
    the model of the ppf (percent point function) methods of scipy.stats. *)
Definition inverse_of (F : R -> R) (p : R) : R := real (Lub_Rbar (fun x => F x <= p)).

Lemma inverse_of_eq F p x0 :
  F x0 = p -> (forall x, F x <= p -> x <= x0) -> inverse_of F p = x0.
Proof.
  intros H1 H2. unfold inverse_of.
  replace (Lub_Rbar (fun x => F x <= p)) with (Finite x0); [reflexivity|].
  symmetry. apply is_lub_Rbar_unique. split.
  - intros x Hx. simpl. auto.
  - intros b Hb. apply Hb. rewrite H1. apply Rle_refl.
Qed.

Lemma inverse_of_incr F p x0 :
  (forall x y, x < y -> F x < F y) -> F x0 = p -> inverse_of F p = x0.
Proof.
  intros HI H. apply inverse_of_eq; [assumption|]. intros x Hx.
  destruct (Rle_or_lt x x0) as [L|L]; [assumption|]. specialize (HI _ _ L). lra.
Qed.

Lemma inverse_of_exists F p a b :
  continuity F -> (forall x y, x < y -> F x < F y) -> F a < p < F b ->
  F (inverse_of F p) = p /\ a < inverse_of F p < b.
Proof.
  intros HC HI [Ha Hb].
  destruct (IVT_gen F a b p HC) as (x & _ & Hx).
  { split; eapply Rle_trans; [apply Rmin_l|lra| |apply Rmax_r]. lra. }
  rewrite (inverse_of_incr F p x HI Hx). split; [assumption|].
  split.
  - destruct (Rlt_or_le a x) as [L|[L| ->]]; [assumption| |lra].
    specialize (HI _ _ L). lra.
  - destruct (Rlt_or_le x b) as [L|[L|E]]; [assumption| |subst x; lra].
    specialize (HI _ _ L). lra.
Qed.

Lemma incr_of_derive_pos (f df : R -> R) a b :
  a < b -> (forall x, a <= x <= b -> is_derive f x (df x)) ->
  (forall x, a < x < b -> 0 < df x) -> f a < f b.
Proof.
  intros Hab Hd Hp.
  destruct (MVT_cor2 f df a b Hab) as (c & Hc1 & Hc2).
  { intros c Hc. apply is_derive_Reals. now apply Hd. }
  assert (0 < df c * (b - a)) by (apply Rmult_lt_0_compat; [apply Hp; lra|lra]). lra.
Qed.

Lemma nondecr_of_derive_nonneg (f df : R -> R) a b :
  a <= b -> (forall x, a <= x <= b -> is_derive f x (df x)) ->
  (forall x, a < x < b -> 0 <= df x) -> f a <= f b.
Proof.
  intros [Hab| ->] Hd Hp; [|lra].
  destruct (MVT_cor2 f df a b Hab) as (c & Hc1 & Hc2).
  { intros c Hc. apply is_derive_Reals. now apply Hd. }
  assert (0 <= df c * (b - a)) by (apply Rmult_le_pos; [apply Hp; lra|lra]). lra.
Qed.

Lemma const_of_derive_zero (f : R -> R) a b :
  (forall x, Rmin a b <= x <= Rmax a b -> is_derive f x 0) -> f a = f b.
Proof.
  intros H. destruct (Rtotal_order a b) as [L|[->|L]]; [|reflexivity|].
  - apply eq_is_derive; [|assumption]. intros t Ht. apply H.
    rewrite Rmin_left, Rmax_right; lra.
  - symmetry. apply eq_is_derive; [|assumption]. intros t Ht. apply H.
    rewrite Rmin_right, Rmax_left; lra.
Qed.

Lemma is_derive_continuity (f df : R -> R) :
  (forall x, is_derive f x (df x)) -> continuity f.
Proof.
  intros H x. apply continuity_pt_filterlim.
  apply (ex_derive_continuous f x). now exists (df x).
Qed.

Lemma exp_ge_1_plus x : 1 + x <= exp x.
Proof. apply exp_ineq1_le. Qed.

Lemma ln_le_minus_1 x : 0 < x -> ln x <= x - 1.
Proof.
  intros H. pose proof (exp_ge_1_plus (ln x)) as E. rewrite exp_ln in E by assumption. lra.
Qed.
