(** Improper integrals of positive functions, as suprema of proper integrals: used for the
    Gamma and Beta functions and the distribution functions built on them. *)
From Coquelicot Require Import Coquelicot.
From Coq Require Import Reals Lra Lia.
From Verif Require Import RealFacts.
Open Scope R_scope.

(** The integral of f from lo (not included) to x. *)
Definition int_below (f : R -> R) (lo x : R) : R :=
  real (Lub_Rbar (fun v => exists a, lo < a <= x /\ v = RInt f a x)).
(** The integral of f over the open interval from lo to hi. *)
Definition int_over (f : R -> R) (lo : R) (hi : Rbar) : R :=
  real (Lub_Rbar (fun v => exists a b, lo < a /\ a <= b /\ Rbar_lt b hi /\ v = RInt f a b)).

Lemma lub_real_spec (E : R -> Prop) (M : R) :
  (exists v, E v) -> (forall v, E v -> v <= M) ->
  (forall v, E v -> v <= real (Lub_Rbar E)) /\ (forall b, (forall v, E v -> v <= b) -> real (Lub_Rbar E) <= b).
Proof.
  intros [v0 H0] HM. destruct (Lub_Rbar_correct E) as [H1 H2].
  destruct (Lub_Rbar E) as [l| |].
  - split; [intros v Hv; exact (H1 v Hv)|]. intros b Hb. specialize (H2 (Finite b)). apply H2. intros v Hv. exact (Hb v Hv).
  - exfalso. exact (H2 (Finite M) (fun v Hv => HM v Hv)).
  - exfalso. exact (H1 v0 H0).
Qed.

Section Positive.
  Variables (f : R -> R) (lo : R) (hi : Rbar) (M : R).
  Hypothesis Hpos : forall x, lo < x -> Rbar_lt x hi -> 0 < f x.
  Hypothesis Hcont : forall x, lo < x -> Rbar_lt x hi -> continuous f x.
  Hypothesis Hbound : forall a b, lo < a -> a <= b -> Rbar_lt b hi -> RInt f a b <= M.

  Lemma hi_le x y : x <= y -> Rbar_lt y hi -> Rbar_lt x hi.
  Proof. intros H1 H2. apply Rbar_le_lt_trans with y; [exact H1|exact H2]. Qed.

  Lemma pos_ex_RInt a b : lo < a -> a <= b -> Rbar_lt b hi -> ex_RInt f a b.
  Proof.
    intros Ha Hab Hb. apply (ex_RInt_continuous (V := R_CompleteNormedModule)). intros z Hz. rewrite Rmin_left, Rmax_right in Hz by lra.
    apply Hcont; [lra|]. apply hi_le with b; [lra|assumption].
  Qed.
  Lemma pos_Chasles a b c : lo < a -> a <= b -> b <= c -> Rbar_lt c hi -> RInt f a c = RInt f a b + RInt f b c.
  Proof.
    intros Ha Hab Hbc Hc. symmetry. apply (RInt_Chasles f a b c); apply pos_ex_RInt; try lra; try assumption.
    apply hi_le with c; assumption.
  Qed.
  Lemma pos_RInt_pos a b : lo < a -> a < b -> Rbar_lt b hi -> 0 < RInt f a b.
  Proof.
    intros Ha Hab Hb. apply RInt_gt_0; [assumption| |].
    - intros x Hx. apply Hpos; [lra|]. apply hi_le with b; [lra|assumption].
    - intros x Hx. apply Hcont; [lra|]. apply hi_le with b; [lra|assumption].
  Qed.
  Lemma pos_RInt_nonneg a b : lo < a -> a <= b -> Rbar_lt b hi -> 0 <= RInt f a b.
  Proof.
    intros Ha [Hab| ->] Hb; [left; now apply pos_RInt_pos|].
    rewrite RInt_point. right. reflexivity.
  Qed.

  Lemma ib_spec x : lo < x -> Rbar_lt x hi ->
    (forall a, lo < a -> a <= x -> RInt f a x <= int_below f lo x) /\
    (forall b, (forall a, lo < a -> a <= x -> RInt f a x <= b) -> int_below f lo x <= b).
  Proof.
    intros Hx Hh. unfold int_below.
    destruct (lub_real_spec (fun v => exists a, lo < a <= x /\ v = RInt f a x) M) as [H1 H2].
    - exists (RInt f x x), x. split; [lra|reflexivity].
    - intros v (a & Ha & ->). now apply Hbound.
    - split; [intros a Ha Hax; apply H1; exists a; split; [lra|reflexivity]|].
      intros b Hb. apply H2. intros v (a & Ha & ->). now apply Hb.
  Qed.

  Lemma ib_nonneg x : lo < x -> Rbar_lt x hi -> 0 <= int_below f lo x.
  Proof.
    intros Hx Hh. destruct (ib_spec x Hx Hh) as [H _]. specialize (H x Hx (Rle_refl x)).
    rewrite RInt_point in H. exact H.
  Qed.

  Lemma ib_diff x y : lo < x -> x <= y -> Rbar_lt y hi -> int_below f lo y = int_below f lo x + RInt f x y.
  Proof.
    intros Hx Hxy Hy. assert (Rbar_lt x hi) as Hxh by now apply hi_le with y.
    destruct (ib_spec x Hx Hxh) as [X1 X2], (ib_spec y (Rlt_le_trans _ _ _ Hx Hxy) Hy) as [Y1 Y2].
    apply Rle_antisym.
    - apply Y2. intros a Ha Hay. destruct (Rle_lt_dec a x) as [H|H].
      + rewrite (pos_Chasles a x y) by assumption. specialize (X1 a Ha H). lra.
      + rewrite (pos_Chasles x a y) by lra || assumption.
        pose proof (ib_nonneg x Hx Hxh). assert (0 <= RInt f x a) by (apply pos_RInt_nonneg; [lra|lra|now apply hi_le with y]). lra.
    - assert (int_below f lo x <= int_below f lo y - RInt f x y); [|lra].
      apply X2. intros a Ha Hax. specialize (Y1 a Ha (Rle_trans _ _ _ Hax Hxy)).
      rewrite (pos_Chasles a x y) in Y1 by assumption. lra.
  Qed.

  Lemma ib_incr x y : lo < x -> x < y -> Rbar_lt y hi -> int_below f lo x < int_below f lo y.
  Proof. intros Hx Hxy Hy. rewrite (ib_diff x y) by lra || assumption. pose proof (pos_RInt_pos x y Hx Hxy Hy). lra. Qed.

  Lemma ib_pos x : lo < x -> Rbar_lt x hi -> 0 < int_below f lo x.
  Proof.
    intros Hx Hh. set (a := (lo + x) / 2). assert (Rbar_lt a hi) by (apply hi_le with x; [unfold a; lra|assumption]).
    apply Rle_lt_trans with (int_below f lo a); [apply ib_nonneg; [unfold a; lra|assumption]|].
    apply ib_incr; [unfold a; lra|unfold a; lra|assumption].
  Qed.

  Lemma ib_derive x : lo < x -> Rbar_lt x hi -> is_derive (int_below f lo) x (f x).
  Proof.
    intros Hx Hh. set (c := (lo + x) / 2).
    assert (locally x (fun y => c < y /\ Rbar_lt y hi)) as Hloc.
    { apply filter_and.
      - exists (mkposreal ((x - lo) / 2) ltac:(lra)). intros y Hy. apply Rabs_def2 in Hy. simpl in Hy. unfold minus, plus, opp in Hy; simpl in Hy. unfold c. lra.
      - exact (open_Rbar_lt' (Finite x) hi Hh). }
    apply (is_derive_ext_loc (fun y => int_below f lo c + RInt f c y)).
    { revert Hloc. apply filter_imp. intros y [Hy1 Hy2]. symmetry. apply ib_diff; [unfold c; lra|lra|assumption]. }
    replace (f x) with (0 + f x) by ring. apply (is_derive_plus (fun _ => int_below f lo c) (RInt f c)); [exact (is_derive_const (K := R_AbsRing) (V := R_NormedModule) (int_below f lo c) x)|].
    apply (is_derive_RInt f (RInt f c) c x).
    - revert Hloc. apply filter_imp. intros y [Hy1 Hy2]. apply (@RInt_correct R_CompleteNormedModule). apply pos_ex_RInt; [unfold c; lra|lra|assumption].
    - now apply Hcont.
  Qed.

  Lemma io_spec : Rbar_lt lo hi ->
    (forall a b, lo < a -> a <= b -> Rbar_lt b hi -> RInt f a b <= int_over f lo hi) /\
    (forall c, (forall a b, lo < a -> a <= b -> Rbar_lt b hi -> RInt f a b <= c) -> int_over f lo hi <= c).
  Proof.
    intros Hlh. unfold int_over.
    assert (exists x, lo < x /\ Rbar_lt x hi) as (x & Hx1 & Hx2).
    { destruct hi as [h| |]; [exists ((lo + h) / 2); simpl in *; lra|exists (lo + 1); simpl; split; [lra|exact I]|destruct Hlh]. }
    destruct (lub_real_spec (fun v => exists a b, lo < a /\ a <= b /\ Rbar_lt b hi /\ v = RInt f a b) M) as [H1 H2].
    - exists (RInt f x x), x, x. repeat split; try assumption. lra.
    - intros v (a & b & Ha & Hab & Hb & ->). now apply Hbound.
    - split.
      + intros a b Ha Hab Hb. apply H1. exists a, b. repeat split; assumption.
      + intros c Hc. apply H2. intros v (a & b & Ha & Hab & Hb & ->). now apply Hc.
  Qed.

  Lemma ib_le_over x : lo < x -> Rbar_lt x hi -> int_below f lo x <= int_over f lo hi.
  Proof.
    intros Hx Hh. destruct io_spec as [H _]; [apply Rbar_lt_trans with x; [exact Hx|exact Hh]|].
    apply (proj2 (ib_spec x Hx Hh)). intros a Ha Hax. now apply H.
  Qed.

  Lemma next_point (x : R) : Rbar_lt x hi -> exists y, x < y /\ Rbar_lt y hi.
  Proof.
    intros H. destruct hi as [h| |]; [exists ((x + h) / 2); simpl in H |- *; lra|exists (x + 1); simpl; split; [lra|exact I]|destruct H].
  Qed.

  Lemma ib_lt_over x : lo < x -> Rbar_lt x hi -> int_below f lo x < int_over f lo hi.
  Proof.
    intros Hx Hh. destruct (next_point x Hh) as (y & Hy1 & Hy2).
    apply Rlt_le_trans with (int_below f lo y); [now apply ib_incr|]. apply ib_le_over; [lra|assumption].
  Qed.

  Lemma over_pos : Rbar_lt lo hi -> 0 < int_over f lo hi.
  Proof.
    intros H. destruct (next_point lo H) as (x & Hx1 & Hx2). apply Rlt_trans with (int_below f lo x); [now apply ib_pos|now apply ib_lt_over].
  Qed.

  (** The integral from lo tends to 0 and to the whole integral. *)
  Lemma ib_small eps x : 0 < eps -> lo < x -> Rbar_lt x hi -> exists a, lo < a <= x /\ int_below f lo a < eps.
  Proof.
    intros He Hx Hh. destruct (ib_spec x Hx Hh) as [H1 H2].
    destruct (Classical_Prop.classic (exists a, lo < a <= x /\ int_below f lo a < eps)) as [H|H]; [exact H|exfalso].
    assert (int_below f lo x <= int_below f lo x - eps); [|lra]. apply H2. intros a Ha Hax.
    assert (~ int_below f lo a < eps) as Hn by (intros Hlt; apply H; exists a; split; [lra|exact Hlt]).
    rewrite (ib_diff a x) by assumption. lra.
  Qed.
  Lemma ib_large eps : 0 < eps -> Rbar_lt lo hi -> exists x, lo < x /\ Rbar_lt x hi /\ int_over f lo hi - eps < int_below f lo x.
  Proof.
    intros He Hlh. destruct (io_spec Hlh) as [H1 H2].
    destruct (Classical_Prop.classic (exists x, lo < x /\ Rbar_lt x hi /\ int_over f lo hi - eps < int_below f lo x)) as [H|H]; [exact H|exfalso].
    assert (int_over f lo hi <= int_over f lo hi - eps); [|lra]. apply H2. intros a b Ha Hab Hb.
    assert (~ int_over f lo hi - eps < int_below f lo b) as Hn.
    { intros Hlt. apply H. exists b. repeat split; [lra|assumption|assumption]. }
    pose proof (proj1 (ib_spec b (Rlt_le_trans _ _ _ Ha Hab) Hb) a Ha Hab). lra.
  Qed.
End Positive.
