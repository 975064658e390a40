(** The Gamma and Beta integrals converge. *)
From Coquelicot Require Import Coquelicot.
From Coq Require Import List Arith Reals Lra Lia.
From Verif Require Import Base RealFacts Gauss Improper Ext DistModel PoFProofs PoFProofs2.
Import ListNotations.
Open Scope R_scope.

Lemma RInt_le_antider (f H h : R -> R) a b : a <= b ->
  (forall x, a <= x <= b -> continuous f x) -> (forall x, a <= x <= b -> is_derive H x (h x)) ->
  (forall x, a <= x <= b -> continuous h x) -> (forall x, a <= x <= b -> f x <= h x) ->
  RInt f a b <= H b - H a.
Proof.
  intros Hab Hf HH Hh Hle.
  assert (is_RInt h a b (H b - H a)) as I.
  { apply (is_RInt_derive H h); intros x Hx; rewrite Rmin_left, Rmax_right in Hx by lra; auto. }
  rewrite <- (is_RInt_unique h a b _ I). apply RInt_le; [assumption| | |].
  - apply (ex_RInt_continuous (V := R_CompleteNormedModule)). intros x Hx; rewrite Rmin_left, Rmax_right in Hx by lra; auto.
  - now exists (H b - H a).
  - intros x Hx. apply Hle. lra.
Qed.

(** The integral above x. *)
Lemma io_above (f : R -> R) lo (hi : Rbar) M x :
  (forall x, lo < x -> Rbar_lt x hi -> 0 < f x) -> (forall x, lo < x -> Rbar_lt x hi -> continuous f x) ->
  (forall a b, lo < a -> a <= b -> Rbar_lt b hi -> RInt f a b <= M) ->
  lo < x -> Rbar_lt x hi -> int_over f x hi = int_over f lo hi - int_below f lo x.
Proof.
  intros Hpos Hcont Hb Hx Hh.
  assert (Rbar_lt lo hi) as Hlh by (apply Rbar_lt_trans with x; [exact Hx|exact Hh]).
  destruct (io_spec f lo hi M Hpos Hcont Hb Hlh) as [A1 A2].
  assert (forall y, x < y -> Rbar_lt y hi -> 0 < f y) as Hpos' by (intros; apply Hpos; [lra|assumption]).
  assert (forall y, x < y -> Rbar_lt y hi -> continuous f y) as Hcont' by (intros; apply Hcont; [lra|assumption]).
  assert (forall a b, x < a -> a <= b -> Rbar_lt b hi -> RInt f a b <= M) as Hb' by (intros; apply Hb; [lra|assumption|assumption]).
  destruct (io_spec f x hi M Hpos' Hcont' Hb' Hh) as [B1 B2].
  pose proof (ib_diff f lo hi M Hpos Hcont Hb) as D.
  apply Rle_antisym.
  - apply B2. intros a b Ha Hab Hbh.
    assert (Rbar_lt a hi) as Hah by (apply hi_le with b; assumption).
    pose proof (ib_le_over f lo hi M Hpos Hcont Hb b) as L. specialize (L ltac:(lra) Hbh).
    rewrite (D a b) in L by (assumption || lra). rewrite (D x a) in L by (assumption || lra).
    assert (0 <= RInt f x a) by (apply (pos_RInt_nonneg f lo hi Hpos Hcont); [lra|lra|assumption]). lra.
  - apply Rnot_lt_le. intros Hlt.
    set (e := (int_over f lo hi - int_below f lo x - int_over f x hi) / 3).
    assert (0 < e) as He by (unfold e; lra).
    destruct (ib_large f lo hi M Hpos Hcont Hb e He Hlh) as (z & Hz1 & Hz2 & Hz3).
    destruct (next_point f lo hi M Hpos Hcont Hb x Hh) as (y0 & Y1 & Y2).
    set (b := Rmax z y0). assert (Rbar_lt b hi) as Hbh by (unfold b; apply Rmax_case; assumption).
    assert (x < b) as Hxb by (unfold b; pose proof (Rmax_r z y0); lra).
    assert (z <= b) as Hzb by (unfold b; apply Rmax_l).
    assert (int_below f lo z <= int_below f lo b) as Hm.
    { rewrite (D z b) by assumption. pose proof (pos_RInt_nonneg f lo hi Hpos Hcont z b Hz1 Hzb Hbh). lra. }
    (* near x from above *)
    assert (exists c, x < c < b /\ RInt f x c < e) as (c & Hc & Hce).
    { assert (continuous (int_below f lo) x) as C.
      { apply (ex_derive_continuous (int_below f lo) x). exists (f x). exact (ib_derive f lo hi M Hpos Hcont Hb x Hx Hh). }
      destruct (proj1 (filterlim_locally _ _) C (mkposreal e He)) as [dl Hdl].
      assert (0 < dl) as Hd0 by apply cond_pos.
      exists (x + Rmin (dl / 2) ((b - x) / 2)).
      assert (0 < Rmin (dl / 2) ((b - x) / 2)) by (apply Rmin_glb_lt; lra).
      pose proof (Rmin_l (dl / 2) ((b - x) / 2)). pose proof (Rmin_r (dl / 2) ((b - x) / 2)).
      set (w := Rmin (dl / 2) ((b - x) / 2)) in *. split; [lra|].
      specialize (Hdl (x + w)). unfold ball in Hdl; simpl in Hdl. unfold AbsRing_ball, abs, minus, plus, opp in Hdl; simpl in Hdl.
      assert (Rabs (x + w + - x) < dl) as Hab by (rewrite Rabs_pos_eq; lra). specialize (Hdl Hab).
      apply Rabs_def2 in Hdl.
      rewrite (D x (x + w)) in Hdl; [lra|assumption|lra|]. apply hi_le with b; [lra|assumption]. }
    pose proof (B1 c b ltac:(lra) ltac:(lra) Hbh) as Hcb.
    assert (Rbar_lt c hi) as Hch by (apply hi_le with b; [lra|assumption]).
    pose proof (D x c Hx ltac:(lra) Hch). pose proof (D c b ltac:(lra) ltac:(lra) Hbh). unfold e in *. lra.
Qed.

Section GammaInt.
  Variable b : R.
  Hypothesis Hb : 0 < b.

  Lemma Rpower_cont p x : 0 < x -> continuous (fun t => Rpower t p) x.
  Proof. intros Hx. apply (ex_derive_continuous (fun t => Rpower t p) x). eexists. apply is_derive_Rpower_x. exact Hx. Qed.

  Lemma gk_pos x : 0 < x -> Rbar_lt x p_infty -> 0 < gamma_kernel b x.
  Proof. intros _ _. unfold gamma_kernel. apply Rmult_lt_0_compat; [apply Rpower_gt_0|apply exp_pos]. Qed.
  Lemma exp_opp_cont x : continuous (fun t => exp (- t)) x.
  Proof. apply (ex_derive_continuous (fun t => exp (- t)) x). auto_derive. exact I. Qed.
  Lemma gk_cont x : 0 < x -> Rbar_lt x p_infty -> continuous (gamma_kernel b) x.
  Proof.
    intros H _. unfold gamma_kernel. apply (continuous_mult (fun t => Rpower t (b - 1)) (fun t => exp (- t)) x); [now apply Rpower_cont|apply exp_opp_cont].
  Qed.

  Definition gk_k : R := Rabs (b - 1) + 1.
  Definition gk_C : R := exp (gk_k * ln (2 * gk_k) - gk_k).
  Definition gk_M : R := 1 / b + 2 * gk_C.

  Lemma gk_tail t : 1 <= t -> gamma_kernel b t <= gk_C * exp (- t / 2).
  Proof.
    intros Ht. unfold gamma_kernel, gk_C, Rpower. rewrite <- !exp_plus.
    assert (0 < gk_k) as Hk by (unfold gk_k; pose proof (Rabs_pos (b - 1)); lra).
    assert (ln t <= t / (2 * gk_k) - 1 + ln (2 * gk_k)) as L.
    { pose proof (ln_le_minus_1 (t / (2 * gk_k))) as L. rewrite ln_div in L by lra.
      assert (0 < t / (2 * gk_k)) as Hp by (apply Rdiv_lt_0_compat; lra). specialize (L Hp). lra. }
    assert (0 <= ln t) as L0 by (rewrite <- ln_1; apply ln_le; lra).
    assert ((b - 1) * ln t <= gk_k * ln t) as L1.
    { apply Rmult_le_compat_r; [exact L0|]. unfold gk_k. pose proof (Rle_abs (b - 1)). lra. }
    assert (gk_k * ln t <= gk_k * (t / (2 * gk_k) - 1 + ln (2 * gk_k))) as L2 by (apply Rmult_le_compat_l; lra).
    replace (gk_k * (t / (2 * gk_k) - 1 + ln (2 * gk_k))) with (t / 2 - gk_k + gk_k * ln (2 * gk_k)) in L2 by (field; lra).
    assert ((b - 1) * ln t + - t <= gk_k * ln (2 * gk_k) - gk_k + - t / 2) as L3 by lra.
    destruct L3 as [L3|L3]; [left; now apply exp_increasing|right; now rewrite L3].
  Qed.

  Lemma gk_bound a c : 0 < a -> a <= c -> Rbar_lt c p_infty -> RInt (gamma_kernel b) a c <= gk_M.
  Proof.
    intros Ha Hac _.
    set (a' := Rmin a 1). set (c' := Rmax c 1).
    assert (0 < a' <= 1) as Ha' by (unfold a'; split; [apply Rmin_glb_lt; lra|apply Rmin_r]).
    assert (1 <= c') as Hc' by (unfold c'; apply Rmax_r).
    assert (a' <= a) as A1 by apply Rmin_l. assert (c <= c') as C1 by apply Rmax_l.
    pose proof (pos_Chasles (gamma_kernel b) 0 p_infty gk_cont) as Ch.
    assert (RInt (gamma_kernel b) a c <= RInt (gamma_kernel b) a' c') as S1.
    { rewrite (Ch a' a c') by (try exact I; lra). rewrite (Ch a c c') by (try exact I; lra).
      pose proof (pos_RInt_nonneg (gamma_kernel b) 0 p_infty gk_pos gk_cont a' a ltac:(lra) A1 I).
      pose proof (pos_RInt_nonneg (gamma_kernel b) 0 p_infty gk_pos gk_cont c c' ltac:(lra) C1 I). lra. }
    rewrite (Ch a' 1 c') in S1 by (try exact I; lra).
    assert (RInt (gamma_kernel b) a' 1 <= Rpower 1 b / b - Rpower a' b / b) as P1.
    { apply (RInt_le_antider (gamma_kernel b) (fun t => Rpower t b / b) (fun t => Rpower t (b - 1))); [lra| | | |].
      - intros x Hx. apply gk_cont; [lra|exact I].
      - intros x Hx. replace (Rpower x (b - 1)) with (b * Rpower x (b - 1) / b) by (field; lra).
        apply (is_derive_ext (fun t => / b * Rpower t b)); [intros t; as_R; unfold Rdiv; ring|].
        replace (b * Rpower x (b - 1) / b) with (/ b * (b * Rpower x (b - 1))) by (unfold Rdiv; ring).
        apply is_derive_scal. apply is_derive_Rpower_x. lra.
      - intros x Hx. apply Rpower_cont. lra.
      - intros x Hx. unfold gamma_kernel. rewrite <- (Rmult_1_r (Rpower x (b - 1))) at 2.
        apply Rmult_le_compat_l; [left; apply Rpower_gt_0|]. rewrite <- exp_0. left. apply exp_increasing. lra. }
    assert (RInt (gamma_kernel b) 1 c' <= - 2 * gk_C * exp (- c' / 2) - - 2 * gk_C * exp (- 1 / 2)) as P2.
    { apply (RInt_le_antider (gamma_kernel b) (fun t => - 2 * gk_C * exp (- t / 2)) (fun t => gk_C * exp (- t / 2))); [lra| | | |].
      - intros x Hx. apply gk_cont; [lra|exact I].
      - intros x Hx. auto_derive; [exact I|]. lra.
      - intros x Hx. apply (ex_derive_continuous (fun t => gk_C * exp (- t / 2)) x). auto_derive. exact I.
      - intros x Hx. apply gk_tail. lra. }
    assert (0 < gk_C) as HC by apply exp_pos.
    assert (Rpower 1 b = 1) as R1 by (unfold Rpower; now rewrite ln_1, Rmult_0_r, exp_0).
    pose proof (Rpower_gt_0 a' b). pose proof (exp_pos (- c' / 2)).
    assert (exp (- 1 / 2) < 1) by (apply Rlt_le_trans with (exp 0); [apply exp_increasing; lra|rewrite exp_0; lra]).
    assert (0 < Rpower a' b / b) by (apply Rdiv_lt_0_compat; lra).
    assert (gk_C * exp (- 1 / 2) <= gk_C * 1) by (apply Rmult_le_compat_l; lra).
    assert (0 < gk_C * exp (- c' / 2)) by (apply Rmult_lt_0_compat; assumption).
    unfold gk_M. rewrite R1 in P1. lra.
  Qed.
End GammaInt.

Section BetaInt.
  Variables a b : R.
  Hypothesis Ha : 0 < a.
  Hypothesis Hb : 0 < b.

  Lemma bk_pos x : 0 < x -> Rbar_lt x 1 -> 0 < beta_kernel a b x.
  Proof. intros _ _. unfold beta_kernel. apply Rmult_lt_0_compat; apply Rpower_gt_0. Qed.
  Lemma comp_cont p x : x < 1 -> continuous (fun t => Rpower (1 - t) p) x.
  Proof.
    intros H. apply (continuous_comp (fun t => 1 - t) (fun t => Rpower t p)).
    - apply (ex_derive_continuous (fun t => 1 - t) x). auto_derive. exact I.
    - apply Rpower_cont. lra.
  Qed.
  Lemma bk_cont x : 0 < x -> Rbar_lt x 1 -> continuous (beta_kernel a b) x.
  Proof.
    intros H H1. simpl in H1. unfold beta_kernel.
    apply (continuous_mult (fun t => Rpower t (a - 1)) (fun t => Rpower (1 - t) (b - 1)) x); [now apply Rpower_cont|now apply comp_cont].
  Qed.

  Definition bk_C (c : R) : R := exp (Rabs (c - 1) * ln 2).
  Definition bk_M : R := bk_C b / a + bk_C a / b.

  Lemma half_bound c x : 1 / 2 <= x <= 1 -> Rpower x (c - 1) <= bk_C c.
  Proof.
    intros Hx. unfold bk_C, Rpower.
    assert (- ln 2 <= ln x) as L1. { rewrite <- ln_Rinv by lra. apply ln_le; lra. }
    assert (ln x <= 0) as L2 by (rewrite <- ln_1; apply ln_le; lra).
    assert ((c - 1) * ln x <= Rabs (c - 1) * ln 2) as L.
    { apply Rle_trans with (Rabs ((c - 1) * ln x)); [apply Rle_abs|]. rewrite Rabs_mult.
      apply Rmult_le_compat_l; [apply Rabs_pos|]. rewrite Rabs_left1 by exact L2. lra. }
    destruct L as [L|L]; [left; now apply exp_increasing|right; now rewrite L].
  Qed.

  Lemma bk_bound u v : 0 < u -> u <= v -> Rbar_lt v 1 -> RInt (beta_kernel a b) u v <= bk_M.
  Proof.
    intros Hu Huv Hv. simpl in Hv.
    set (u' := Rmin u (1 / 2)). set (v' := Rmax v (1 / 2)).
    assert (0 < u' <= 1 / 2) as Hu' by (unfold u'; split; [apply Rmin_glb_lt; lra|apply Rmin_r]).
    assert (1 / 2 <= v' < 1) as Hv' by (unfold v'; split; [apply Rmax_r|apply Rmax_lub_lt; lra]).
    assert (u' <= u) as A1 by apply Rmin_l. assert (v <= v') as C1 by apply Rmax_l.
    pose proof (pos_Chasles (beta_kernel a b) 0 1 bk_cont) as Ch.
    assert (RInt (beta_kernel a b) u v <= RInt (beta_kernel a b) u' v') as S1.
    { rewrite (Ch u' u v') by (simpl; lra). rewrite (Ch u v v') by (simpl; lra).
      pose proof (pos_RInt_nonneg (beta_kernel a b) 0 1 bk_pos bk_cont u' u ltac:(lra) A1) as N1. simpl in N1.
      pose proof (pos_RInt_nonneg (beta_kernel a b) 0 1 bk_pos bk_cont v v' ltac:(lra) C1) as N2. simpl in N2.
      specialize (N1 ltac:(lra)). specialize (N2 ltac:(lra)). lra. }
    rewrite (Ch u' (1 / 2) v') in S1 by (simpl; lra).
    assert (RInt (beta_kernel a b) u' (1 / 2) <= bk_C b / a * Rpower (1 / 2) a - bk_C b / a * Rpower u' a) as P1.
    { apply (RInt_le_antider (beta_kernel a b) (fun t => bk_C b / a * Rpower t a) (fun t => bk_C b * Rpower t (a - 1))); [lra| | | |].
      - intros x Hx. apply bk_cont; simpl; lra.
      - intros x Hx. replace (bk_C b * Rpower x (a - 1)) with (bk_C b / a * (a * Rpower x (a - 1))) by (field; lra).
        apply is_derive_scal. apply is_derive_Rpower_x. lra.
      - intros x Hx. apply (continuous_scal_r (bk_C b) (fun t => Rpower t (a - 1)) x). apply Rpower_cont. lra.
      - intros x Hx. unfold beta_kernel. rewrite Rmult_comm. apply Rmult_le_compat_r; [left; apply Rpower_gt_0|]. apply half_bound. lra. }
    assert (RInt (beta_kernel a b) (1 / 2) v' <= - (bk_C a / b * Rpower (1 - v') b) - - (bk_C a / b * Rpower (1 - 1 / 2) b)) as P2.
    { apply (RInt_le_antider (beta_kernel a b) (fun t => - (bk_C a / b * Rpower (1 - t) b)) (fun t => bk_C a * Rpower (1 - t) (b - 1))); [lra| | | |].
      - intros x Hx. apply bk_cont; simpl; lra.
      - intros x Hx. apply (is_derive_ext (fun t => (- (bk_C a / b)) * Rpower (1 - t) b)); [intros t; as_R; ring|].
        replace (bk_C a * Rpower (1 - x) (b - 1)) with (- (bk_C a / b) * (- 1 * (b * Rpower (1 - x) (b - 1)))) by (field; lra).
        apply is_derive_scal. apply (is_derive_comp (fun t => Rpower t b) (fun t => 1 - t) x).
        + apply is_derive_Rpower_x. lra.
        + auto_derive; [exact I|ring].
      - intros x Hx. apply (continuous_scal_r (bk_C a) (fun t => Rpower (1 - t) (b - 1)) x). apply comp_cont. lra.
      - intros x Hx. unfold beta_kernel. apply Rmult_le_compat_r; [left; apply Rpower_gt_0|]. apply half_bound. lra. }
    assert (0 < bk_C a) as CA by apply exp_pos. assert (0 < bk_C b) as CB by apply exp_pos.
    assert (0 < bk_C b / a) by (apply Rdiv_lt_0_compat; lra). assert (0 < bk_C a / b) by (apply Rdiv_lt_0_compat; lra).
    assert (forall c, 0 < c -> Rpower (1 / 2) c <= 1) as Hh.
    { intros c Hc. unfold Rpower. apply Rle_trans with (exp 0); [|rewrite exp_0; lra]. left. apply exp_increasing.
      assert (ln (1 / 2) < 0) by (rewrite <- ln_1; apply ln_increasing; lra).
      pose proof (Rmult_lt_compat_l c (ln (1 / 2)) 0 Hc ltac:(assumption)); lra. }
    replace (1 - 1 / 2) with (1 / 2) in P2 by lra.
    pose proof (Hh a Ha). pose proof (Hh b Hb).
    assert (bk_C b / a * Rpower (1 / 2) a <= bk_C b / a * 1) by (apply Rmult_le_compat_l; lra).
    assert (bk_C a / b * Rpower (1 / 2) b <= bk_C a / b * 1) by (apply Rmult_le_compat_l; lra).
    assert (0 < bk_C b / a * Rpower u' a) by (apply Rmult_lt_0_compat; [lra|apply Rpower_gt_0]).
    assert (0 < bk_C a / b * Rpower (1 - v') b) by (apply Rmult_lt_0_compat; [lra|apply Rpower_gt_0]).
    unfold bk_M. lra.
  Qed.
End BetaInt.
