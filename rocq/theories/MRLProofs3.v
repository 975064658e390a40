(** The mean residual life of particular families. *)
From Coquelicot Require Import Coquelicot.
From Coq Require Import List Arith Reals Lra Lia.
From Verif Require Import Base RealFacts Gauss Improper Ext DistModel DistSpec DistIntegrals DistProofs PoFProofs2 DistProofs2 FitProofs2 DistProofs4 DistProofs5 ExpectSpec Expect MomentModel MomentSpec MomentProofs MomentProofs2 MomentProofs3 MomentProofs4 GumbelMean GumbelMoments MRLProofs MRLProofs2.
Import ListNotations.
Open Scope R_scope.

Lemma mean_is_expectation d (m : R) : valid d -> mean d = Some m -> expectation d (fun x => x) m.
Proof.
  intros V E. apply mean_right; [assumption|now apply all_moments|now apply all_right|assumption].
Qed.

(** Exponential: no ageing. *)
Lemma exp_tail (l g t : R) : 0 < l -> g <= t -> integral_over (sf (Exponential l g)) t p_infty (sf (Exponential l g) t / l).
Proof.
  intros Hl Hg. set (S := fun x => exp (- (l * (x - g)))).
  assert (forall x, t <= x -> sf (Exponential l g) x = S x) as ES.
  { intros x Hx. unfold S. simpl. unfold on_pos. destruct Rlt_dec as [A|A]; [f_equal; field; lra|].
    destruct (Rle_lt_or_eq_dec g x ltac:(lra)) as [B|B]; [exfalso; apply A, Rdiv_lt_0_compat; [lra|apply Rdiv_lt_0_compat; lra]|]. rewrite <- B, Rminus_diag_eq, Rmult_0_r, Ropp_0, exp_0; reflexivity. }
  rewrite (ES t) by lra. apply (io_ext _ _ S); [intros x [Hx _]; symmetry; apply ES; simpl in Hx; lra|].
  assert (forall x, is_derive (fun x => - S x / l) x (S x)) as D. { intros x. unfold S. auto_derive; [lra|]. change (x + - g) with (x - g). field. lra. }
  replace (S t / l) with (0 - (- S t / l)) by (field; lra). apply (io_antider _ _ _ (fun x => - S x / l)).
  - intros x _. apply D.
  - intros x _. unfold S. apply (ex_derive_continuous (fun x => exp (- (l * (x - g))))). auto_derive. exact I.
  - intros eps He. destruct (cont_eps (fun x => - S x / l) t eps) as (dl & Hd & K); [apply (ex_derive_continuous (fun x => - S x / l)); eexists; apply D|assumption|].
    exists (t + dl / 2). split; [unfold between; simpl; split; [lra|exact I]|]. intros a [Ha _] La. simpl in Ha. apply K. apply Rabs_def1; lra.
  - intros eps He. set (b0 := Rmax (t + 1) (g + / (l * l * eps) + 1)). pose proof (Rmax_l (t + 1) (g + / (l * l * eps) + 1)) as M1. pose proof (Rmax_r (t + 1) (g + / (l * l * eps) + 1)) as M2. fold b0 in M1, M2.
    exists b0. split; [unfold between; simpl; split; [lra|exact I]|]. intros b [Hb _] Lb. simpl in Hb.
    assert (0 < / (l * l * eps)) as Pi by (apply Rinv_0_lt_compat; apply Rmult_lt_0_compat; [nra|lra]).
    assert (0 < S b) as P by apply exp_pos.
    assert (S b < l * eps) as U.
    { unfold S. rewrite exp_Ropp. assert (1 + l * (b - g) <= exp (l * (b - g))) as E1 by apply exp_ge_1_plus. assert (0 < l * (b - g)) as E2 by (apply Rmult_lt_0_compat; lra).
      replace (l * eps) with (/ / (l * eps)) by (field; lra). apply Rinv_lt_contravar; [apply Rmult_lt_0_compat; [apply Rinv_0_lt_compat; nra|lra]|].
      apply Rlt_le_trans with (1 + l * (b - g)); [|assumption]. assert (/ (l * eps) = l * / (l * l * eps)) as -> by (field; lra). nra. }
    assert (0 < S b / l) by (apply Rdiv_lt_0_compat; lra). assert (S b / l < eps). { apply (Rmult_lt_reg_r l); [assumption|]. unfold Rdiv. rewrite Rmult_assoc, Rinv_l by lra. lra. }
    replace (- S b / l - 0) with (- (S b / l)) by (field; lra). rewrite Rabs_Ropp. apply Rabs_def1; lra.
Qed.

(** Weibull: the increments of the cumulative hazard. *)
Lemma increments_grow b y1 y2 h : 1 <= b -> 0 < y1 -> y1 <= y2 -> 0 < h -> Rpower (y1 + h) b - Rpower y1 b <= Rpower (y2 + h) b - Rpower y2 b.
Proof.
  intros Hb P1 L P2. apply (nondecr_of_derive_nonneg (fun y => Rpower (y + h) b - Rpower y b) (fun y => b * Rpower (y + h) (b - 1) - b * Rpower y (b - 1)) y1 y2); [assumption| |].
  - intros y Hy. apply (is_derive_minus (fun y => Rpower (y + h) b) (fun y => Rpower y b)); [|apply is_derive_Rpower_x; lra].
    assert (is_derive (fun y => y + h) y 1) as D1 by (auto_derive; [exact I|ring]).
    pose proof (is_derive_comp (fun z => Rpower z b) (fun y => y + h) y _ _ (is_derive_Rpower_x b (y + h) ltac:(lra)) D1) as K. unfold scal in K; simpl in K; unfold mult in K; simpl in K. rewrite Rmult_1_l in K. exact K.
  - intros y Hy. assert (Rpower y (b - 1) <= Rpower (y + h) (b - 1)) by (apply Rle_Rpower_l; lra). nra.
Qed.
Lemma increments_shrink b y1 y2 h : 0 < b <= 1 -> 0 < y1 -> y1 <= y2 -> 0 < h -> Rpower (y2 + h) b - Rpower y2 b <= Rpower (y1 + h) b - Rpower y1 b.
Proof.
  intros Hb P1 L P2. enough (- (Rpower (y1 + h) b - Rpower y1 b) <= - (Rpower (y2 + h) b - Rpower y2 b)) by lra.
  apply (nondecr_of_derive_nonneg (fun y => - (Rpower (y + h) b - Rpower y b)) (fun y => - (b * Rpower (y + h) (b - 1) - b * Rpower y (b - 1))) y1 y2); [assumption| |].
  - intros y Hy. apply (is_derive_opp (fun y => Rpower (y + h) b - Rpower y b)). apply (is_derive_minus (fun y => Rpower (y + h) b) (fun y => Rpower y b)); [|apply is_derive_Rpower_x; lra].
    assert (is_derive (fun y => y + h) y 1) as D1 by (auto_derive; [exact I|ring]).
    pose proof (is_derive_comp (fun z => Rpower z b) (fun y => y + h) y _ _ (is_derive_Rpower_x b (y + h) ltac:(lra)) D1) as K. unfold scal in K; simpl in K; unfold mult in K; simpl in K. rewrite Rmult_1_l in K. exact K.
  - intros y Hy. assert (Rpower (y + h) (b - 1) <= Rpower y (b - 1)).
    { replace (b - 1) with (- (1 - b)) by ring. rewrite !Rpower_Ropp. apply Rinv_le_contravar; [apply Rpower_gt_0|]. apply Rle_Rpower_l; lra. }
    nra.
Qed.
Lemma superadditive b y h : 1 <= b -> 0 < y -> 0 < h -> Rpower y b + Rpower h b <= Rpower (y + h) b.
Proof.
  intros Hb P1 P2. assert (forall z, 0 < z -> z <= y + h -> Rpower z b <= z * Rpower (y + h) (b - 1)) as K.
  { intros z Pz Lz. replace b with (1 + (b - 1)) at 1 by ring. rewrite Rpower_plus, Rpower_1 by assumption. apply Rmult_le_compat_l; [lra|]. apply Rle_Rpower_l; lra. }
  pose proof (K y P1 ltac:(lra)). pose proof (K h P2 ltac:(lra)). replace b with (1 + (b - 1)) at 3 by ring. rewrite Rpower_plus, Rpower_1 by lra. lra.
Qed.
Lemma subadditive b y h : 0 < b <= 1 -> 0 < y -> 0 < h -> Rpower (y + h) b <= Rpower y b + Rpower h b.
Proof.
  intros Hb P1 P2. assert (forall z, 0 < z -> z <= y + h -> z * Rpower (y + h) (b - 1) <= Rpower z b) as K.
  { intros z Pz Lz. replace b with (1 + (b - 1)) at 2 by ring. rewrite Rpower_plus, Rpower_1 by assumption. apply Rmult_le_compat_l; [lra|].
    replace (b - 1) with (- (1 - b)) by ring. rewrite !Rpower_Ropp. apply Rinv_le_contravar; [apply Rpower_gt_0|]. apply Rle_Rpower_l; lra. }
  pose proof (K y P1 ltac:(lra)). pose proof (K h P2 ltac:(lra)). replace b with (1 + (b - 1)) at 1 by ring. rewrite Rpower_plus, Rpower_1 by lra. lra.
Qed.
Definition cum a b g t : R := on_pos (fun y => Rpower y b) 0 ((t - g) / a).
Lemma weibull_cum a b g t : sf (Weibull a b g) t = exp (- cum a b g t).
Proof. unfold cum. simpl. unfold on_pos. destruct Rlt_dec; [reflexivity|]. now rewrite Ropp_0, exp_0. Qed.
Lemma cum_grow a b g t1 t2 x : 0 < a -> 1 <= b -> g <= t1 -> t1 <= t2 -> 0 < x -> cum a b g (t1 + x) - cum a b g t1 <= cum a b g (t2 + x) - cum a b g t2.
Proof.
  intros Ha Hb L1 L2 Px. unfold cum. assert (0 < x / a) as Ph by (apply Rdiv_lt_0_compat; lra). set (y1 := (t1 - g) / a). set (y2 := (t2 - g) / a).
  replace ((t1 + x - g) / a) with (y1 + x / a) by (unfold y1; field; lra). replace ((t2 + x - g) / a) with (y2 + x / a) by (unfold y2; field; lra).
  assert (0 <= y1) as Y1 by (apply Rdiv_le_0_compat; lra). assert (y1 <= y2) as Y2. { unfold y1, y2. unfold Rdiv. apply Rmult_le_compat_r; [left; now apply Rinv_0_lt_compat|lra]. }
  rewrite (on_pos_pos _ _ (y1 + x / a)), (on_pos_pos _ _ (y2 + x / a)) by lra. unfold on_pos. destruct (Rlt_dec 0 y1), (Rlt_dec 0 y2); try lra.
  - apply increments_grow; lra.
  - assert (y1 = 0) as -> by lra. rewrite Rplus_0_l. pose proof (superadditive b y2 (x / a) Hb ltac:(lra) Ph). lra.
  - assert (y1 = 0) as -> by lra. assert (y2 = 0) as -> by lra. lra.
Qed.
Lemma cum_shrink a b g t1 t2 x : 0 < a -> 0 < b <= 1 -> g <= t1 -> t1 <= t2 -> 0 < x -> cum a b g (t2 + x) - cum a b g t2 <= cum a b g (t1 + x) - cum a b g t1.
Proof.
  intros Ha Hb L1 L2 Px. unfold cum. assert (0 < x / a) as Ph by (apply Rdiv_lt_0_compat; lra). set (y1 := (t1 - g) / a). set (y2 := (t2 - g) / a).
  replace ((t1 + x - g) / a) with (y1 + x / a) by (unfold y1; field; lra). replace ((t2 + x - g) / a) with (y2 + x / a) by (unfold y2; field; lra).
  assert (0 <= y1) as Y1 by (apply Rdiv_le_0_compat; lra). assert (y1 <= y2) as Y2. { unfold y1, y2. unfold Rdiv. apply Rmult_le_compat_r; [left; now apply Rinv_0_lt_compat|lra]. }
  rewrite (on_pos_pos _ _ (y1 + x / a)), (on_pos_pos _ _ (y2 + x / a)) by lra. unfold on_pos. destruct (Rlt_dec 0 y1), (Rlt_dec 0 y2); try lra.
  - apply increments_shrink; lra.
  - assert (y1 = 0) as -> by lra. rewrite Rplus_0_l. pose proof (subadditive b y2 (x / a) Hb ltac:(lra) Ph). lra.
  - assert (y1 = 0) as -> by lra. assert (y2 = 0) as -> by lra. lra.
Qed.

(** Loglogistic without a mean: the integral diverges. *)
Lemma loglogistic_no_tail (a b g t v : R) : valid (Loglogistic a b g) -> b <= 1 -> ~ integral_over (sf (Loglogistic a b g)) t p_infty v.
Proof.
  intros V Hb. assert (0 < a /\ 0 < b) as [Ha Hb0] by (simpl in V; tauto).
  set (x0 := Rmax (g + a) (t + 1)). pose proof (Rmax_l (g + a) (t + 1)) as X1. pose proof (Rmax_r (g + a) (t + 1)) as X2. fold x0 in X1, X2.
  apply (io_no_log t _ v (a / 2) g x0).
  - lra.
  - intros x Hx. unfold between; simpl. split; [lra|exact I].
  - lra.
  - intros x Hx. simpl. assert (1 <= (x - g) / a) as Hy by (apply (Rmult_le_reg_r a); [assumption|]; field_simplify; lra).
    rewrite on_pos_pos by lra. set (y := (x - g) / a) in *.
    assert (Rpower y b <= y) as Q by (apply Rle_trans with (Rpower y 1); [apply Rle_Rpower; lra|right; apply Rpower_1; lra]). pose proof (Rpower_gt_0 y b).
    replace (a / 2 / (x - g)) with (1 / (2 * y)) by (unfold y; field; lra). unfold Rdiv. rewrite !Rmult_1_l. apply Rinv_le_contravar; lra.
Qed.
