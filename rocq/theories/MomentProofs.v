(** Raw moments of the standard members of the families. *)
From Coquelicot Require Import Coquelicot.
From Coq Require Import List Arith Reals Lra Lia.
From Verif Require Import Base RealFacts Gauss Improper Ext DistModel DistSpec DistIntegrals DistProofs PoFProofs2 DistProofs2 DistProofs4 DistProofs5 ExpectSpec Expect MomentModel MomentSpec.
Import ListNotations.
Open Scope R_scope.

(** ** Euler's integrals *)
Lemma between_pos x : between 0 p_infty x <-> 0 < x.
Proof. unfold between. simpl. tauto. Qed.
Lemma between_unit x : between 0 1 x <-> 0 < x < 1.
Proof. unfold between. simpl. tauto. Qed.
Lemma between_all x : between m_infty p_infty x.
Proof. unfold between. simpl. tauto. Qed.

Lemma io_of_int_over f (lo : R) (hi : Rbar) M : (forall x, lo < x -> Rbar_lt x hi -> 0 < f x) -> (forall x, lo < x -> Rbar_lt x hi -> continuous f x) ->
  (forall a b, lo < a -> a <= b -> Rbar_lt b hi -> RInt f a b <= M) -> Rbar_lt lo hi -> integral_over f lo hi (int_over f lo hi).
Proof.
  intros P C B L. destruct (io_spec f lo hi M P C B L) as [S1 S2].
  apply io_of_sup.
  - destruct hi as [h| |]; [exists ((lo + h) / 2); unfold between; simpl in *; lra|exists (lo + 1); unfold between; simpl; split; [lra|exact I]|destruct L].
  - intros x [X1 X2]. left. now apply P.
  - intros x [X1 X2]. now apply C.
  - intros a b [A1 A2] [B1 B2] Lab. now apply S1.
  - intros c Hc. apply S2. intros a b Ha Lab Hb. apply Hc; [|split; [apply Rlt_le_trans with a; assumption|assumption]|assumption].
    split; [exact Ha|]. apply Rbar_le_lt_trans with b; [exact Lab|exact Hb].
Qed.
Lemma gamma_io b : 0 < b -> integral_over (gamma_kernel b) 0 p_infty (gamma_fun b).
Proof. intros Hb. apply (io_of_int_over _ _ _ (gk_M b)); [exact (gk_pos b)|exact (gk_cont b)|exact (gk_bound b Hb)|exact I]. Qed.
Lemma beta_io a b : 0 < a -> 0 < b -> integral_over (beta_kernel a b) 0 1 (beta_fun a b).
Proof. intros Ha Hb. apply (io_of_int_over _ 0 1 (bk_M a b)); [exact (bk_pos a b)|exact (bk_cont a b)|exact (bk_bound a b Ha Hb)|simpl; lra]. Qed.

(** Powers near 0. *)
Lemma Rpower_small b eps : 0 < b -> 0 < eps -> exists a0, 0 < a0 < 1 /\ forall a, 0 < a -> a <= a0 -> Rpower a b < eps.
Proof.
  intros Hb He. exists (Rmin (1 / 2) (Rpower (eps / 2) (1 / b))). split.
  - split; [apply Rmin_glb_lt; [lra|apply Rpower_gt_0]|]. apply Rle_lt_trans with (1 / 2); [apply Rmin_l|lra].
  - intros a Ha La. apply Rle_lt_trans with (Rpower (Rpower (eps / 2) (1 / b)) b).
    + apply Rle_Rpower_l; [lra|]. split; [assumption|]. apply Rle_trans with (1 := La), Rmin_r.
    + rewrite Rpower_mult. replace (1 / b * b) with 1 by (field; lra). rewrite Rpower_1 by lra. lra.
Qed.

Lemma gamma_rec b : 0 < b -> gamma_fun (b + 1) = b * gamma_fun b.
Proof.
  intros Hb. assert (integral_over (fun t => gamma_kernel (b + 1) t + - b * gamma_kernel b t) 0 p_infty (0 - 0)) as K.
  { apply (io_antider _ _ _ (fun t => - gamma_kernel (b + 1) t)).
    - intros x Hx. apply (proj1 (between_pos _)) in Hx. unfold gamma_kernel. replace (b + 1 - 1) with b by ring.
      assert (is_derive (fun t => Rpower t b) x (b * Rpower x (b - 1))) as D1 by (apply is_derive_Rpower_x; lra).
      assert (is_derive (fun t => exp (- t)) x (- exp (- x))) as D2 by (auto_derive; [exact I|ring]).
      pose proof (is_derive_opp _ _ _ (is_derive_mult (fun t => Rpower t b) (fun t => exp (- t)) x _ _ D1 D2 Rmult_comm)) as D.
      unfold mult, plus, opp in D; simpl in D. replace (Rpower x b * exp (- x) + - b * (Rpower x (b - 1) * exp (- x))) with
        (- (b * Rpower x (b - 1) * exp (- x) + Rpower x b * - exp (- x))) by ring. exact D.
    - intros x Hx. apply (proj1 (between_pos _)) in Hx. apply (continuous_plus (gamma_kernel (b + 1)) (fun t => - b * gamma_kernel b t)); [now apply gk_cont|].
      apply (continuous_scal_r (- b) (gamma_kernel b)). now apply gk_cont.
    - intros eps He. destruct (Rpower_small b eps Hb He) as (a0 & H0 & F). exists a0. split; [apply (proj2 (between_pos _)); lra|].
      intros a Ha La. apply (proj1 (between_pos _)) in Ha. specialize (F a Ha La). unfold gamma_kernel. replace (b + 1 - 1) with b by ring.
      pose proof (Rpower_gt_0 a b). assert (exp (- a) <= 1) by (rewrite <- exp_0; apply exp_le; lra). pose proof (exp_pos (- a)).
      apply Rabs_def1; nra.
    - intros eps He. set (C := gk_C (b + 1)). assert (0 < C) by apply exp_pos.
      exists (Rmax 1 (2 * ln (2 * C / eps))). split; [apply (proj2 (between_pos _)); apply Rlt_le_trans with 1; [lra|apply Rmax_l]|].
      intros t _ Lt. pose proof (Rmax_l 1 (2 * ln (2 * C / eps))). pose proof (Rmax_r 1 (2 * ln (2 * C / eps))).
      assert (1 <= t) as T1 by lra. pose proof (gk_tail (b + 1) t T1) as G. fold C in G.
      pose proof (gk_pos (b + 1) t ltac:(lra) I) as GP.
      assert (exp (- t / 2) <= exp (- ln (2 * C / eps))) as E by (apply exp_le; lra).
      assert (0 < 2 * C / eps) by (apply Rdiv_lt_0_compat; lra).
      rewrite exp_Ropp, exp_ln in E by assumption. assert (C * exp (- t / 2) <= C * / (2 * C / eps)) as E' by (apply Rmult_le_compat_l; lra).
      replace (C * / (2 * C / eps)) with (eps / 2) in E' by (field; lra). apply Rabs_def1; lra. }
  pose proof (io_plus _ _ _ _ _ _ (gamma_io (b + 1) ltac:(lra)) (io_scal _ _ (- b) _ _ (gamma_io b Hb))) as K2.
  pose proof (io_unique _ _ _ _ _ K K2). lra.
Qed.

Lemma beta_rec a b : 0 < a -> 0 < b -> beta_fun (a + 1) b = a / (a + b) * beta_fun a b.
Proof.
  intros Ha Hb. assert (integral_over (fun t => a * beta_kernel a b t + - (a + b) * beta_kernel (a + 1) b t) 0 1 (0 - 0)) as K.
  { apply (io_antider _ _ _ (fun t => Rpower t a * Rpower (1 - t) b)).
    - intros x Hx. apply (proj1 (between_unit _)) in Hx. unfold beta_kernel. replace (a + 1 - 1) with a by ring.
      assert (is_derive (fun t => Rpower t a) x (a * Rpower x (a - 1))) as D1 by (apply is_derive_Rpower_x; lra).
      assert (is_derive (fun t => Rpower (1 - t) b) x (- (b * Rpower (1 - x) (b - 1)))) as D2.
      { assert (is_derive (fun t : R => 1 - t) x (- 1)) as Ds by (auto_derive; [exact I|ring]).
        pose proof (is_derive_comp (fun t => Rpower t b) (fun t => 1 - t) x _ _ (is_derive_Rpower_x b (1 - x) ltac:(lra)) Ds) as D.
        unfold scal in D; simpl in D; unfold mult in D; simpl in D. replace (- (b * Rpower (1 - x) (b - 1))) with (-1 * (b * Rpower (1 - x) (b - 1))) by ring. exact D. }
      pose proof (is_derive_mult (fun t => Rpower t a) (fun t => Rpower (1 - t) b) x _ _ D1 D2 Rmult_comm) as D.
      unfold mult, plus, opp in D; simpl in D.
      assert (Rpower x a = x * Rpower x (a - 1)) as E1 by (rewrite <- (Rpower_1 x) at 2 by lra; rewrite <- Rpower_plus; f_equal; ring).
      assert (Rpower (1 - x) b = (1 - x) * Rpower (1 - x) (b - 1)) as E2 by (rewrite <- (Rpower_1 (1 - x)) at 2 by lra; rewrite <- Rpower_plus; f_equal; ring).
      replace (a * (Rpower x (a - 1) * Rpower (1 - x) (b - 1)) + - (a + b) * (Rpower x a * Rpower (1 - x) (b - 1))) with
        (a * Rpower x (a - 1) * Rpower (1 - x) b + Rpower x a * - (b * Rpower (1 - x) (b - 1))) by (rewrite E1, E2; ring). exact D.
    - intros x Hx. apply (proj1 (between_unit _)) in Hx. apply (continuous_plus (fun t => a * beta_kernel a b t) (fun t => - (a + b) * beta_kernel (a + 1) b t)).
      + apply (continuous_scal_r a (beta_kernel a b)). apply bk_cont; simpl; lra.
      + apply (continuous_scal_r (- (a + b)) (beta_kernel (a + 1) b)). apply bk_cont; simpl; lra.
    - intros eps He. destruct (Rpower_small a eps Ha He) as (a0 & H0 & F). exists a0. split; [apply (proj2 (between_unit _)); lra|].
      intros t Ht Lt. apply (proj1 (between_unit _)) in Ht. specialize (F t ltac:(lra) Lt). pose proof (Rpower_gt_0 t a). pose proof (Rpower_gt_0 (1 - t) b).
      assert (Rpower (1 - t) b <= 1) by (replace 1 with (Rpower 1 b) at 2 by (unfold Rpower; rewrite ln_1, Rmult_0_r; apply exp_0); apply Rle_Rpower_l; lra).
      apply Rabs_def1; nra.
    - intros eps He. destruct (Rpower_small b eps Hb He) as (a0 & H0 & F). exists (1 - a0). split; [apply (proj2 (between_unit _)); lra|].
      intros t Ht Lt. apply (proj1 (between_unit _)) in Ht. specialize (F (1 - t) ltac:(lra) ltac:(lra)). pose proof (Rpower_gt_0 t a). pose proof (Rpower_gt_0 (1 - t) b).
      assert (Rpower t a <= 1) by (replace 1 with (Rpower 1 a) at 1 by (unfold Rpower; rewrite ln_1, Rmult_0_r; apply exp_0); apply Rle_Rpower_l; lra).
      apply Rabs_def1; nra. }
  pose proof (io_plus _ _ _ _ _ _ (io_scal _ _ a _ _ (beta_io a b Ha Hb)) (io_scal _ _ (- (a + b)) _ _ (beta_io (a + 1) b ltac:(lra) Hb))) as K2.
  pose proof (io_unique _ _ _ _ _ K K2) as E. apply (Rmult_eq_reg_l (a + b)); [|lra]. field_simplify; [|lra]. lra.
Qed.
