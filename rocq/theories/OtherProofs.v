(** Proofs about stress_strength and stress_strength_normal. *)
From Coquelicot Require Import Coquelicot.
From Coq Require Import String.
From Coq Require Import List Arith Reals Lra Lia Bool NArith ZArith Permutation.
From Verif Require Import Base RealFacts Gauss GaussConv Ext RList ConvertModel RepairModel RepairProofs TestingModel TestingProofs DistModel DistSpec DistProofs CombModel CombProofs SelModel CIModel PlotProofs OtherModel OtherSpec.
Import ListNotations.
Open Scope R_scope.

(** ** The integrand for two normal distributions *)
Section Normals.
Variables m1 s1 m2 s2 : R.
Hypothesis S1 : 0 < s1.
Hypothesis S2 : 0 < s2.
Definition ssf (x : R) : R := phi ((x - m2) / s2) / s2 * Phi (- ((x - m1) / s1)).
Let a := - s2 / s1.
Let d := (m1 - m2) / s1.
Lemma ssf_conv x : ssf x = / s2 * conv_f a d (/ s2 * x + - m2 / s2).
Proof.
  unfold ssf, conv_f, a, d. replace (/ s2 * x + - m2 / s2) with ((x - m2) / s2) by (field; lra).
  replace (- s2 / s1 * ((x - m2) / s2) + (m1 - m2) / s1) with (- ((x - m1) / s1)) by (field; lra). unfold Rdiv. ring.
Qed.
Lemma ssf_int A B : is_RInt ssf A B (conv_J a ((A - m2) / s2) ((B - m2) / s2) d).
Proof.
  apply (is_RInt_ext (fun y => scal (/ s2) (conv_f a d (/ s2 * y + - m2 / s2)))).
  - intros x _. rewrite ssf_conv. reflexivity.
  - apply (is_RInt_comp_lin (conv_f a d) (/ s2) (- m2 / s2) A B). unfold conv_J.
    replace (/ s2 * A + - m2 / s2) with ((A - m2) / s2) by (field; lra). replace (/ s2 * B + - m2 / s2) with ((B - m2) / s2) by (field; lra).
    apply (RInt_correct (conv_f a d)). apply ex_RInt_cont. apply conv_f_cont.
Qed.
Definition ss_value : R := Phi (- (m2 - m1) / Rpower (s2 ^ 2 + s1 ^ 2) (1 / 2)).
Lemma ss_value_conv : ss_value = Phi (d / sqrt (1 + a * a)).
Proof.
  unfold ss_value, d, a. f_equal. replace (1 / 2) with (/ 2) by field. rewrite Rpower_sqrt by nra.
  replace (s2 ^ 2 + s1 ^ 2) with (s1 ^ 2 * (1 + - s2 / s1 * (- s2 / s1))) by (field; lra).
  assert (0 < 1 + - s2 / s1 * (- s2 / s1)) by nra.
  rewrite sqrt_mult by nra. replace (sqrt (s1 ^ 2)) with s1 by (rewrite sqrt_pow2; lra). pose proof (sqrt_lt_R0 _ H). field. split; lra.
Qed.
Lemma ss_upper A B : A <= B -> RInt ssf A B <= ss_value.
Proof.
  intros H. rewrite (is_RInt_unique _ _ _ _ (ssf_int A B)), ss_value_conv. apply conv_upper. apply Rmult_le_compat_r; [left; now apply Rinv_0_lt_compat|lra].
Qed.
Lemma ss_lower eps : 0 < eps -> exists M, 0 < M /\ forall A B, A <= - M -> M <= B -> ss_value - eps < RInt ssf A B.
Proof.
  intros He. destruct (conv_lower a d eps He) as (M & HM & L). exists (M * s2 + Rabs m2). pose proof (Rabs_pos m2). split; [nra|].
  intros A B HA HB. rewrite (is_RInt_unique _ _ _ _ (ssf_int A B)), ss_value_conv. apply L.
  - apply (Rmult_le_reg_r s2); [exact S2|]. replace ((A - m2) / s2 * s2) with (A - m2) by (field; lra). pose proof (Rle_abs (- m2)). rewrite Rabs_Ropp in H0. lra.
  - apply (Rmult_le_reg_r s2); [exact S2|]. replace ((B - m2) / s2 * s2) with (B - m2) by (field; lra). pose proof (Rle_abs m2). lra.
Qed.
Lemma ss_improper : is_RInt_gen ssf (Rbar_locally m_infty) (Rbar_locally p_infty) ss_value.
Proof.
  intros P (e & HP). destruct (ss_lower e (cond_pos e)) as (M & HM & L).
  exists (fun x => x < - M) (fun x => M < x).
  - now exists (- M).
  - now exists M.
  - intros x y Hx Hy. exists (RInt ssf x y). split.
    + cbn [fst snd]. apply (RInt_correct ssf). eexists. apply ssf_int.
    + apply HP. apply (norm_compat1 ss_value). pose proof (ss_upper x y ltac:(lra)). pose proof (L x y ltac:(lra) ltac:(lra)).
      unfold norm; simpl. unfold abs; simpl. unfold minus, plus, opp; simpl. apply Rabs_def1; lra.
Qed.
End Normals.
