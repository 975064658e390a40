(** The error of the trapezoidal rule, and the accuracy of stress_strength for normal distributions. *)
From Coquelicot Require Import Coquelicot.
From Coq Require Import List Arith Reals Lra Lia Bool NArith ZArith Permutation.
From Verif Require Import Base RealFacts Gauss GaussConv Ext RList RepairModel RepairProofs DistModel DistSpec DistProofs CombModel CombProofs PlotProofs OtherModel OtherSpec OtherProofs.
Import ListNotations.
Open Scope R_scope.

Section Cell.
Variables g g1 g2 : R -> R.
Variable M : R.
Hypothesis G1 : forall x, is_derive g x (g1 x).
Hypothesis G2 : forall x, is_derive g1 x (g2 x).
Hypothesis HM : forall x, Rabs (g2 x) <= M.
Lemma g_cont x : continuous g x.
Proof. apply (ex_derive_continuous g x). eexists; apply G1. Qed.
Lemma g_int_derive a x : is_derive (fun x => RInt g a x) x (g x).
Proof. apply (is_derive_RInt g (fun x => RInt g a x) a x); [|apply g_cont]. exists (mkposreal 1 Rlt_0_1). intros y _. apply (RInt_correct g). apply ex_RInt_cont. apply g_cont. Qed.
Definition cellE (a h : R) : R := RInt g a (a + h) - h / 2 * (g a + g (a + h)).
Definition cellE1 (a h : R) : R := (g (a + h) - g a) / 2 - h / 2 * g1 (a + h).
Lemma shift_derive (f f' : R -> R) a h : (forall x, is_derive f x (f' x)) -> is_derive (fun h => f (a + h)) h (f' (a + h)).
Proof.
  intros H. replace (f' (a + h)) with (scal 1 (f' (a + h))) by (unfold scal; simpl; unfold mult; simpl; ring).
  apply (is_derive_comp f (fun h => a + h)); [apply H|]. auto_derive; [trivial|ring].
Qed.
Lemma cellE_derive a h : is_derive (cellE a) h (cellE1 a h).
Proof.
  unfold cellE, cellE1.
  replace ((g (a + h) - g a) / 2 - h / 2 * g1 (a + h)) with (g (a + h) - (1 / 2 * (g a + g (a + h)) + h / 2 * (0 + g1 (a + h)))) by field.
  apply (is_derive_minus (fun h => RInt g a (a + h)) (fun h => h / 2 * (g a + g (a + h)))).
  - apply (shift_derive (fun x => RInt g a x) g). apply g_int_derive.
  - apply (is_derive_mult (fun h => h / 2) (fun h => g a + g (a + h))).
    + auto_derive; [trivial|field].
    + apply (is_derive_plus (fun _ => g a) (fun h => g (a + h))); [apply (is_derive_const (g a))|]. apply (shift_derive g g1). apply G1.
    + intros; apply Rmult_comm.
Qed.
Lemma cellE1_derive a h : is_derive (cellE1 a) h (- h / 2 * g2 (a + h)).
Proof.
  unfold cellE1. replace (- h / 2 * g2 (a + h)) with (g1 (a + h) / 2 - (1 / 2 * g1 (a + h) + h / 2 * g2 (a + h))) by field.
  apply (is_derive_minus (fun h => (g (a + h) - g a) / 2) (fun h => h / 2 * g1 (a + h))).
  - replace (g1 (a + h) / 2) with (/ 2 * (g1 (a + h) - 0)) by field.
    apply (is_derive_ext (fun h => / 2 * (g (a + h) - g a))); [intros; unfold Rdiv; apply Rmult_comm|]. apply is_derive_scal.
    apply (is_derive_minus (fun h => g (a + h)) (fun _ => g a)); [|apply (is_derive_const (g a))]. apply (shift_derive g g1). apply G1.
  - apply (is_derive_mult (fun h => h / 2) (fun h => g1 (a + h))).
    + auto_derive; [trivial|field].
    + apply (shift_derive g1 g2). apply G2.
    + intros; apply Rmult_comm.
Qed.
Lemma poly2_derive (c : R) h : is_derive (fun h => c * h ^ 2 / 4) h (c * h / 2).
Proof. auto_derive; [trivial|field]. Qed.
Lemma poly3_derive (c : R) h : is_derive (fun h => c * h ^ 3 / 12) h (c * h ^ 2 / 4).
Proof. auto_derive; [trivial|field]. Qed.
Lemma cellE1_bound a h : 0 <= h -> Rabs (cellE1 a h) <= M * h ^ 2 / 4.
Proof.
  intros Hh. assert (cellE1 a 0 = 0) as Z. { unfold cellE1. rewrite Rplus_0_r. field. }
  assert (forall t, 0 <= t -> Rabs (- t / 2 * g2 (a + t)) <= M * t / 2) as B.
  { intros t Ht. rewrite Rabs_mult. replace (Rabs (- t / 2)) with (t / 2). 2:{ unfold Rabs; destruct (Rcase_abs (- t / 2)); lra. } pose proof (HM (a + t)). pose proof (Rabs_pos (g2 (a + t))). nra. }
  apply Rabs_le. split.
  - pose proof (nondecr_of_derive (fun h => cellE1 a h + M * h ^ 2 / 4) (fun h => - h / 2 * g2 (a + h) + M * h / 2) 0 h Hh) as N. cbv beta in N.
    assert (cellE1 a 0 + M * 0 ^ 2 / 4 <= cellE1 a h + M * h ^ 2 / 4); [|rewrite Z in H; lra]. apply N.
    + intros t _. apply (is_derive_plus (cellE1 a) (fun h => M * h ^ 2 / 4)); [apply cellE1_derive|apply poly2_derive].
    + intros t Ht. specialize (B t ltac:(lra)). unfold Rabs in B. destruct (Rcase_abs _); lra.
  - pose proof (nondecr_of_derive (fun h => M * h ^ 2 / 4 - cellE1 a h) (fun h => M * h / 2 - - h / 2 * g2 (a + h)) 0 h Hh) as N. cbv beta in N.
    assert (M * 0 ^ 2 / 4 - cellE1 a 0 <= M * h ^ 2 / 4 - cellE1 a h); [|rewrite Z in H; lra]. apply N.
    + intros t _. apply (is_derive_minus (fun h => M * h ^ 2 / 4) (cellE1 a)); [apply poly2_derive|apply cellE1_derive].
    + intros t Ht. specialize (B t ltac:(lra)). unfold Rabs in B. destruct (Rcase_abs _); lra.
Qed.
Lemma cellE_bound a h : 0 <= h -> Rabs (cellE a h) <= M * h ^ 3 / 12.
Proof.
  intros Hh. assert (cellE a 0 = 0) as Z. { unfold cellE. rewrite Rplus_0_r, RInt_point. unfold zero; simpl. field. }
  pose proof (fun t H => cellE1_bound a t H) as B.
  apply Rabs_le. split.
  - pose proof (nondecr_of_derive (fun h => cellE a h + M * h ^ 3 / 12) (fun h => cellE1 a h + M * h ^ 2 / 4) 0 h Hh) as N. cbv beta in N.
    assert (cellE a 0 + M * 0 ^ 3 / 12 <= cellE a h + M * h ^ 3 / 12); [|rewrite Z in H; lra]. apply N.
    + intros t _. apply (is_derive_plus (cellE a) (fun h => M * h ^ 3 / 12)); [apply cellE_derive|apply poly3_derive].
    + intros t Ht. specialize (B t ltac:(lra)). unfold Rabs in B. destruct (Rcase_abs _); lra.
  - pose proof (nondecr_of_derive (fun h => M * h ^ 3 / 12 - cellE a h) (fun h => M * h ^ 2 / 4 - cellE1 a h) 0 h Hh) as N. cbv beta in N.
    assert (M * 0 ^ 3 / 12 - cellE a 0 <= M * h ^ 3 / 12 - cellE a h); [|rewrite Z in H; lra]. apply N.
    + intros t _. apply (is_derive_minus (fun h => M * h ^ 3 / 12) (cellE a)); [apply poly3_derive|apply cellE_derive].
    + intros t Ht. specialize (B t ltac:(lra)). unfold Rabs in B. destruct (Rcase_abs _); lra.
Qed.
(** The rule on an equally spaced grid. *)
Definition eq_grid (a h : R) (i n : nat) : list R := map (fun k => a + INR k * h) (seq i n).
Lemma trapezoid_cells a h n : forall i, 0 <= h -> exists v,
  trapezoid (map (fun x => Fin (g x)) (eq_grid a h i (S n))) (eq_grid a h i (S n)) = Fin v /\
  Rabs (v - RInt g (a + INR i * h) (a + INR (i + n) * h)) <= INR n * (M * h ^ 3 / 12).
Proof.
  induction n as [|n IH]; intros i Hh.
  - exists 0. split; [reflexivity|]. rewrite Nat.add_0_r, RInt_point. unfold zero; simpl. rewrite Rminus_0_r, Rabs_R0. lra.
  - destruct (IH (S i) Hh) as (v & E & B). unfold eq_grid in *. cbn [seq map] in *. cbn [trapezoid] in *. 
    exists ((g (a + INR i * h) + g (a + INR (S i) * h)) * ((a + INR (S i) * h - (a + INR i * h)) / 2) + v). split.
    + rewrite E. reflexivity.
    + replace (S i + n)%nat with (i + S n)%nat in B by lia.
      rewrite <- (RInt_Chasles g (a + INR i * h) (a + INR (S i) * h) (a + INR (i + S n) * h)); [|apply ex_RInt_cont; apply g_cont|apply ex_RInt_cont; apply g_cont].
      pose proof (cellE_bound (a + INR i * h) h Hh) as C. unfold cellE in C.
      replace (a + INR i * h + h) with (a + INR (S i) * h) in C by (rewrite S_INR; ring).
      replace (a + INR (S i) * h - (a + INR i * h)) with h by (rewrite S_INR; ring).
      rewrite (S_INR n).
      set (I1 := RInt g (a + INR i * h) (a + INR (S i) * h)) in *. set (I2 := RInt g (a + INR (S i) * h) (a + INR (i + S n) * h)) in *.
      set (A := g (a + INR i * h)) in *. set (Bv := g (a + INR (S i) * h)) in *. 
      change (Rabs ((A + Bv) * (h / 2) + v - (I1 + I2)) <= (INR n + 1) * (M * h ^ 3 / 12)). clearbody I1 I2. change R in I1, I2.
      replace ((A + Bv) * (h / 2) + v - (I1 + I2)) with (- (I1 - h / 2 * (A + Bv)) + (v - I2)) by field.
      eapply Rle_trans; [apply Rabs_triang|]. rewrite Rabs_Ropp. lra.
Qed.
End Cell.

(** ** Bounds on the normal density and its derivatives *)
Lemma sqrt_2PI_ge_2 : 2 <= sqrt (2 * PI).
Proof.
  pose proof PI2_3_2. assert (PI / 2 = PI2) as E by (unfold PI; field). replace 2 with (sqrt (2 * 2)) at 1 by (rewrite sqrt_square; lra).
  apply sqrt_le_1_alt. unfold PI2 in *. lra.
Qed.
Lemma phi_times_bound p u : Rabs p <= exp (u * u / 2) -> Rabs (p * phi u) <= 1 / 2.
Proof.
  intros H. pose proof sqrt_2PI_ge_2. pose proof sqrt_2PI_pos. unfold phi.
  replace (exp (- (u * u) / 2)) with (/ exp (u * u / 2)). 2:{ rewrite <- exp_Ropp. f_equal. field. }
  pose proof (exp_pos (u * u / 2)) as E. set (e := exp (u * u / 2)) in *. clearbody e.
  replace (p * (/ e / sqrt (2 * PI))) with (p / e / sqrt (2 * PI)) by (field; split; lra).
  unfold Rdiv. rewrite !Rabs_mult, (Rabs_right (/ e)), (Rabs_right (/ sqrt (2 * PI))) by (left; now apply Rinv_0_lt_compat).
  apply Rle_trans with (1 * / 2); [|lra]. apply Rmult_le_compat.
  - apply Rmult_le_pos; [apply Rabs_pos|left; now apply Rinv_0_lt_compat].
  - left; now apply Rinv_0_lt_compat.
  - apply (Rmult_le_reg_r e); [exact E|]. rewrite Rmult_assoc, Rinv_l by lra. lra.
  - apply Rinv_le_contravar; lra.
Qed.
Lemma phi_bound u : phi u <= 1 / 2.
Proof.
  pose proof (phi_times_bound 1 u) as H. rewrite Rmult_1_l in H. pose proof (phi_pos u). rewrite Rabs_R1 in H. rewrite (Rabs_right (phi u)) in H by lra. apply H.
  pose proof (exp_ge_1_plus (u * u / 2)). nra.
Qed.
Lemma u_phi_bound u : Rabs (u * phi u) <= 1 / 2.
Proof. apply phi_times_bound. pose proof (exp_ge_1_plus (u * u / 2)). apply Rabs_le. nra. Qed.
Lemma uu_phi_bound u : Rabs ((u * u - 1) * phi u) <= 1 / 2.
Proof.
  apply phi_times_bound. pose proof (exp_ge_1_plus (u * u / 2 / 2)) as H. assert (exp (u * u / 2) = exp (u * u / 2 / 2) * exp (u * u / 2 / 2)) as E by (rewrite <- exp_plus; f_equal; field).
  assert ((1 + u * u / 4) * (1 + u * u / 4) <= exp (u * u / 2)). { rewrite E. apply Rmult_le_compat; nra. }
  apply Rabs_le. nra.
Qed.
Section Normals2.
Variables m1 s1 m2 s2 : R.
Hypothesis S1 : 0 < s1.
Hypothesis S2 : 0 < s2.
Definition ssf1 (x : R) : R := let u := (x - m2) / s2 in let w := - ((x - m1) / s1) in (- u * phi u / s2 * Phi w - phi u * phi w / s1) / s2.
Definition ssf2 (x : R) : R := let u := (x - m2) / s2 in let w := - ((x - m1) / s1) in
  ((u * u - 1) * phi u / s2 ^ 2 * Phi w + 2 * (u * phi u * phi w) / (s1 * s2) - phi u * (w * phi w) / s1 ^ 2) / s2.
Definition ss_curvature : R := (1 / (2 * s2 ^ 2) + 1 / (2 * s1 * s2) + 1 / (4 * s1 ^ 2)) / s2.
Lemma phi_der_u x : is_derive (fun x => phi ((x - m2) / s2)) x (/ s2 * (- ((x - m2) / s2) * phi ((x - m2) / s2))).
Proof. apply (is_derive_comp phi (fun x => (x - m2) / s2)); [apply phi_derive|]. auto_derive; [trivial|field; lra]. Qed.
Lemma phi_der_w x : is_derive (fun x => phi (- ((x - m1) / s1))) x (- / s1 * (- - ((x - m1) / s1) * phi (- ((x - m1) / s1)))).
Proof. apply (is_derive_comp phi (fun x => - ((x - m1) / s1))); [apply phi_derive|]. auto_derive; [trivial|field; lra]. Qed.
Lemma Phi_der_w x : is_derive (fun x => Phi (- ((x - m1) / s1))) x (- / s1 * phi (- ((x - m1) / s1))).
Proof. apply (is_derive_comp Phi (fun x => - ((x - m1) / s1))); [apply Phi_derive|]. auto_derive; [trivial|field; lra]. Qed.
Lemma lin_der x : is_derive (fun x => (x - m2) / s2) x (/ s2).
Proof. auto_derive; [trivial|field; lra]. Qed.
Lemma ssf_der x : is_derive (ssf m1 s1 m2 s2) x (ssf1 x).
Proof.
  apply (is_derive_ext (fun x => / s2 * (phi ((x - m2) / s2) * Phi (- ((x - m1) / s1))))). { intros t. unfold ssf, Rdiv. as_R. ring. }
  replace (ssf1 x) with (/ s2 * (/ s2 * (- ((x - m2) / s2) * phi ((x - m2) / s2)) * Phi (- ((x - m1) / s1)) + phi ((x - m2) / s2) * (- / s1 * phi (- ((x - m1) / s1))))) by (unfold ssf1; cbv zeta; field; lra).
  apply is_derive_scal. apply (is_derive_mult (fun x => phi ((x - m2) / s2)) (fun x => Phi (- ((x - m1) / s1)))); [apply phi_der_u|apply Phi_der_w|intros; apply Rmult_comm].
Qed.
Lemma ssf1_der x : is_derive ssf1 x (ssf2 x).
Proof.
  apply (is_derive_ext (fun x => / s2 * (- / s2 * ((x - m2) / s2 * phi ((x - m2) / s2) * Phi (- ((x - m1) / s1))) - / s1 * (phi ((x - m2) / s2) * phi (- ((x - m1) / s1)))))).
  { intros t. unfold ssf1, Rdiv. as_R. ring. }
  set (U := (x - m2) / s2). set (W := - ((x - m1) / s1)).
  replace (ssf2 x) with (/ s2 * (- / s2 * ((/ s2 * phi U + U * (/ s2 * (- U * phi U))) * Phi W + U * phi U * (- / s1 * phi W)) - / s1 * (/ s2 * (- U * phi U) * phi W + phi U * (- / s1 * (- W * phi W))))) by (unfold ssf2; cbv zeta; fold U W; field; lra).
  apply is_derive_scal. apply (is_derive_minus (fun x => - / s2 * ((x - m2) / s2 * phi ((x - m2) / s2) * Phi (- ((x - m1) / s1)))) (fun x => / s1 * (phi ((x - m2) / s2) * phi (- ((x - m1) / s1))))); apply is_derive_scal.
  - apply (is_derive_mult (fun x => (x - m2) / s2 * phi ((x - m2) / s2)) (fun x => Phi (- ((x - m1) / s1)))); [|apply Phi_der_w|intros; apply Rmult_comm].
    apply (is_derive_mult (fun x => (x - m2) / s2) (fun x => phi ((x - m2) / s2))); [apply lin_der|apply phi_der_u|intros; apply Rmult_comm].
  - apply (is_derive_mult (fun x => phi ((x - m2) / s2)) (fun x => phi (- ((x - m1) / s1)))); [apply phi_der_u|apply phi_der_w|intros; apply Rmult_comm].
Qed.
Lemma Rabs_mult_le x y p q : Rabs x <= p -> Rabs y <= q -> Rabs (x * y) <= p * q.
Proof. intros. rewrite Rabs_mult. apply Rmult_le_compat; auto using Rabs_pos. Qed.
Lemma Rabs_div_le x c p : 0 < c -> Rabs x <= p -> Rabs (x / c) <= p / c.
Proof. intros Hc H. unfold Rdiv. apply Rabs_mult_le; [exact H|]. rewrite Rabs_right; [lra|]. left. now apply Rinv_0_lt_compat. Qed.
Lemma ssf2_bound x : Rabs (ssf2 x) <= ss_curvature.
Proof.
  unfold ssf2, ss_curvature. cbv zeta. set (U := (x - m2) / s2). set (W := - ((x - m1) / s1)).
  pose proof (uu_phi_bound U) as B1. pose proof (u_phi_bound U) as B2. pose proof (u_phi_bound W) as B3.
  assert (Rabs (phi U) <= 1 / 2) as B4 by (pose proof (phi_pos U); pose proof (phi_bound U); rewrite Rabs_right; lra).
  assert (Rabs (phi W) <= 1 / 2) as B5 by (pose proof (phi_pos W); pose proof (phi_bound W); rewrite Rabs_right; lra).
  assert (Rabs (Phi W) <= 1) as B6 by (pose proof (Phi_gt_0 W); pose proof (Phi_lt_1 W); rewrite Rabs_right; lra).
  apply Rabs_div_le; [exact S2|].
  assert (Rabs ((U * U - 1) * phi U / s2 ^ 2 * Phi W) <= 1 / (2 * s2 ^ 2)) as C1.
  { replace (1 / (2 * s2 ^ 2)) with (1 / 2 / s2 ^ 2 * 1) by (field; lra). apply Rabs_mult_le; [|exact B6]. apply Rabs_div_le; [nra|exact B1]. }
  assert (Rabs (2 * (U * phi U * phi W) / (s1 * s2)) <= 1 / (2 * s1 * s2)) as C2.
  { replace (1 / (2 * s1 * s2)) with (2 * (1 / 2 * (1 / 2)) / (s1 * s2)) by (field; lra). apply Rabs_div_le; [nra|]. apply Rabs_mult_le; [rewrite Rabs_right; lra|]. now apply Rabs_mult_le. }
  assert (Rabs (phi U * (W * phi W) / s1 ^ 2) <= 1 / (4 * s1 ^ 2)) as C3.
  { replace (1 / (4 * s1 ^ 2)) with (1 / 2 * (1 / 2) / s1 ^ 2) by (field; lra). apply Rabs_div_le; [nra|]. now apply Rabs_mult_le. }
  eapply Rle_trans; [apply Rabs_triang|]. rewrite Rabs_Ropp. eapply Rle_trans; [apply Rplus_le_compat_r; apply Rabs_triang|]. lra.
Qed.
(** The tails. *)
Lemma f2_int A B : is_RInt (fun x => phi ((x - m2) / s2) / s2) A B (Phi ((B - m2) / s2) - Phi ((A - m2) / s2)).
Proof.
  apply (is_RInt_derive (fun x => Phi ((x - m2) / s2)) (fun x => phi ((x - m2) / s2) / s2)).
  - intros x _. replace (phi ((x - m2) / s2) / s2) with (/ s2 * phi ((x - m2) / s2)) by (field; lra). apply (is_derive_comp Phi (fun x => (x - m2) / s2)); [apply Phi_derive|apply lin_der].
  - intros x _. apply (ex_derive_continuous (fun x => phi ((x - m2) / s2) / s2) x). exists (/ s2 * (/ s2 * (- ((x - m2) / s2) * phi ((x - m2) / s2)))).
    apply (is_derive_ext (fun x => / s2 * phi ((x - m2) / s2))); [intros; unfold Rdiv; apply Rmult_comm|]. apply is_derive_scal. apply phi_der_u.
Qed.
Lemma ssf_ex A B : ex_RInt (ssf m1 s1 m2 s2) A B.
Proof. apply ex_RInt_cont. intros x. apply (ex_derive_continuous (ssf m1 s1 m2 s2) x). eexists; apply ssf_der. Qed.
Lemma tail_le A B : A <= B -> RInt (ssf m1 s1 m2 s2) A B <= Phi ((B - m2) / s2) - Phi ((A - m2) / s2).
Proof.
  intros H. rewrite <- (is_RInt_unique _ _ _ _ (f2_int A B)). apply RInt_le; [exact H|apply ssf_ex|eexists; apply f2_int|].
  intros x _. unfold ssf. assert (0 < phi ((x - m2) / s2) / s2) by (apply Rdiv_lt_0_compat; [apply phi_pos|exact S2]). pose proof (Phi_lt_1 (- ((x - m1) / s1))). nra.
Qed.
Lemma tails lo hi eps : lo <= hi -> Phi ((lo - m2) / s2) <= eps -> 1 - eps <= Phi ((hi - m2) / s2) ->
  ss_value m1 s1 m2 s2 - 2 * eps <= RInt (ssf m1 s1 m2 s2) lo hi <= ss_value m1 s1 m2 s2.
Proof.
  intros Hl E1 E2. split; [|now apply ss_upper]. apply le_epsilon. intros e He.
  destruct (ss_lower m1 s1 m2 s2 S1 S2 e He) as (M & HM & L).
  set (A := Rmin (- M) lo). set (B := Rmax M hi). assert (A <= - M /\ A <= lo) as [A1 A2] by (split; [apply Rmin_l|apply Rmin_r]).
  assert (M <= B /\ hi <= B) as [B1 B2] by (split; [apply Rmax_l|apply Rmax_r]).
  specialize (L A B A1 B1).
  pose proof (RInt_Chasles (ssf m1 s1 m2 s2) A lo B (ssf_ex _ _) (ssf_ex _ _)) as K1. pose proof (RInt_Chasles (ssf m1 s1 m2 s2) lo hi B (ssf_ex _ _) (ssf_ex _ _)) as K2.
  rewrite <- K1, <- K2 in L. pose proof (tail_le A lo A2). pose proof (tail_le hi B B2). pose proof (Phi_gt_0 ((A - m2) / s2)). pose proof (Phi_lt_1 ((B - m2) / s2)).
  match type of L with _ < Hierarchy.plus ?x (Hierarchy.plus ?y ?z) => change (ss_value m1 s1 m2 s2 - e < (x : R) + ((y : R) + (z : R))) in L end. cbv beta in *.
  set (x := RInt _ A lo) in *. set (y := RInt _ lo hi) in *. set (z := RInt _ hi B) in *. clearbody x y z. change R in x, y, z. lra.
Qed.
End Normals2.

(** ** The quantiles at 1e-8 *)
Lemma Phi_mills x : x < 0 -> Phi x <= phi x / - x.
Proof.
  intros Hx. apply le_epsilon. intros e He. destruct (Phi_lower e He) as (z & Hz).
  set (A := Rmin z x). assert (A <= x) as Ax by apply Rmin_r. assert (A <= z) as Az by apply Rmin_l.
  pose proof (nondecr_of_derive (fun t => - (phi t * / t) - Phi t) (fun t => phi t * (/ t * / t)) A x Ax) as N. cbv beta in N.
  assert (- (phi A * / A) - Phi A <= - (phi x * / x) - Phi x) as K.
  { apply N.
    - intros t Ht. replace (phi t * (/ t * / t)) with (- (- t * phi t * / t + phi t * (- / t ^ 2)) - phi t) by (field; lra).
      apply (is_derive_minus (fun t => - (phi t * / t)) Phi); [|apply Phi_derive]. apply (is_derive_opp (fun t => phi t * / t)).
      apply (is_derive_mult phi (fun t => / t)); [apply phi_derive| |intros; apply Rmult_comm]. auto_derive; [lra|field; lra].
    - intros t Ht. pose proof (phi_pos t). assert (0 < / t * / t); [|nra]. assert (/ t < 0) by (apply Rinv_lt_0_compat; lra). nra. }
  assert (Phi A <= Phi z) by now apply Phi_le_iff. pose proof (phi_pos A). assert (/ A < 0) by (apply Rinv_lt_0_compat; lra).
  replace (phi x / - x) with (- (phi x * / x)) by (field; lra). nra.
Qed.
Lemma exp_18 : 9000000 <= exp 18.
Proof.
  pose proof (exp_ge_1_plus (1 / 4)) as E1.
  assert (forall x c, 0 <= c -> c <= exp x -> c * c <= exp (2 * x)) as D. { intros x c Hc H. replace (2 * x) with (x + x) by ring. rewrite exp_plus. apply Rmult_le_compat; lra. }
  assert (5 / 4 <= exp (1 / 4)) as H1 by lra. apply D in H1; [|lra]. replace (2 * (1 / 4)) with (1 / 2) in H1 by field. 
  apply D in H1; [|lra]. replace (2 * (1 / 2)) with 1 in H1 by field. assert (244 / 100 <= exp 1) as H2 by lra.
  apply D in H2; [|lra]. assert (595 / 100 <= exp (2 * 1)) as H3 by lra. pose proof H3 as H3'. apply D in H3; [|lra].
  apply D in H3; [|lra]. assert (1253 <= exp (2 * (2 * (2 * 1)))) as H4 by lra. apply D in H4; [|lra].
  replace 18 with (2 * (2 * (2 * (2 * 1))) + 2 * 1) by ring. rewrite exp_plus.
  apply Rle_trans with (1253 * 1253 * (595 / 100)); [lra|]. apply Rmult_le_compat; lra.
Qed.
Lemma ppf_low : - 6 <= norm_ppf (/ 10 ^ 8) < - 4.
Proof.
  pose proof sqrt_2PI_pos. assert (0 < / 10 ^ 8 < 1) as Hp by (split; [apply Rinv_0_lt_compat; lra|lra]). split.
  - apply Phi_le_iff. rewrite Phi_norm_ppf by exact Hp. eapply Rle_trans; [apply Phi_mills; lra|]. unfold phi. pose proof sqrt_2PI_ge_2. pose proof exp_18.
    replace (exp (- (- 6 * - 6) / 2)) with (/ exp 18). 2:{ rewrite <- exp_Ropp. f_equal. field. }
    assert (/ exp 18 <= / 9000000) by (apply Rinv_le_contravar; lra). assert (/ sqrt (2 * PI) <= / 2) by (apply Rinv_le_contravar; lra).
    assert (0 < / sqrt (2 * PI)) by now apply Rinv_0_lt_compat. assert (0 < / exp 18) by (apply Rinv_0_lt_compat; lra).
    replace (/ exp 18 / sqrt (2 * PI) / - - 6) with (/ exp 18 * / sqrt (2 * PI) * / 6) by (field; split; lra).
    assert (/ exp 18 * / sqrt (2 * PI) <= / 9000000 * / 2) by (apply Rmult_le_compat; lra). lra.
  - apply Phi_lt_iff. rewrite Phi_norm_ppf by exact Hp.
    assert (phi (- 5) <= Phi (- 4) - Phi (- 5)) as K.
    { destruct (MVT_gen Phi (- 5) (- 4) phi) as (c & Hc & E).
      - intros x _. apply Phi_derive.
      - intros x _. apply continuity_pt_filterlim. apply (ex_derive_continuous Phi x). eexists; apply Phi_derive.
      - rewrite Rmin_left, Rmax_right in Hc by lra. rewrite E. replace (- 4 - - 5) with 1 by ring. rewrite Rmult_1_r. unfold phi. apply Rmult_le_compat_r; [left; now apply Rinv_0_lt_compat|].
        destruct (Req_dec (- (- 5 * - 5) / 2) (- (c * c) / 2)) as [->|Hn]; [lra|]. left. apply exp_increasing. nra. }
    pose proof (Phi_gt_0 (- 5)). apply Rlt_le_trans with (phi (- 5)); [|lra]. unfold phi.
    replace (exp (- (- 5 * - 5) / 2)) with (/ exp (25 / 2)). 2:{ rewrite <- exp_Ropp. f_equal. field. }
    assert (exp (25 / 2) <= 3 ^ 13) as E.
    { apply Rle_trans with (exp (INR 13 * 1)). { left. apply exp_increasing. simpl. lra. } rewrite <- (Rmult_1_r (INR 13 * 1)) at 1. 
      replace (exp (INR 13 * 1 * 1)) with (exp 1 ^ 13). 2:{ rewrite <- Rpower_pow by apply exp_pos. unfold Rpower. rewrite ln_exp. f_equal. ring. }
      apply pow_incr. split; [left; apply exp_pos|apply exp_le_3]. }
    assert (sqrt (2 * PI) <= 3) as Q. { replace 3 with (sqrt (3 * 3)) by (rewrite sqrt_square; lra). apply sqrt_le_1_alt. pose proof PI_4. lra. }
    pose proof (exp_pos (25 / 2)).
    assert (/ 3 ^ 13 <= / exp (25 / 2)) by (apply Rinv_le_contravar; lra). assert (/ 3 <= / sqrt (2 * PI)) by (apply Rinv_le_contravar; lra).
    apply Rlt_le_trans with (/ 3 ^ 13 * / 3); [lra|]. unfold Rdiv. apply Rmult_le_compat; try lra. 
Qed.
Lemma ppf_high : 4 < norm_ppf (1 - / 10 ^ 8) <= 6.
Proof. pose proof ppf_low. rewrite norm_ppf_sym; [lra|]. split; [apply Rinv_0_lt_compat; lra|lra]. Qed.

(** ** stress_strength *)
Lemma ss_points_S : exists n, ss_points = S n /\ INR n = 999999.
Proof.
  exists (N.to_nat 999999). split.
  - unfold ss_points. replace 1000000%N with (N.succ 999999) by reflexivity. apply N2Nat.inj_succ.
  - rewrite INR_IZR_INZ. rewrite N_nat_Z. reflexivity.
Qed.
Lemma ss_points_big : (2 <= ss_points)%nat.
Proof. unfold ss_points. assert (N.to_nat 2 <= N.to_nat 1000000)%nat; [|exact H]. apply Nat.compare_le_iff. rewrite <- N2Nat.inj_compare. discriminate. Qed.
Lemma ss_grid_bounds stress strength x : ss_lo stress strength <= ss_hi stress strength -> In x (ss_grid stress strength) -> ss_lo stress strength <= x <= ss_hi stress strength.
Proof.
  intros H Hx. unfold ss_grid, linspace in Hx. apply in_map_iff in Hx as (i & <- & Hi). apply in_seq in Hi.
  destruct ss_points_S as (n & E & _). rewrite E in *. replace (S n - 1)%nat with n by lia. set (lo := ss_lo stress strength) in *. set (hi := ss_hi stress strength) in *.
  destruct (Nat.eq_dec n 0) as [->|Hn]. { replace i with 0%nat by lia. simpl INR. lra. }
  assert (0 < INR n) by (apply lt_0_INR; lia). assert (INR i <= INR n) by (apply le_INR; lia). pose proof (pos_INR i).
  assert (0 <= INR i * ((hi - lo) / INR n) <= hi - lo); [|lra]. replace (INR i * ((hi - lo) / INR n)) with ((hi - lo) * (INR i / INR n)) by (field; lra).
  assert (0 <= INR i / INR n <= 1); [|nra]. split; [apply Rdiv_le_0_compat; lra|]. apply (Rmult_le_reg_r (INR n)); [lra|]. unfold Rdiv. rewrite Rmult_assoc, Rinv_l by lra. lra.
Qed.
Lemma ss_grid_ends stress strength : In (ss_lo stress strength) (ss_grid stress strength) /\ In (ss_hi stress strength) (ss_grid stress strength).
Proof.
  unfold ss_grid, linspace. destruct ss_points_S as (n & E & En). rewrite E. replace (S n - 1)%nat with n by lia. split; apply in_map_iff.
  - exists 0%nat. split; [simpl INR; ring|]. apply in_seq. lia.
  - exists n. split; [rewrite En; field|]. apply in_seq. lia.
Qed.
Lemma ss_grid_ne stress strength : ss_grid stress strength <> [].
Proof. intros E. pose proof (proj1 (ss_grid_ends stress strength)) as H. rewrite E in H. destruct H. Qed.
Lemma zip_map {A B C D E} (f : C -> D -> E) (g : A -> C) (h : B -> D) l : forall m, zip f (map g l) (map h m) = zip (fun x y => f (g x) (h y)) l m.
Proof. induction l as [|x l IH]; intros [|y m]; cbn [map zip]; try reflexivity. now rewrite IH. Qed.
Lemma zip_diag {A B} (f : A -> A -> B) l : zip f l l = map (fun x => f x x) l.
Proof. induction l as [|x l IH]; cbn [map zip]; [reflexivity|]. now rewrite IH. Qed.
Lemma stress_strength_form stress strength : stress_strength stress strength =
  if array_ok strength (ss_grid stress strength) && array_ok stress (ss_grid stress strength) then
    Ok (trapezoid (map (fun x => emul (pdf strength x) (Fin (sf stress x))) (ss_grid stress strength)) (ss_grid stress strength))
  else Err ValueError.
Proof.
  unfold stress_strength, PDF, SF. destruct (array_ok strength _); cbn [bind andb]; [|reflexivity]. destruct (array_ok stress _); cbn [bind]; [|reflexivity].
  now rewrite zip_map, zip_diag.
Qed.
Lemma array_ok_iff d X : X <> [] -> array_ok d X = true <-> forall x, In x X -> accepts d x.
Proof.
  intros Hne. split.
  - unfold array_ok. destruct X as [|x0 X0]; [contradiction|]. set (X := x0 :: X0) in *. clearbody X. intros H x Hx.
    apply andb_true_iff in H as [H1 H2]. apply orb_true_iff in H1. apply orb_true_iff in H2. rewrite !forallb_forall in *.
    assert (is_signed d = false -> 0 <= x) as A. { intros F. destruct H1 as [H1|H1]; [congruence|]. specialize (H1 x Hx). unfold Rltb' in H1. destruct (Rlt_dec x 0); [discriminate|lra]. }
    assert (is_beta d = true -> x <= 1) as B. { intros F. destruct H2 as [H2|H2]; [rewrite F in H2; discriminate|]. specialize (H2 x Hx). unfold Rltb' in H2. destruct (Rlt_dec 1 x); [discriminate|lra]. }
    destruct d; cbn [is_signed is_beta accepts] in *; auto.
  - intros H. apply array_ok_intro; [exact Hne| |]; destruct d; cbn [is_signed is_beta accepts] in *; auto; right; intros x Hx; specialize (H x Hx); lra.
Qed.
Lemma accepts_between d lo hi x : accepts d lo -> accepts d hi -> lo <= x <= hi -> accepts d x.
Proof. destruct d; simpl; intros; lra. Qed.
