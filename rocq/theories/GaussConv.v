(** The integral of phi u * Phi (a u + d) over the real line. *)
From Coquelicot Require Import Coquelicot.
From Coq Require Import Reals Lra Lia.
From Verif Require Import RealFacts Gauss.
Open Scope R_scope.

Section Conv.
Variable a : R.
Let s := sqrt (1 + a * a).
Lemma conv_s_pos : 0 < s.
Proof. apply sqrt_lt_R0. nra. Qed.
Lemma conv_s_sq : s * s = 1 + a * a.
Proof. apply sqrt_sqrt. nra. Qed.
Definition conv_f (d u : R) : R := phi u * Phi (a * u + d).
Lemma conv_f_cont d u : continuous (conv_f d) u.
Proof.
  apply (ex_derive_continuous (conv_f d) u). exists (- u * phi u * Phi (a * u + d) + phi u * (a * phi (a * u + d))). unfold conv_f.
  apply (is_derive_mult phi (fun u => Phi (a * u + d)) u); [apply phi_derive| |intros; apply Rmult_comm].
  apply (is_derive_comp Phi (fun u => a * u + d)); [apply Phi_derive|]. auto_derive; [trivial|ring].
Qed.
Definition conv_J (A B d : R) : R := RInt (conv_f d) A B.
Lemma phi_phi d u : phi u * phi (a * u + d) = phi (d / s) * phi (s * u + a * d / s).
Proof.
  pose proof conv_s_pos. pose proof conv_s_sq as E. unfold phi. pose proof sqrt_2PI_pos.
  replace (exp (- (u * u) / 2) / sqrt (2 * PI) * (exp (- ((a * u + d) * (a * u + d)) / 2) / sqrt (2 * PI))) with (exp (- (u * u) / 2) * exp (- ((a * u + d) * (a * u + d)) / 2) / (sqrt (2 * PI) * sqrt (2 * PI))) by (field; lra).
  replace (exp (- (d / s * (d / s)) / 2) / sqrt (2 * PI) * (exp (- ((s * u + a * d / s) * (s * u + a * d / s)) / 2) / sqrt (2 * PI)))
    with (exp (- (d / s * (d / s)) / 2) * exp (- ((s * u + a * d / s) * (s * u + a * d / s)) / 2) / (sqrt (2 * PI) * sqrt (2 * PI))) by (field; lra).
  f_equal. rewrite <- !exp_plus. f_equal.
  assert (d / s * (d / s) + (s * u + a * d / s) * (s * u + a * d / s) = u * u + (a * u + d) * (a * u + d)); [|lra].
  replace (d / s * (d / s) + (s * u + a * d / s) * (s * u + a * d / s)) with (s * s * u * u + 2 * a * d * u + (1 + a * a) * (d * d) / (s * s)) by (field; lra).
  rewrite E. field. nra.
Qed.
Lemma conv_inner A B d : is_RInt (fun u => phi u * phi (a * u + d)) A B (phi (d / s) / s * (Phi (s * B + a * d / s) - Phi (s * A + a * d / s))).
Proof.
  pose proof conv_s_pos.
  apply (is_RInt_ext (fun u => phi (d / s) * phi (s * u + a * d / s))); [intros; symmetry; apply phi_phi|].
  replace (phi (d / s) / s * (Phi (s * B + a * d / s) - Phi (s * A + a * d / s))) with (minus (phi (d / s) / s * Phi (s * B + a * d / s)) (phi (d / s) / s * Phi (s * A + a * d / s))) by (unfold minus, plus, opp; simpl; ring).
  apply (is_RInt_derive (fun u => phi (d / s) / s * Phi (s * u + a * d / s)) (fun u => phi (d / s) * phi (s * u + a * d / s))).
  - intros x _. replace (phi (d / s) * phi (s * x + a * d / s)) with (phi (d / s) / s * (s * phi (s * x + a * d / s))) by (field; lra).
    apply is_derive_scal. apply (is_derive_comp Phi (fun u => s * u + a * d / s)); [apply Phi_derive|]. auto_derive; [trivial|ring].
  - intros x _. apply (continuous_scal_r (phi (d / s)) (fun x => phi (s * x + a * d / s))). apply (continuous_comp (fun x => s * x + a * d / s) phi); [|apply phi_cont].
    apply (ex_derive_continuous (fun x => s * x + a * d / s)). auto_derive. trivial.
Qed.
Lemma conv_J_derive A B d : is_derive (conv_J A B) d (phi (d / s) / s * (Phi (s * B + a * d / s) - Phi (s * A + a * d / s))).
Proof.
  assert (forall d u, is_derive (fun d => phi u * Phi (a * u + d)) d (phi u * phi (a * u + d))) as HD.
  { intros d0 u. apply is_derive_scal. replace (phi (a * u + d0)) with (1 * phi (a * u + d0)) by ring. apply (is_derive_comp Phi (fun d => a * u + d)); [apply Phi_derive|]. auto_derive; [trivial|ring]. }
  rewrite <- (is_RInt_unique _ _ _ _ (conv_inner A B d)).
  replace (RInt (fun u => phi u * phi (a * u + d)) A B) with (RInt (fun u => Derive (fun d => phi u * Phi (a * u + d)) d) A B) by (apply RInt_ext; intros; apply is_derive_unique, HD).
  unfold conv_J, conv_f. apply (is_derive_RInt_param (fun d u => phi u * Phi (a * u + d)) A B d).
  - apply filter_forall. intros y t _. eexists. apply HD.
  - intros t _. apply (continuity_2d_pt_ext (fun d u => phi u * phi (a * u + d))); [intros x y; symmetry; apply is_derive_unique, HD|].
    assert (forall x, continuity_pt phi x) as PC by (intros x; apply continuity_pt_filterlim; apply phi_cont).
    apply continuity_2d_pt_mult.
    + apply (continuity_1d_2d_pt_comp phi (fun u v => v)); [apply PC|apply continuity_2d_pt_id2].
    + apply (continuity_1d_2d_pt_comp phi (fun u v => a * v + u)); [apply PC|]. apply continuity_2d_pt_plus; [|apply continuity_2d_pt_id1].
      apply continuity_2d_pt_mult; [apply continuity_2d_pt_const|apply continuity_2d_pt_id2].
  - apply filter_forall. intros y. apply ex_RInt_cont. intros t. apply conv_f_cont.
Qed.
(** The difference to the limit, as a function of d. *)
Lemma conv_h_derive A B d : is_derive (fun t => Phi (t / s) - conv_J A B t) d (phi (d / s) / s * (1 - (Phi (s * B + a * d / s) - Phi (s * A + a * d / s)))).
Proof.
  pose proof conv_s_pos. replace (phi (d / s) / s * (1 - (Phi (s * B + a * d / s) - Phi (s * A + a * d / s)))) with (/ s * phi (d / s) - phi (d / s) / s * (Phi (s * B + a * d / s) - Phi (s * A + a * d / s))) by (field; lra).
  apply (is_derive_minus (fun t => Phi (t / s)) (conv_J A B)); [|apply conv_J_derive].
  apply (is_derive_comp Phi (fun t => t / s)); [apply Phi_derive|]. auto_derive; [trivial|field; lra].
Qed.
Lemma nondecr_of_derive (f df : R -> R) x y : x <= y -> (forall t, x <= t <= y -> is_derive f t (df t)) -> (forall t, x <= t <= y -> 0 <= df t) -> f x <= f y.
Proof.
  intros Hxy Hd Hp. destruct Hxy as [L|E]; [|subst; lra].
  destruct (MVT_gen f x y df) as (c & Hc & E).
  - intros t Ht. apply Hd. rewrite Rmin_left, Rmax_right in Ht by lra. lra.
  - intros t Ht. rewrite Rmin_left, Rmax_right in Ht by lra. apply derivable_continuous_pt. exists (df t). apply is_derive_Reals. now apply Hd.
  - rewrite Rmin_left, Rmax_right in Hc by lra. specialize (Hp c Hc). nra.
Qed.
Lemma conv_bracket A B t : A <= B -> 0 <= Phi (s * B + a * t / s) - Phi (s * A + a * t / s) <= 1.
Proof.
  intros H. pose proof conv_s_pos. assert (s * A + a * t / s <= s * B + a * t / s) as L by nra. apply Phi_le_iff in L. pose proof (Phi_lt_1 (s * B + a * t / s)). pose proof (Phi_gt_0 (s * A + a * t / s)). lra.
Qed.
Lemma phi_s_pos t : 0 < phi (t / s) / s.
Proof. apply Rdiv_lt_0_compat; [apply phi_pos|apply conv_s_pos]. Qed.
Lemma conv_J_nonneg A B d : A <= B -> 0 <= conv_J A B d.
Proof.
  intros H. apply RInt_ge_0; [exact H|apply ex_RInt_cont; apply conv_f_cont|]. intros x _. unfold conv_f. apply Rmult_le_pos; [left; apply phi_pos|left; apply Phi_gt_0].
Qed.
Lemma phi_int A B : RInt phi A B = Phi B - Phi A.
Proof.
  apply is_RInt_unique. apply (is_RInt_derive Phi phi); intros; [apply Phi_derive|apply phi_cont].
Qed.
Lemma eps_phi_cont eps u : continuous (fun u => eps * phi u) u.
Proof. apply (ex_derive_continuous (fun u => eps * phi u) u). exists (eps * (- u * phi u)). apply is_derive_scal. apply phi_derive. Qed.
Lemma eps_phi_int eps A B : RInt (fun u => eps * phi u) A B = eps * (Phi B - Phi A).
Proof.
  apply is_RInt_unique. replace (eps * (Phi B - Phi A)) with (minus (eps * Phi B) (eps * Phi A)) by (unfold minus, plus, opp; simpl; ring).
  apply (is_RInt_derive (fun u => eps * Phi u) (fun u => eps * phi u)); intros; [apply is_derive_scal; apply Phi_derive|apply eps_phi_cont].
Qed.
Lemma conv_J_small A B eps : A <= B -> 0 < eps -> forall d, exists t, t <= d /\ conv_J A B t <= eps.
Proof.
  intros HAB He d. destruct (Phi_lower eps He) as (z & Hz). set (C := Rabs a * Rmax (Rabs A) (Rabs B)). exists (Rmin d (z - C)). split; [apply Rmin_l|].
  set (t := Rmin d (z - C)). assert (t <= z - C) as Ht by apply Rmin_r.
  apply Rle_trans with (RInt (fun u => eps * phi u) A B).
  - apply RInt_le; [exact HAB|apply ex_RInt_cont; apply conv_f_cont|apply ex_RInt_cont; intros u; apply eps_phi_cont|].
    intros u Hu. unfold conv_f. rewrite (Rmult_comm eps). apply Rmult_le_compat_l; [left; apply phi_pos|].
    left. apply Rle_lt_trans with (Phi z); [|exact Hz]. apply Phi_le_iff. assert (a * u <= C); [|lra]. apply Rle_trans with (Rabs (a * u)); [apply Rle_abs|]. rewrite Rabs_mult. unfold C.
    apply Rmult_le_compat_l; [apply Rabs_pos|]. unfold Rabs, Rmax. destruct (Rcase_abs u), (Rcase_abs A), (Rcase_abs B); destruct (Rle_dec _ _); lra.
  - rewrite eps_phi_int. pose proof (Phi_lt_1 B). pose proof (Phi_gt_0 A). nra.
Qed.
Lemma conv_upper A B d : A <= B -> conv_J A B d <= Phi (d / s).
Proof.
  intros HAB. apply le_epsilon. intros eps He. destruct (conv_J_small A B eps HAB He d) as (t & Ht & HJ).
  pose proof (nondecr_of_derive (fun t => Phi (t / s) - conv_J A B t) _ t d Ht (fun u _ => conv_h_derive A B u)) as N. cbv beta in N.
  assert (Phi (t / s) - conv_J A B t <= Phi (d / s) - conv_J A B d).
  { apply N. intros u _. apply Rmult_le_pos; [left; apply phi_s_pos|]. pose proof (conv_bracket A B u HAB). lra. }
  pose proof (Phi_gt_0 (t / s)). lra.
Qed.
Lemma conv_lower d eps : 0 < eps -> exists M, 0 < M /\ forall A B, A <= - M -> M <= B -> Phi (d / s) - eps < conv_J A B d.
Proof.
  intros He. pose proof conv_s_pos as Hs. set (e := Rmin (eps / 4) (1 / 4)). assert (0 < e) as He1 by (apply Rmin_glb_lt; lra). assert (e <= eps / 4) as He2 by apply Rmin_l. assert (e <= 1 / 4) as He3 by apply Rmin_r.
  destruct (Phi_lower e He1) as (z & Hz). set (D := Rmax (- z * s) (Rabs d + 1)). assert (- z * s <= D) as HD1 by apply Rmax_l. assert (Rabs d + 1 <= D) as HD2 by apply Rmax_r.
  assert (- D < d < D) as Hd by (unfold Rabs in HD2; destruct (Rcase_abs d); lra).
  destruct (Phi_upper (1 - e) ltac:(lra)) as (w & Hw). set (M := (Rabs w + Rabs a * D / s) / s + 1).
  assert (0 <= Rabs a * D / s) as HaD. { apply Rmult_le_pos; [apply Rmult_le_pos; [apply Rabs_pos|lra]|left; now apply Rinv_0_lt_compat]. }
  assert (0 < M) as M0. { unfold M. assert (0 <= (Rabs w + Rabs a * D / s) / s); [|lra]. apply Rmult_le_pos; [pose proof (Rabs_pos w); lra|left; now apply Rinv_0_lt_compat]. }
  exists M. split; [exact M0|].
  assert (s * M >= Rabs w + Rabs a * D / s) as HM. { unfold M. replace (s * ((Rabs w + Rabs a * D / s) / s + 1)) with (Rabs w + Rabs a * D / s + s) by (field; lra). lra. }
  intros A B HA HB.
  assert (forall t, - D <= t <= d -> Rabs (a * t / s) <= Rabs a * D / s) as Hat.
  { intros t Ht. unfold Rdiv. rewrite !Rabs_mult. rewrite (Rabs_right (/ s)) by (left; now apply Rinv_0_lt_compat). apply Rmult_le_compat_r; [left; now apply Rinv_0_lt_compat|].
    apply Rmult_le_compat_l; [apply Rabs_pos|]. unfold Rabs. destruct (Rcase_abs t); lra. }
  assert (forall t, - D <= t <= d -> 1 - (Phi (s * B + a * t / s) - Phi (s * A + a * t / s)) <= 2 * e) as Hb.
  { intros t Ht. specialize (Hat t Ht). assert (s * M <= s * B) by (apply Rmult_le_compat_l; lra). assert (s * A <= s * (- M)) by (apply Rmult_le_compat_l; lra).
    assert (Phi w <= Phi (s * B + a * t / s)). { apply Phi_le_iff. pose proof (Rle_abs w). unfold Rabs in Hat at 1. destruct (Rcase_abs (a * t / s)); lra. }
    assert (Phi (s * A + a * t / s) <= Phi (- w)). { apply Phi_le_iff. pose proof (Rle_abs w). pose proof (Rle_abs (a * t / s)). lra. }
    rewrite Phi_sym in H2. lra. }
  (* h t - 2 e Phi (t/s) is nonincreasing on [-D, d] *)
  assert (2 * e * Phi (- D / s) - (Phi (- D / s) - conv_J A B (- D)) <= 2 * e * Phi (d / s) - (Phi (d / s) - conv_J A B d)) as N.
  { apply (nondecr_of_derive (fun t => 2 * e * Phi (t / s) - (Phi (t / s) - conv_J A B t)) (fun t => 2 * e * (/ s * phi (t / s)) - phi (t / s) / s * (1 - (Phi (s * B + a * t / s) - Phi (s * A + a * t / s)))) (- D) d); [lra| |].
    - intros t _. apply (is_derive_minus (fun t => 2 * e * Phi (t / s)) (fun t => Phi (t / s) - conv_J A B t)); [|apply conv_h_derive].
      apply is_derive_scal. apply (is_derive_comp Phi (fun t => t / s)); [apply Phi_derive|]. auto_derive; [trivial|field; lra].
    - intros t Ht. specialize (Hb t Ht). pose proof (phi_s_pos t). replace (2 * e * (/ s * phi (t / s))) with (phi (t / s) / s * (2 * e)) by (field; lra). nra. }
  pose proof (conv_J_nonneg A B (- D) ltac:(lra)) as JN. pose proof (Phi_lt_1 (d / s)). pose proof (Phi_gt_0 (- D / s)).
  assert (Phi (- D / s) <= Phi z). { apply Phi_le_iff. apply Rle_div_l; [lra|]. lra. }
  nra.
Qed.
End Conv.
