(** The standard normal distribution: density, distribution function, quantiles.
    [phi], [Phi] and [norm_ppf] model scipy.stats.norm.pdf, .cdf and .ppf.  The Gaussian
    integral is proved, so that [Phi] really runs from 0 to 1. *)
From Coq Require Import Reals Lra Lia.
From Coquelicot Require Import Coquelicot.
From Verif Require Import RealFacts.
Open Scope R_scope.

(** ** The Gaussian integral *)
Definition gE (x : R) : R := RInt (fun t => exp (- (t * t))) 0 x.
Definition gG (x : R) : R := RInt (fun t => exp (- (x * x) * (1 + t * t)) / (1 + t * t)) 0 1.

Lemma ex_RInt_cont (f : R -> R) a b : (forall x, continuous f x) -> ex_RInt f a b.
Proof. intros H. apply (@ex_RInt_continuous R_CompleteNormedModule). auto. Qed.

Lemma gE_int_cont t : continuous (fun t => exp (- (t * t))) t.
Proof. apply (ex_derive_continuous (fun t : R => exp (- (t * t)))). auto_derive. trivial. Qed.

Lemma gE_derive x : is_derive gE x (exp (- (x * x))).
Proof.
  unfold gE. apply (is_derive_RInt (fun t => exp (- (t * t))) _ 0).
  - apply filter_forall. intros y. apply (@RInt_correct R_CompleteNormedModule). apply ex_RInt_cont, gE_int_cont.
  - apply gE_int_cont.
Qed.

Lemma one_plus_sq t : 1 <= 1 + t * t.
Proof. pose proof (Rle_0_sqr t). unfold Rsqr in *. lra. Qed.

Lemma gG_int_cont x t : continuous (fun t => exp (- (x * x) * (1 + t * t)) / (1 + t * t)) t.
Proof.
  apply (ex_derive_continuous (fun t : R => exp (- (x * x) * (1 + t * t)) / (1 + t * t))).
  auto_derive. pose proof (one_plus_sq t). lra.
Qed.

Lemma gG_derive x : is_derive gG x (- 2 * exp (- (x * x)) * gE x).
Proof.
  set (f := fun x t => exp (- (x * x) * (1 + t * t)) / (1 + t * t)).
  assert (forall x t, Derive (fun u => f u t) x = - 2 * x * exp (- (x * x) * (1 + t * t))) as HD.
  { intros x0 t. apply is_derive_unique. unfold f. pose proof (one_plus_sq t).
    auto_derive; [lra|]. field. lra. }
  replace (- 2 * exp (- (x * x)) * gE x) with (RInt (fun t => Derive (fun u => f u t) x) 0 1).
  - apply (is_derive_RInt_param f 0 1 x).
    + apply filter_forall. intros y t _. unfold f. auto_derive. pose proof (one_plus_sq t). lra.
    + intros t _. apply (continuity_2d_pt_ext (fun u v => - 2 * u * exp (- (u * u) * (1 + v * v)))).
      { intros u v. symmetry. apply HD. }
      apply continuity_2d_pt_mult.
      * apply continuity_2d_pt_mult; [apply continuity_2d_pt_const|apply continuity_2d_pt_id1].
      * apply (continuity_1d_2d_pt_comp exp (fun u v => - (u * u) * (1 + v * v))).
        { apply derivable_continuous_pt, derivable_pt_exp. }
        apply continuity_2d_pt_mult.
        -- apply continuity_2d_pt_opp. apply continuity_2d_pt_mult; apply continuity_2d_pt_id1.
        -- apply continuity_2d_pt_plus; [apply continuity_2d_pt_const|].
           apply continuity_2d_pt_mult; apply continuity_2d_pt_id2.
    + apply filter_forall. intros y. apply ex_RInt_cont, gG_int_cont.
  - rewrite (RInt_ext _ (fun t => scal (- 2 * exp (- (x * x))) (scal x (exp (- ((x * t + 0) * (x * t + 0))))))).
    2:{ intros t _. rewrite HD. unfold scal; simpl; unfold mult; simpl.
        replace (- (x * x) * (1 + t * t)) with (- (x * x) + - ((x * t + 0) * (x * t + 0))) by ring.
        rewrite exp_plus. ring. }
    rewrite (@RInt_scal R_CompleteNormedModule (fun t => scal x (exp (- ((x * t + 0) * (x * t + 0))))) 0 1).
    2:{ apply ex_RInt_cont. intros t.
        apply (ex_derive_continuous (fun t : R => x * exp (- ((x * t + 0) * (x * t + 0))))). auto_derive. trivial. }
    match goal with |- scal ?a ?b = _ => change (scal a b) with (a * b) end. f_equal.
    transitivity (RInt (fun s => exp (- (s * s))) (x * 0 + 0) (x * 1 + 0)).
    + apply (@RInt_comp_lin R_CompleteNormedModule (fun s => exp (- (s * s))) x 0 0 1).
      apply ex_RInt_cont, gE_int_cont.
    + unfold gE. f_equal; ring.
Qed.

Lemma gE_gG x : gE x * gE x + gG x = PI / 4.
Proof.
  transitivity (gE 0 * gE 0 + gG 0).
  - apply (const_of_derive_zero (fun x => gE x * gE x + gG x)). intros y _.
    replace 0 with (exp (- (y * y)) * gE y + gE y * exp (- (y * y)) + (- 2 * exp (- (y * y)) * gE y)) by ring.
    apply (is_derive_plus (fun y => gE y * gE y) gG).
    + apply (is_derive_mult gE gE y); [apply gE_derive|apply gE_derive|intros; apply Rmult_comm].
    + apply gG_derive.
  - unfold gE. rewrite RInt_point. unfold zero; simpl. unfold gG.
    rewrite (RInt_ext _ (fun t => / (1 + t * t))).
    2:{ intros t _. replace (- (0 * 0) * (1 + t * t)) with 0 by ring. rewrite exp_0. as_R. unfold Rdiv. ring. }
    rewrite (is_RInt_unique _ _ _ (minus (atan 1) (atan 0))).
    + unfold minus, plus, opp; simpl. rewrite atan_0, atan_1. field.
    + apply (is_RInt_derive atan (fun t => / (1 + t * t))).
      * intros t _. apply is_derive_Reals.
        replace (/ (1 + t * t)) with (/ (1 + t ^ 2)) by (f_equal; ring).
        apply derivable_pt_lim_atan.
      * intros t _. apply (ex_derive_continuous (fun t : R => / (1 + t * t))). auto_derive.
        pose proof (one_plus_sq t). lra.
Qed.

Lemma gG_bounds x : 0 <= gG x <= exp (- (x * x)).
Proof.
  unfold gG. split.
  - apply RInt_ge_0; [lra|apply ex_RInt_cont, gG_int_cont|].
    intros t _. pose proof (one_plus_sq t). left. apply Rdiv_lt_0_compat; [apply exp_pos|lra].
  - replace (exp (- (x * x))) with (RInt (fun _ => exp (- (x * x))) 0 1).
    2:{ rewrite RInt_const. unfold scal; simpl; unfold mult; simpl. ring. }
    apply RInt_le; [lra|apply ex_RInt_cont, gG_int_cont|apply ex_RInt_const|].
    intros t _. pose proof (one_plus_sq t).
    apply Rle_trans with (exp (- (x * x)) / 1); [|lra].
    apply Rle_trans with (exp (- (x * x)) / (1 + t * t)).
    + apply Rmult_le_compat_r; [left; apply Rinv_0_lt_compat; lra|].
      destruct (Req_dec x 0) as [->|Hx].
      * replace (- (0 * 0) * (1 + t * t)) with (- (0 * 0)) by ring. lra.
      * assert (0 <= x * x * (t * t)).
        { apply Rmult_le_pos; [apply (Rle_0_sqr x)|apply (Rle_0_sqr t)]. }
        destruct (Req_dec (- (x * x) * (1 + t * t)) (- (x * x))) as [->|N]; [lra|].
        left. apply exp_increasing. lra.
    + apply Rmult_le_compat_l; [left; apply exp_pos|]. apply Rinv_le_contravar; lra.
Qed.

Lemma gE_pos x : 0 < x -> 0 < gE x.
Proof.
  intros H. replace 0 with (gE 0) by (unfold gE; rewrite RInt_point; reflexivity).
  apply (incr_of_derive_pos gE (fun x => exp (- (x * x)))); [assumption| |].
  - intros. apply gE_derive.
  - intros. apply exp_pos.
Qed.

Lemma sqrt_PI_pos : 0 < sqrt PI.
Proof. apply sqrt_lt_R0, PI_RGT_0. Qed.

(** The bounds that pin the limit of [gE]. *)
Lemma gE_lt x : 0 < x -> gE x <= sqrt PI / 2.
Proof.
  intros H. pose proof (gE_gG x) as E. pose proof (gG_bounds x) as B. pose proof (gE_pos x H).
  pose proof sqrt_PI_pos as SP.
  assert (sqrt PI * sqrt PI = PI) as S by (apply sqrt_sqrt; left; apply PI_RGT_0).
  apply Rsqr_incr_0; unfold Rsqr; lra || nra.
Qed.

Lemma gE_ge x : 0 < x -> sqrt PI / 2 - exp (- (x * x)) <= gE x \/ sqrt PI / 2 * (sqrt PI / 2 - gE x) <= exp (- (x * x)).
Proof.
  intros H. right. pose proof (gE_gG x) as E. pose proof (gG_bounds x) as B. pose proof (gE_pos x H).
  pose proof (gE_lt x H). pose proof sqrt_PI_pos as SP.
  assert (sqrt PI * sqrt PI = PI) as S by (apply sqrt_sqrt; left; apply PI_RGT_0).
  nra.
Qed.

Lemma is_lim_exp_msq : is_lim (fun x => exp (- (x * x))) p_infty 0.
Proof.
  apply (is_lim_le_le_loc (fun _ => 0) (fun x => exp (- x))).
  - exists 1. intros x Hx. split; [left; apply exp_pos|].
    left. apply exp_increasing. nra.
  - apply is_lim_const.
  - apply (is_lim_comp exp (fun x => - x) p_infty 0 m_infty).
    + apply is_lim_exp_m.
    + apply (is_lim_opp (fun x => x) p_infty p_infty). apply is_lim_id.
    + exists 0. intros; discriminate.
Qed.

Lemma gE_lim : is_lim gE p_infty (sqrt PI / 2).
Proof.
  pose proof sqrt_PI_pos as SP.
  apply (is_lim_le_le_loc (fun x => sqrt PI / 2 - (2 / sqrt PI) * exp (- (x * x))) (fun _ => sqrt PI / 2)).
  - exists 0. intros x Hx. split; [|now apply gE_lt].
    destruct (gE_ge x Hx) as [G|G].
    + pose proof (gE_gG x) as E. pose proof (gG_bounds x) as B. pose proof (gE_pos x Hx).
      pose proof (gE_lt x Hx).
      assert (sqrt PI * sqrt PI = PI) as S by (apply sqrt_sqrt; left; apply PI_RGT_0).
      assert (sqrt PI / 2 * (sqrt PI / 2 - gE x) <= exp (- (x * x))) as G' by nra.
      assert (sqrt PI / 2 - gE x <= 2 / sqrt PI * exp (- (x * x))); [|lra].
      apply Rmult_le_reg_l with (sqrt PI / 2); [lra|].
      replace (sqrt PI / 2 * (2 / sqrt PI * exp (- (x * x)))) with (exp (- (x * x))) by (field; lra).
      assumption.
    + assert (sqrt PI / 2 - gE x <= 2 / sqrt PI * exp (- (x * x))); [|lra].
      apply Rmult_le_reg_l with (sqrt PI / 2); [lra|].
      replace (sqrt PI / 2 * (2 / sqrt PI * exp (- (x * x)))) with (exp (- (x * x))) by (field; lra).
      assumption.
  - replace (Finite (sqrt PI / 2)) with (Rbar_minus (sqrt PI / 2) (Rbar_mult (2 / sqrt PI) 0)).
    + apply is_lim_minus'; [apply is_lim_const|]. apply (is_lim_scal_l _ (2 / sqrt PI) p_infty 0).
      apply is_lim_exp_msq.
    + simpl. f_equal. ring.
  - apply is_lim_const.
Qed.

(** ** The standard normal distribution *)
Definition phi (x : R) : R := exp (- (x * x) / 2) / sqrt (2 * PI).
Definition Phi (x : R) : R := 1 / 2 + RInt phi 0 x.
Definition norm_ppf (p : R) : R := inverse_of Phi p.

Lemma sqrt_2PI_pos : 0 < sqrt (2 * PI).
Proof. apply sqrt_lt_R0. pose proof PI_RGT_0. lra. Qed.

Lemma phi_pos x : 0 < phi x.
Proof. unfold phi. apply Rdiv_lt_0_compat; [apply exp_pos|apply sqrt_2PI_pos]. Qed.

Lemma phi_even x : phi (- x) = phi x.
Proof. unfold phi. f_equal. f_equal. field. Qed.

Lemma phi_ex_derive x : ex_derive phi x.
Proof. unfold phi. auto_derive. trivial. Qed.

Lemma phi_cont x : continuous phi x.
Proof. apply (ex_derive_continuous phi). apply phi_ex_derive. Qed.

Lemma phi_derive x : is_derive phi x (- x * phi x).
Proof. unfold phi. pose proof sqrt_2PI_pos. auto_derive; [trivial|]. unfold Rdiv. field. lra. Qed.

Lemma Phi_derive x : is_derive Phi x (phi x).
Proof.
  unfold Phi. replace (phi x) with (0 + phi x) by ring.
  apply (is_derive_plus (fun _ => 1 / 2)); [apply (is_derive_const (1 / 2) x)|].
  apply (is_derive_RInt phi _ 0).
  - apply filter_forall. intros y. apply (@RInt_correct R_CompleteNormedModule). apply ex_RInt_cont, phi_cont.
  - apply phi_cont.
Qed.

Lemma Phi_increasing x y : x < y -> Phi x < Phi y.
Proof.
  intros H. apply (incr_of_derive_pos Phi phi); [assumption| |].
  - intros. apply Phi_derive.
  - intros. apply phi_pos.
Qed.

Lemma Phi_0 : Phi 0 = 1 / 2.
Proof. unfold Phi. rewrite RInt_point. unfold zero; simpl. ring. Qed.

Lemma Phi_sym x : Phi (- x) = 1 - Phi x.
Proof.
  assert (Phi (- x) + Phi x = Phi (- 0) + Phi 0) as E.
  { apply (const_of_derive_zero (fun x => Phi (- x) + Phi x)). intros y _.
    replace 0 with (- phi (- y) + phi y) by (rewrite phi_even; ring).
    apply (is_derive_plus (fun y => Phi (- y)) Phi); [|apply Phi_derive].
    replace (- phi (- y)) with (scal (-1) (phi (- y))) by (unfold scal; simpl; unfold mult; simpl; ring).
    apply (is_derive_comp Phi (fun y => - y)); [apply Phi_derive|].
    auto_derive; [trivial|ring]. }
  rewrite Ropp_0, Phi_0 in E. lra.
Qed.

Lemma Phi_gE x : Phi x = 1 / 2 + gE (x / sqrt 2) / sqrt PI.
Proof.
  assert (0 < sqrt 2) as S2 by (apply sqrt_lt_R0; lra). pose proof sqrt_PI_pos as SP.
  assert (sqrt 2 * sqrt 2 = 2) as SS by (apply sqrt_sqrt; lra).
  set (D := fun x => Phi x - (1 / 2 + gE (x / sqrt 2) / sqrt PI)).
  assert (D x = D 0) as E.
  { apply const_of_derive_zero. intros y _. unfold D.
    replace 0 with (phi y - (0 + (/ sqrt 2 * exp (- (y / sqrt 2 * (y / sqrt 2)))) * / sqrt PI)).
    - apply (is_derive_minus Phi (fun x => 1 / 2 + gE (x / sqrt 2) / sqrt PI)); [apply Phi_derive|].
      apply (is_derive_plus (fun _ => 1 / 2)); [apply (is_derive_const (1 / 2) y)|].
      apply (is_derive_ext (fun x => scal (gE (x / sqrt 2)) (/ sqrt PI))).
      { intros t. reflexivity. }
      apply (is_derive_scal_l (fun x => gE (x / sqrt 2)) y _ (/ sqrt PI)).
      apply (is_derive_comp gE (fun x => x / sqrt 2)); [apply gE_derive|].
      auto_derive; [lra|]. field. lra.
    - unfold phi. rewrite sqrt_mult by (pose proof PI_RGT_0; lra).
      replace (- (y / sqrt 2 * (y / sqrt 2))) with (- (y * y) / 2).
      + field. split; lra.
      + replace 2 with (sqrt 2 * sqrt 2) at 1 by assumption. field. lra. }
  unfold D in E. rewrite Phi_0 in E. replace (0 / sqrt 2) with 0 in E by (unfold Rdiv; ring).
  replace (gE 0) with 0 in E by (unfold gE; rewrite RInt_point; reflexivity).
  unfold Rdiv in *. lra.
Qed.

Lemma Phi_lim_p : is_lim Phi p_infty 1.
Proof.
  assert (0 < sqrt 2) as S2 by (apply sqrt_lt_R0; lra). pose proof sqrt_PI_pos as SP.
  apply (is_lim_ext (fun x => 1 / 2 + gE (x / sqrt 2) * / sqrt PI)).
  { intros x. now rewrite Phi_gE. }
  replace (Finite 1) with (Rbar_plus (1 / 2) (Rbar_mult (sqrt PI / 2) (/ sqrt PI))).
  2:{ simpl. f_equal. field. lra. }
  apply is_lim_plus'; [apply is_lim_const|].
  apply (is_lim_scal_r (fun x => gE (x / sqrt 2)) (/ sqrt PI) p_infty (sqrt PI / 2)).
  apply (is_lim_comp gE (fun x => x / sqrt 2) p_infty _ p_infty).
  - apply gE_lim.
  - apply is_lim_spec. intros M. exists (M * sqrt 2). intros x Hx. simpl.
    apply Rmult_lt_reg_r with (sqrt 2); [assumption|].
    replace (x / sqrt 2 * sqrt 2) with x by (field; lra). assumption.
  - exists 0. intros; discriminate.
Qed.

Lemma Phi_lim_m : is_lim Phi m_infty 0.
Proof.
  apply (is_lim_ext (fun x => 1 - Phi (- x))).
  { intros x. rewrite Phi_sym. ring. }
  replace (Finite 0) with (Rbar_minus 1 1) by (simpl; f_equal; ring).
  apply is_lim_minus'; [apply is_lim_const|].
  apply (is_lim_comp Phi (fun x => - x) m_infty 1 p_infty).
  - apply Phi_lim_p.
  - apply (is_lim_opp (fun x => x) m_infty m_infty). apply is_lim_id.
  - exists 0. intros; discriminate.
Qed.

Lemma Phi_lt_1 x : Phi x < 1.
Proof.
  destruct (Rlt_or_le (Phi x) 1) as [L|L]; [assumption|exfalso].
  pose proof (Phi_increasing x (x + 1) ltac:(lra)) as I.
  pose proof (proj2 (is_lim_spec Phi p_infty 1) Phi_lim_p) as Lm. simpl in Lm.
  assert (0 < Phi (x + 1) - 1) as Hp by lra.
  destruct (Lm (mkposreal _ Hp)) as (M & HM). simpl in HM.
  pose proof (HM (Rmax M (x + 1) + 1)) as H2.
  pose proof (Rmax_l M (x + 1)). pose proof (Rmax_r M (x + 1)).
  specialize (H2 ltac:(lra)). apply Rabs_def2 in H2.
  pose proof (Phi_increasing (x + 1) (Rmax M (x + 1) + 1) ltac:(lra)). lra.
Qed.

Lemma Phi_gt_0 x : 0 < Phi x.
Proof. pose proof (Phi_sym (- x)) as H. rewrite Ropp_involutive in H. pose proof (Phi_lt_1 (- x)). lra. Qed.

Lemma Phi_continuity : continuity Phi.
Proof. apply (is_derive_continuity Phi phi). apply Phi_derive. Qed.

Lemma Phi_lower p : 0 < p -> exists a, Phi a < p.
Proof.
  intros H. pose proof (proj2 (is_lim_spec Phi m_infty 0) Phi_lim_m) as Lm. simpl in Lm.
  destruct (Lm (mkposreal _ H)) as (M & HM). simpl in HM. exists (M - 1).
  specialize (HM (M - 1) ltac:(lra)). apply Rabs_def2 in HM. lra.
Qed.

Lemma Phi_upper p : p < 1 -> exists b, p < Phi b.
Proof.
  intros H. destruct (Phi_lower (1 - p) ltac:(lra)) as (a & Ha).
  exists (- a). rewrite Phi_sym. lra.
Qed.

Lemma Phi_norm_ppf p : 0 < p < 1 -> Phi (norm_ppf p) = p.
Proof.
  intros [H1 H2]. destruct (Phi_lower p H1) as (a & Ha). destruct (Phi_upper p H2) as (b & Hb).
  apply (inverse_of_exists Phi p a b); auto using Phi_continuity, Phi_increasing.
Qed.

Lemma norm_ppf_Phi x : norm_ppf (Phi x) = x.
Proof. apply inverse_of_incr; [apply Phi_increasing|reflexivity]. Qed.

Lemma Phi_le_iff x y : Phi x <= Phi y <-> x <= y.
Proof.
  split; intros H.
  - destruct (Rle_or_lt x y) as [L|L]; [assumption|]. apply Phi_increasing in L. lra.
  - destruct H as [H| ->]; [left; now apply Phi_increasing|lra].
Qed.

Lemma Phi_lt_iff x y : Phi x < Phi y <-> x < y.
Proof.
  split; intros H; [|now apply Phi_increasing].
  destruct (Rlt_or_le x y) as [L|L]; [assumption|]. apply Phi_le_iff in L. lra.
Qed.

Lemma norm_ppf_increasing p q : 0 < p -> p < q -> q < 1 -> norm_ppf p < norm_ppf q.
Proof. intros. apply Phi_lt_iff. rewrite !Phi_norm_ppf; lra. Qed.

Lemma norm_ppf_sym p : 0 < p < 1 -> norm_ppf (1 - p) = - norm_ppf p.
Proof.
  intros H. apply (inverse_of_incr Phi); [apply Phi_increasing|].
  rewrite Phi_sym, Phi_norm_ppf by assumption. reflexivity.
Qed.

Lemma norm_ppf_half : norm_ppf (1 / 2) = 0.
Proof. apply (inverse_of_incr Phi); [apply Phi_increasing|apply Phi_0]. Qed.

Lemma norm_ppf_nonneg p : 1 / 2 <= p < 1 -> 0 <= norm_ppf p.
Proof. intros H. apply Phi_le_iff. rewrite Phi_norm_ppf, Phi_0; lra. Qed.

Lemma norm_ppf_pos p : 1 / 2 < p < 1 -> 0 < norm_ppf p.
Proof. intros H. apply Phi_lt_iff. rewrite Phi_norm_ppf, Phi_0; lra. Qed.

Lemma norm_ppf_neg p : 0 < p < 1 / 2 -> norm_ppf p < 0.
Proof. intros H. apply Phi_lt_iff. rewrite Phi_norm_ppf, Phi_0; lra. Qed.
