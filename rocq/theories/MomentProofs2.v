(** Standard densities, their raw moments, and expectations under location and scale. *)
From Coquelicot Require Import Coquelicot.
From Coq Require Import List Arith Reals Lra Lia.
From Verif Require Import Base RealFacts Gauss Improper Ext DistModel DistSpec DistIntegrals DistProofs PoFProofs2 DistProofs2 DistProofs4 DistProofs5 ExpectSpec Expect MomentModel MomentSpec MomentProofs.
Import ListNotations.
Open Scope R_scope.

Definition std_lo (d : dist) : Rbar := match d with Normal _ _ | Gumbel _ _ => m_infty | _ => 0 end.
Definition std_hi (d : dist) : Rbar := match d with Beta _ _ => 1 | _ => p_infty end.
Definition std_density (d : dist) (y : R) : R :=
  match d with
  | Weibull _ b _ => b * Rpower y (b - 1) * exp (- Rpower y b)
  | Normal _ _ => phi y
  | Lognormal _ s _ => phi (ln y / s) / (s * y)
  | Exponential _ _ => exp (- y)
  | Gamma _ b _ => gamma_kernel b y / gamma_fun b
  | Beta a b => beta_kernel a b y / beta_fun a b
  | Loglogistic _ b _ => b * Rpower y (b - 1) / (1 + Rpower y b) ^ 2
  | Gumbel _ _ => exp (y - exp y)
  end.
Definition exists_moment (d : dist) (n : nat) : Prop := match d with Loglogistic _ b _ => INR n < b | _ => True end.
Definition raw (d : dist) (n : nat) : R :=
  match d with
  | Weibull _ b _ => gamma_fun (1 + INR n / b)
  | Normal _ _ => match n with O => 1 | 1%nat => 0 | 2%nat => 1 | 3%nat => 0 | _ => 3 end
  | Lognormal _ s _ => exp (INR n * INR n * (s * s) / 2)
  | Exponential _ _ => gamma_fun (1 + INR n)
  | Gamma _ b _ => gamma_fun (b + INR n) / gamma_fun b
  | Beta a b => beta_fun (a + INR n) b / beta_fun a b
  | Loglogistic _ b _ => beta_fun (1 + INR n / b) (1 - INR n / b)
  | Gumbel _ _ =>
      let g := euler_gamma in let z := PI * PI / 6 in
      match n with
      | O => 1
      | 1%nat => - g
      | 2%nat => g ^ 2 + z
      | 3%nat => - (g ^ 3 + 3 * g * z + 2 * zeta3)
      | _ => g ^ 4 + 6 * g ^ 2 * z + 8 * g * zeta3 + 3 * z ^ 2 + 6 * (PI ^ 4 / 90)
      end
  end.

Lemma scale_pos d : valid d -> 0 < scale_arg d.
Proof. destruct d; simpl; intros H; try lra; try apply exp_pos. apply Rdiv_lt_0_compat; lra. Qed.
Lemma std_ends d : supp_lo d = image (loc_arg d) (scale_arg d) (std_lo d) /\ supp_hi d = image (loc_arg d) (scale_arg d) (std_hi d).
Proof. destruct d; split; simpl; try reflexivity; f_equal; ring. Qed.
Lemma density_std d x : valid d -> inside d x -> density d x = std_density d ((x - loc_arg d) / scale_arg d) / scale_arg d.
Proof.
  intros V Hx. pose proof (scale_pos d V) as HS.
  assert (between (std_lo d) (std_hi d) ((x - loc_arg d) / scale_arg d)) as B.
  { apply image_between; [assumption|]. destruct (std_ends d) as [<- <-]. exact Hx. }
  unfold density. destruct d; simpl in B |- *; unfold between in B; simpl in B.
  1, 5, 7: destruct Rlt_dec; [lra|]; destruct Req_EM_T; [lra|]; reflexivity.
  - reflexivity.
  - destruct Rle_dec; [lra|]. reflexivity.
  - destruct Rlt_dec; [lra|]. reflexivity.
  - replace ((x - 0) / 1) with x in * by field. destruct Rlt_dec; [lra|]. destruct Rlt_dec; [lra|]. destruct Req_EM_T; [lra|]. destruct Req_EM_T; [lra|]. field. apply Rgt_not_eq, beta_fun_pos; simpl in V; tauto.
  - reflexivity.
Qed.

Lemma expectation_std d g v : valid d -> integral_over (fun y => g (loc_arg d + scale_arg d * y) * std_density d y) (std_lo d) (std_hi d) v -> expectation d g v.
Proof.
  intros V H. pose proof (scale_pos d V) as HS. unfold expectation. pose proof (io_affine (loc_arg d) (scale_arg d) _ _ _ v HS H) as K.
  destruct (std_ends d) as [E1 E2]. rewrite <- E1, <- E2 in K. revert K. apply io_ext. intros x Hx. rewrite density_std by assumption.
  replace (loc_arg d + scale_arg d * ((x - loc_arg d) / scale_arg d)) with x by (field; lra). field. lra.
Qed.

Lemma std_inhabited d : exists x, between (std_lo d) (std_hi d) x.
Proof. exists (1 / 2). destruct d; unfold between; simpl; lra. Qed.

Lemma pow_as_Rpower y n : 0 < y -> y ^ n = Rpower y (INR n).
Proof. intros H. now rewrite Rpower_pow. Qed.

Lemma weibull_raw a b g n : 0 < b -> integral_over (fun y => y ^ n * std_density (Weibull a b g) y) 0 p_infty (raw (Weibull a b g) n).
Proof.
  intros Hb. simpl. assert (0 <= INR n / b) as Hn by (apply Rdiv_le_0_compat; [apply pos_INR|lra]).
  apply (io_ext _ _ (fun y => b * Rpower y (b - 1) * gamma_kernel (1 + INR n / b) (Rpower y b))).
  { intros y Hy. apply (proj1 (between_pos _)) in Hy. unfold gamma_kernel. rewrite Rpower_mult, pow_as_Rpower by assumption.
    replace (b * (1 + INR n / b - 1)) with (INR n) by (field; lra). ring. }
  apply (io_subst 0 p_infty 0 p_infty (fun y => Rpower y b) (fun y => b * Rpower y (b - 1)) (fun u => Rpower u (1 / b))).
  - intros x _. apply (proj2 (between_pos _)), Rpower_gt_0.
  - intros y Hy. apply (proj1 (between_pos _)) in Hy. split; [apply (proj2 (between_pos _)), Rpower_gt_0|]. rewrite Rpower_mult. replace (1 / b * b) with 1 by (field; lra). now apply Rpower_1.
  - intros x y Hx Hy L. apply (proj1 (between_pos _)) in Hx. apply Rle_Rpower_l; lra.
  - intros x Hx. apply (proj1 (between_pos _)) in Hx. now apply is_derive_Rpower_x.
  - intros x Hx. apply (proj1 (between_pos _)) in Hx. apply (continuous_scal_r b (fun y => Rpower y (b - 1))). now apply Rpower_cont.
  - intros y Hy. apply (proj1 (between_pos _)) in Hy. apply gk_cont; [assumption|exact I].
  - apply gamma_io. lra.
Qed.

Lemma exponential_raw l g n : integral_over (fun y => y ^ n * std_density (Exponential l g) y) 0 p_infty (raw (Exponential l g) n).
Proof.
  simpl. pose proof (pos_INR n). apply (io_ext _ _ (gamma_kernel (1 + INR n))); [|apply gamma_io; lra].
  intros y Hy. apply (proj1 (between_pos _)) in Hy. unfold gamma_kernel. rewrite pow_as_Rpower by assumption. replace (1 + INR n - 1) with (INR n) by ring. reflexivity.
Qed.

Lemma gamma_raw a b g n : 0 < b -> integral_over (fun y => y ^ n * std_density (Gamma a b g) y) 0 p_infty (raw (Gamma a b g) n).
Proof.
  intros Hb. simpl. pose proof (pos_INR n). pose proof (gamma_fun_pos b Hb).
  replace (gamma_fun (b + INR n) / gamma_fun b) with (/ gamma_fun b * gamma_fun (b + INR n)) by (field; lra).
  apply (io_ext _ _ (fun y => / gamma_fun b * gamma_kernel (b + INR n) y)); [|apply io_scal, gamma_io; lra].
  intros y Hy. apply (proj1 (between_pos _)) in Hy. unfold gamma_kernel. rewrite pow_as_Rpower by assumption.
  replace (b + INR n - 1) with (INR n + (b - 1)) by ring. rewrite Rpower_plus. field. lra.
Qed.

Lemma beta_raw a b n : 0 < a -> 0 < b -> integral_over (fun y => y ^ n * std_density (DistModel.Beta a b) y) 0 1 (raw (DistModel.Beta a b) n).
Proof.
  intros Ha Hb. simpl. pose proof (pos_INR n). pose proof (beta_fun_pos a b Ha Hb).
  replace (beta_fun (a + INR n) b / beta_fun a b) with (/ beta_fun a b * beta_fun (a + INR n) b) by (field; lra).
  apply (io_ext _ _ (fun y => / beta_fun a b * beta_kernel (a + INR n) b y)); [|apply io_scal, beta_io; lra].
  intros y Hy. apply (proj1 (between_unit _)) in Hy. unfold beta_kernel. rewrite pow_as_Rpower by lra.
  replace (a + INR n - 1) with (INR n + (a - 1)) by ring. rewrite Rpower_plus. field. lra.
Qed.

Lemma loglogistic_raw a b g n : 0 < b -> INR n < b -> integral_over (fun y => y ^ n * std_density (Loglogistic a b g) y) 0 p_infty (raw (Loglogistic a b g) n).
Proof.
  intros Hb Hn. simpl. assert (0 <= INR n / b) as Hn0 by (apply Rdiv_le_0_compat; [apply pos_INR|lra]).
  assert (INR n / b < 1) as Hn1 by (apply (Rmult_lt_reg_r b); [assumption|]; field_simplify; lra).
  set (c := INR n / b) in *.
  assert (forall y, 0 < y -> 0 < Rpower y b / (1 + Rpower y b) < 1) as Hu.
  { intros y _. pose proof (Rpower_gt_0 y b). split; [apply Rdiv_lt_0_compat; lra|]. apply (Rmult_lt_reg_r (1 + Rpower y b)); [lra|]. field_simplify; lra. }
  apply (io_ext _ _ (fun y => b * Rpower y (b - 1) / (1 + Rpower y b) ^ 2 * beta_kernel (1 + c) (1 - c) (Rpower y b / (1 + Rpower y b)))).
  { intros y Hy. apply (proj1 (between_pos _)) in Hy. unfold beta_kernel. pose proof (Rpower_gt_0 y b) as P. specialize (Hu y Hy).
    replace (1 + c - 1) with c by ring. replace (1 - c - 1) with (- c) by ring. rewrite Rpower_Ropp.
    replace (1 - Rpower y b / (1 + Rpower y b)) with (/ (1 + Rpower y b)) by (field; lra).
    assert (Rpower (Rpower y b / (1 + Rpower y b)) c = Rpower (Rpower y b) c * Rpower (/ (1 + Rpower y b)) c) as E.
    { unfold Rdiv. rewrite Rpower_mult_distr; [reflexivity|assumption|apply Rinv_0_lt_compat; lra]. }
    rewrite E, Rpower_mult. replace (b * c) with (INR n) by (unfold c; field; lra). rewrite (pow_as_Rpower y n) by assumption.
    pose proof (Rpower_gt_0 (/ (1 + Rpower y b)) c). field. lra. }
  apply (io_subst 0 p_infty 0 1 (fun y => Rpower y b / (1 + Rpower y b)) (fun y => b * Rpower y (b - 1) / (1 + Rpower y b) ^ 2) (fun u => Rpower (u / (1 - u)) (1 / b))).
  - intros x Hx. apply (proj1 (between_pos _)) in Hx. apply (proj2 (between_unit _)). now apply Hu.
  - intros y Hy. apply (proj1 (between_unit _)) in Hy. split; [apply (proj2 (between_pos _)), Rpower_gt_0|]. rewrite Rpower_mult.
    replace (1 / b * b) with 1 by (field; lra). rewrite Rpower_1 by (apply Rdiv_lt_0_compat; lra). field. lra.
  - intros x y Hx Hy L. apply (proj1 (between_pos _)) in Hx. apply (proj1 (between_pos _)) in Hy. assert (Rpower x b <= Rpower y b) by (apply Rle_Rpower_l; lra).
    pose proof (Rpower_gt_0 x b). pose proof (Rpower_gt_0 y b).
    apply (Rmult_le_reg_r ((1 + Rpower x b) * (1 + Rpower y b))); [nra|]. field_simplify; lra.
  - intros x Hx. apply (proj1 (between_pos _)) in Hx. pose proof (Rpower_gt_0 x b) as P. pose proof (is_derive_Rpower_x b x Hx) as D.
    assert (is_derive (fun w => w / (1 + w)) (Rpower x b) (1 / (1 + Rpower x b) ^ 2)) as Dw by (auto_derive; [lra|field; lra]).
    pose proof (is_derive_comp (fun w => w / (1 + w)) (fun y => Rpower y b) x _ _ Dw D) as K. unfold scal in K; simpl in K; unfold mult in K; simpl in K.
    replace (b * Rpower x (b - 1) / (1 + Rpower x b) ^ 2) with (b * Rpower x (b - 1) * (1 / (1 + Rpower x b) ^ 2)) by (field; lra). exact K.
  - intros x Hx. apply (proj1 (between_pos _)) in Hx. pose proof (Rpower_gt_0 x b) as P.
    apply (continuous_mult (fun y => b * Rpower y (b - 1)) (fun y => / (1 + Rpower y b) ^ 2)).
    + apply (continuous_scal_r b (fun y => Rpower y (b - 1))). now apply Rpower_cont.
    + apply (continuous_comp (fun y => Rpower y b) (fun w => / (1 + w) ^ 2)); [now apply Rpower_cont|].
      apply (ex_derive_continuous (fun w => / (1 + w) ^ 2)). auto_derive. nra.
  - intros y Hy. apply (proj1 (between_unit _)) in Hy. apply bk_cont; simpl; lra.
  - apply beta_io; lra.
Qed.

Lemma limit_hi_lim f lo (v : R) : Rbar_lt lo p_infty -> is_lim f p_infty v -> limit_hi f lo p_infty v.
Proof.
  intros HL H eps He. apply is_lim_spec in H. unfold is_lim' in H. destruct (H (mkposreal eps He)) as [M HM]. destruct lo as [l| |]; [|destruct HL|].
  - exists (Rmax M l + 1). pose proof (Rmax_l M l). pose proof (Rmax_r M l). split; [unfold between; simpl; split; [lra|exact I]|]. intros b _ Hb. apply HM. lra.
  - exists (M + 1). split; [unfold between; simpl; tauto|]. intros b _ Hb. apply HM. lra.
Qed.
Lemma limit_lo_lim f hi (v : R) : Rbar_lt m_infty hi -> is_lim f m_infty v -> limit_lo f m_infty hi v.
Proof.
  intros HL H eps He. apply is_lim_spec in H. unfold is_lim' in H. destruct (H (mkposreal eps He)) as [M HM]. destruct hi as [l| |]; [| |destruct HL].
  - exists (Rmin M l - 1). pose proof (Rmin_l M l). pose proof (Rmin_r M l). split; [unfold between; simpl; split; [exact I|lra]|]. intros b _ Hb. apply HM. lra.
  - exists (M - 1). split; [unfold between; simpl; tauto|]. intros b _ Hb. apply HM. lra.
Qed.

(** ** Normal *)
Lemma phi_small x : 1 <= Rabs x -> Rabs x ^ 3 * phi x <= 216 / Rabs x.
Proof.
  intros H. set (a := Rabs x) in *. assert (x * x = a * a) as E by (unfold a; rewrite <- Rabs_mult, Rabs_right; [ring|nra]).
  assert (phi x <= exp (- (a * a / 2))) as P.
  { unfold phi. replace (- (x * x) / 2) with (- (a * a / 2)) by (rewrite E; lra). pose proof (exp_pos (- (a * a / 2))).
    assert (1 <= sqrt (2 * PI)) by (rewrite <- sqrt_1 at 1; apply sqrt_le_1_alt; pose proof PI2_1; lra).
    apply (Rmult_le_reg_r (sqrt (2 * PI))); [lra|]. field_simplify; [|lra]. nra. }
  assert ((a * a / 6) ^ 3 <= exp (a * a / 2)) as Q.
  { replace (a * a / 2) with (a * a / 6 + a * a / 6 + a * a / 6) by lra. rewrite !exp_plus. pose proof (exp_ge_1_plus (a * a / 6)).
    assert (0 <= a * a / 6) by nra. simpl. rewrite Rmult_1_r. rewrite <- Rmult_assoc. apply Rmult_le_compat; [nra|nra| |lra]. apply Rmult_le_compat; lra. }
  assert (0 < exp (a * a / 2)) by apply exp_pos. rewrite exp_Ropp in P.
  assert (a ^ 3 * / exp (a * a / 2) <= 216 / a) as T.
  { assert (0 < (a * a / 6) ^ 3) by (apply pow_lt; nra). assert (/ exp (a * a / 2) <= / (a * a / 6) ^ 3) as T1 by (apply Rinv_le_contravar; assumption).
    apply Rle_trans with (a ^ 3 * / (a * a / 6) ^ 3); [apply Rmult_le_compat_l; [apply pow_le; lra|assumption]|].
    replace (a ^ 3 * / (a * a / 6) ^ 3) with (216 / a * / (a * a)) by (field; lra).
    assert (0 < 216 / a) by (apply Rdiv_lt_0_compat; lra). assert (/ (a * a) <= 1) by (rewrite <- Rinv_1; apply Rinv_le_contravar; nra). nra. }
  assert (0 < a ^ 3) by (apply pow_lt; lra). nra.
Qed.
Lemma phi_small_k x k : (k <= 3)%nat -> 1 <= Rabs x -> Rabs (x ^ k * phi x) <= 216 / Rabs x.
Proof.
  intros Hk H. rewrite Rabs_mult, (Rabs_right (phi x)) by (left; apply phi_pos). rewrite <- RPow_abs.
  apply Rle_trans with (Rabs x ^ 3 * phi x); [|now apply phi_small]. apply Rmult_le_compat_r; [left; apply phi_pos|]. now apply Rle_pow.
Qed.
Lemma phi_vanish k : (k <= 3)%nat -> limit_lo (fun x => x ^ k * phi x) m_infty p_infty 0 /\ limit_hi (fun x => x ^ k * phi x) m_infty p_infty 0.
Proof.
  intros Hk. split; intros eps He; [exists (- Rmax 1 (216 / eps + 1))|exists (Rmax 1 (216 / eps + 1))]; (split; [apply between_all|]); intros x _ Hx;
    pose proof (Rmax_l 1 (216 / eps + 1)); pose proof (Rmax_r 1 (216 / eps + 1)); rewrite Rminus_0_r;
    assert (0 < 216 / eps) by (apply Rdiv_lt_0_compat; lra);
    assert (216 / eps < Rabs x /\ 1 <= Rabs x) as [A B] by (unfold Rabs; destruct Rcase_abs; lra);
    (apply Rle_lt_trans with (1 := phi_small_k x k Hk B)); (apply (Rmult_lt_reg_r (Rabs x)); [lra|]);
    replace (216 / Rabs x * Rabs x) with 216 by (field; lra); apply (Rmult_lt_compat_l eps) in A; try assumption;
    replace (eps * (216 / eps)) with 216 in A by (field; lra); lra.
Qed.
Lemma limit_lo_lin H K lo hi u v c k : limit_lo H lo hi u -> limit_lo K lo hi v -> limit_lo (fun x => c * H x + k * K x) lo hi (c * u + k * v).
Proof.
  intros A B eps He. set (e := eps / (Rabs c + Rabs k + 1)). pose proof (Rabs_pos c). pose proof (Rabs_pos k).
  assert (0 < e) as He' by (apply Rdiv_lt_0_compat; lra). destruct (A e He') as (a & Ia & FA), (B e He') as (b & Ib & FB).
  exists (Rmin a b). split; [now apply between_min|]. intros x Hx Lx. pose proof (Rmin_l a b). pose proof (Rmin_r a b).
  specialize (FA x Hx ltac:(lra)). specialize (FB x Hx ltac:(lra)).
  replace (c * H x + k * K x - (c * u + k * v)) with (c * (H x - u) + k * (K x - v)) by ring. apply Rle_lt_trans with (1 := Rabs_triang _ _). rewrite !Rabs_mult.
  assert (Rabs c * Rabs (H x - u) <= Rabs c * e) by (apply Rmult_le_compat_l; lra). assert (Rabs k * Rabs (K x - v) <= Rabs k * e) by (apply Rmult_le_compat_l; lra).
  assert ((Rabs c + Rabs k + 1) * e = eps) by (unfold e; field; lra). nra.
Qed.
Lemma limit_hi_lin H K lo hi u v c k : limit_hi H lo hi u -> limit_hi K lo hi v -> limit_hi (fun x => c * H x + k * K x) lo hi (c * u + k * v).
Proof.
  intros A B eps He. set (e := eps / (Rabs c + Rabs k + 1)). pose proof (Rabs_pos c). pose proof (Rabs_pos k).
  assert (0 < e) as He' by (apply Rdiv_lt_0_compat; lra). destruct (A e He') as (a & Ia & FA), (B e He') as (b & Ib & FB).
  exists (Rmax a b). split; [now apply between_max|]. intros x Hx Lx. pose proof (Rmax_l a b). pose proof (Rmax_r a b).
  specialize (FA x Hx ltac:(lra)). specialize (FB x Hx ltac:(lra)).
  replace (c * H x + k * K x - (c * u + k * v)) with (c * (H x - u) + k * (K x - v)) by ring. apply Rle_lt_trans with (1 := Rabs_triang _ _). rewrite !Rabs_mult.
  assert (Rabs c * Rabs (H x - u) <= Rabs c * e) by (apply Rmult_le_compat_l; lra). assert (Rabs k * Rabs (K x - v) <= Rabs k * e) by (apply Rmult_le_compat_l; lra).
  assert ((Rabs c + Rabs k + 1) * e = eps) by (unfold e; field; lra). nra.
Qed.
Lemma limit_lo_ext H K lo hi u v : (forall x, H x = K x) -> u = v -> limit_lo H lo hi u -> limit_lo K lo hi v.
Proof. intros E -> A eps He. destruct (A eps He) as (a & Ia & F). exists a. split; [assumption|]. intros x Hx L. rewrite <- E. now apply F. Qed.
Lemma limit_hi_ext H K lo hi u v : (forall x, H x = K x) -> u = v -> limit_hi H lo hi u -> limit_hi K lo hi v.
Proof. intros E -> A eps He. destruct (A eps He) as (a & Ia & F). exists a. split; [assumption|]. intros x Hx L. rewrite <- E. now apply F. Qed.

Lemma pow_phi_derive k x : is_derive (fun t => t ^ k * phi t) x ((INR k * x ^ pred k - x ^ S k) * phi x).
Proof.
  assert (is_derive (fun t => t ^ k) x (INR k * x ^ pred k)) as D1 by (auto_derive; [exact I|ring]).
  pose proof (is_derive_mult (fun t => t ^ k) phi x _ _ D1 (phi_derive x) Rmult_comm) as D. unfold mult, plus in D; simpl in D.
  replace ((INR k * x ^ pred k - x ^ S k) * phi x) with (INR k * x ^ pred k * phi x + x ^ k * (- x * phi x)) by (simpl; ring). exact D.
Qed.
Lemma pow_phi_cont k x : continuous (fun t => t ^ k * phi t) x.
Proof. apply (ex_derive_continuous (fun t => t ^ k * phi t)). eexists. apply pow_phi_derive. Qed.
Lemma phi_rec k : (k <= 3)%nat -> integral_over (fun t => (INR k * t ^ pred k - t ^ S k) * phi t) m_infty p_infty 0.
Proof.
  intros Hk. replace 0 with (0 - 0) by ring. destruct (phi_vanish k Hk) as [A B]. apply (io_antider _ _ _ (fun t => t ^ k * phi t)); [| |assumption|assumption].
  - intros x _. apply pow_phi_derive.
  - intros x _. apply (continuous_ext (fun t => INR k * (t ^ pred k * phi t) + - 1 * (t ^ S k * phi t))); [intros t; as_R; ring|].
    apply (continuous_plus (fun t => INR k * (t ^ pred k * phi t)) (fun t => - 1 * (t ^ S k * phi t)));
      [apply (continuous_scal_r (INR k) (fun t => t ^ pred k * phi t))|apply (continuous_scal_r (- 1) (fun t => t ^ S k * phi t))]; apply pow_phi_cont.
Qed.
Lemma phi_total : integral_over phi m_infty p_infty 1.
Proof.
  replace 1 with (1 - 0) by ring. apply (io_antider _ _ _ Phi).
  - intros x _. apply Phi_derive.
  - intros x _. apply phi_cont.
  - apply limit_lo_lim; [exact I|apply Phi_lim_m].
  - apply limit_hi_lim; [exact I|apply Phi_lim_p].
Qed.
Lemma phi_step k v : (k <= 3)%nat -> integral_over (fun t => t ^ pred k * phi t) m_infty p_infty v -> integral_over (fun t => t ^ S k * phi t) m_infty p_infty (INR k * v).
Proof.
  intros Hk H. replace (INR k * v) with (INR k * v + - 1 * 0) by ring.
  apply (io_ext _ _ (fun t => INR k * (t ^ pred k * phi t) + - 1 * ((INR k * t ^ pred k - t ^ S k) * phi t))); [intros; ring|].
  apply io_plus; apply io_scal; [assumption|now apply phi_rec].
Qed.
Lemma normal_raw m s n : (n <= 4)%nat -> integral_over (fun y => y ^ n * std_density (Normal m s) y) m_infty p_infty (raw (Normal m s) n).
Proof.
  intros Hn. cbn [std_density raw].
  assert (integral_over (fun t => t ^ 0 * phi t) m_infty p_infty 1) as M0 by (apply (io_ext _ _ phi); [intros; simpl; ring|apply phi_total]).
  assert (integral_over (fun t => t ^ 1 * phi t) m_infty p_infty 0) as M1.
  { pose proof (phi_step 0 1 ltac:(lia) M0) as K. now rewrite Rmult_0_l in K. }
  assert (integral_over (fun t => t ^ 2 * phi t) m_infty p_infty 1) as M2.
  { pose proof (phi_step 1 1 ltac:(lia) M0) as K. now rewrite Rmult_1_l in K. }
  assert (integral_over (fun t => t ^ 3 * phi t) m_infty p_infty 0) as M3.
  { pose proof (phi_step 2 0 ltac:(lia) M1) as K. now rewrite Rmult_0_r in K. }
  assert (integral_over (fun t => t ^ 4 * phi t) m_infty p_infty 3) as M4.
  { pose proof (phi_step 3 1 ltac:(lia) M2) as K. replace (INR 3 * 1) with 3 in K by (simpl; ring). exact K. }
  destruct n as [|[|[|[|[|n]]]]]; try assumption. lia.
Qed.

(** ** Lognormal *)
Lemma lognormal_raw m s g n : 0 < s -> integral_over (fun y => y ^ n * std_density (Lognormal m s g) y) 0 p_infty (raw (Lognormal m s g) n).
Proof.
  intros Hs. cbn [std_density raw]. set (E := exp (INR n * INR n * (s * s) / 2)). assert (0 < E) as HE by apply exp_pos.
  replace E with (E * 1 - E * 0) at 1 by ring.
  assert (forall y, 0 < y -> y ^ n * (phi (ln y / s) / (s * y)) = E * phi (ln y / s - INR n * s) / (s * y)) as EQ.
  { intros y Hy. rewrite pow_as_Rpower by assumption. unfold Rpower, phi, E. pose proof sqrt_2PI_pos.
    assert (exp (INR n * ln y) * exp (- (ln y / s * (ln y / s)) / 2) = exp (INR n * INR n * (s * s) / 2) * exp (- ((ln y / s - INR n * s) * (ln y / s - INR n * s)) / 2)) as K.
    { rewrite <- !exp_plus. f_equal. field. lra. }
    transitivity (exp (INR n * ln y) * exp (- (ln y / s * (ln y / s)) / 2) / (sqrt (2 * PI) * (s * y))); [field; repeat split; lra|]. rewrite K. field. repeat split; lra. }
  assert (forall x, 0 < x -> is_derive (fun y => ln y / s - INR n * s) x (1 / (s * x))) as DU.
  { intros x Hx. auto_derive; [lra|]. field. lra. }
  apply (io_antider _ _ _ (fun y => E * Phi (ln y / s - INR n * s))).
  - intros x Hx. apply (proj1 (between_pos _)) in Hx. rewrite EQ by assumption.
    pose proof (is_derive_comp Phi (fun y => ln y / s - INR n * s) x _ _ (Phi_derive _) (DU x Hx)) as D.
    pose proof (is_derive_scal _ x E _ D) as D'. unfold scal in D'; simpl in D'; unfold mult in D'; simpl in D'.
    replace (E * phi (ln x / s - INR n * s) / (s * x)) with (E * (1 / (s * x) * phi (ln x / s - INR n * s))) by (field; lra). exact D'.
  - intros x Hx. apply (proj1 (between_pos _)) in Hx.
    apply (continuous_mult (fun y => y ^ n) (fun y => phi (ln y / s) / (s * y))).
    + apply (ex_derive_continuous (fun y => y ^ n)). auto_derive. exact I.
    + apply (continuous_mult (fun y => phi (ln y / s)) (fun y => / (s * y))).
      * apply (continuous_comp (fun y => ln y / s) phi); [|apply phi_cont]. apply (ex_derive_continuous (fun y => ln y / s)). auto_derive. assumption.
      * apply (ex_derive_continuous (fun y => / (s * y))). auto_derive. nra.
  - intros eps He. destruct (Phi_lower (Rmin (1 / 2) (eps / E))) as [z Hz]; [apply Rmin_glb_lt; [lra|]; apply Rdiv_lt_0_compat; lra|].
    exists (exp (s * (z + INR n * s))). split; [apply (proj2 (between_pos _)), exp_pos|]. intros y Hy Ly. apply (proj1 (between_pos _)) in Hy.
    assert (ln y / s - INR n * s <= z) as L.
    { apply ln_le in Ly; [|assumption]. rewrite ln_exp in Ly. apply (Rmult_le_reg_l s); [assumption|]. replace (s * (ln y / s - INR n * s)) with (ln y - s * (INR n * s)) by (field; lra). lra. }
    apply Phi_le_iff in L. pose proof (Phi_gt_0 (ln y / s - INR n * s)). pose proof (Rmin_r (1 / 2) (eps / E)).
    assert (E * Phi (ln y / s - INR n * s) < E * (eps / E)) as K by (apply Rmult_lt_compat_l; lra). replace (E * (eps / E)) with eps in K by (field; lra). apply Rabs_def1; nra.
  - intros eps He. destruct (Phi_upper (1 - Rmin (1 / 2) (eps / E))) as [z Hz].
    { assert (0 < Rmin (1 / 2) (eps / E)) by (apply Rmin_glb_lt; [lra|]; apply Rdiv_lt_0_compat; lra). lra. }
    exists (exp (s * (z + INR n * s))). split; [apply (proj2 (between_pos _)), exp_pos|]. intros y Hy Ly. apply (proj1 (between_pos _)) in Hy.
    assert (z <= ln y / s - INR n * s) as L.
    { apply ln_le in Ly; [|apply exp_pos]. rewrite ln_exp in Ly. apply (Rmult_le_reg_l s); [assumption|]. replace (s * (ln y / s - INR n * s)) with (ln y - s * (INR n * s)) by (field; lra). lra. }
    apply Phi_le_iff in L. pose proof (Phi_lt_1 (ln y / s - INR n * s)). pose proof (Rmin_r (1 / 2) (eps / E)).
    assert (E * (1 - Phi (ln y / s - INR n * s)) < E * (eps / E)) as K by (apply Rmult_lt_compat_l; lra). replace (E * (eps / E)) with eps in K by (field; lra). apply Rabs_def1; nra.
Qed.
