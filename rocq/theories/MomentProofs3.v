(** The reported statistics are the moments. *)
From Coquelicot Require Import Coquelicot.
From Coq Require Import List Arith Reals Lra Lia.
From Verif Require Import Base RealFacts Gauss Improper Ext DistModel DistSpec DistIntegrals DistProofs PoFProofs2 DistProofs2 FitProofs2 DistProofs4 DistProofs5 ExpectSpec Expect MomentModel MomentSpec MomentProofs MomentProofs2.
Import ListNotations.
Open Scope R_scope.

Definition not_gumbel (d : dist) : Prop := match d with Gumbel _ _ => False | _ => True end.

Lemma raw_moment d n : valid d -> not_gumbel d -> (n <= 4)%nat -> exists_moment d n ->
  integral_over (fun y => y ^ n * std_density d y) (std_lo d) (std_hi d) (raw d n).
Proof.
  intros V G Hn E. destruct d; simpl in V; try (now destruct G).
  - now apply weibull_raw.
  - now apply normal_raw.
  - now apply lognormal_raw.
  - apply exponential_raw.
  - now apply gamma_raw.
  - now apply beta_raw.
  - now apply loglogistic_raw.
Qed.
(** The raw moments are what [raw] says. *)
Definition moments_there (d : dist) : Prop := forall n, (n <= 4)%nat -> exists_moment d n ->
  integral_over (fun y => y ^ n * std_density d y) (std_lo d) (std_hi d) (raw d n).
Lemma moments_of d : valid d -> not_gumbel d -> moments_there d.
Proof. intros V G n Hn E. now apply raw_moment. Qed.
Lemma exists_le d i n : (i <= n)%nat -> exists_moment d n -> exists_moment d i.
Proof. destruct d; simpl; try tauto. intros H. apply le_INR in H. lra. Qed.

Lemma poly_expectation d ks g : valid d -> moments_there d -> (length ks <= 5)%nat -> exists_moment d (pred (length ks)) ->
  (forall y, g (loc_arg d + scale_arg d * y) = peval ks y) -> expectation d g (pdot ks (raw d)).
Proof.
  intros V G L E H. apply expectation_std; [assumption|].
  apply (io_ext _ _ (fun y => peval ks y * std_density d y)); [intros y _; now rewrite H|].
  apply io_poly; [apply std_inhabited|]. intros i Hi. apply G; [lia|]. apply (exists_le d i (pred (length ks))); [lia|assumption].
Qed.

Lemma raw_0 d : valid d -> raw d 0 = 1.
Proof.
  intros V. destruct d; simpl in *; try reflexivity.
  - replace (1 + 0 / beta) with 1 by (field; lra). apply gamma_fun_1.
  - replace (0 * 0 * (sigma * sigma) / 2) with 0 by field. apply exp_0.
  - rewrite Rplus_0_r. apply gamma_fun_1.
  - rewrite Rplus_0_r. pose proof (gamma_fun_pos beta ltac:(lra)). field. lra.
  - rewrite Rplus_0_r. pose proof (beta_fun_pos alpha beta ltac:(lra) ltac:(lra)). field. lra.
  - replace (1 + 0 / beta) with 1 by (field; lra). replace (1 - 0 / beta) with 1 by (field; lra). apply beta_fun_11.
Qed.

(** A positive integrand has a positive integral. *)
Lemma io_positive lo hi h v c : (forall x, between lo hi x -> x <> c -> 0 < h x) -> (forall x, between lo hi x -> 0 <= h x) ->
  (forall x, between lo hi x -> continuous h x) -> (exists x y, between lo hi x /\ between lo hi y /\ x < y) -> integral_over h lo hi v -> 0 < v.
Proof.
  intros P NN C (x & y & Hx & Hy & L) H.
  assert (exists u w, between lo hi u /\ between lo hi w /\ u < w /\ forall t, u < t < w -> t <> c) as (u & w & Hu & Hw & Luw & Hc).
  { destruct (Rle_lt_dec c ((x + y) / 2)).
    - exists ((x + y) / 2), y. split; [apply (between_mid lo hi x y); try assumption; lra|]. split; [assumption|]. split; [lra|]. intros t Ht. lra.
    - exists x, ((x + y) / 2). split; [assumption|]. split; [apply (between_mid lo hi x y); try assumption; lra|]. split; [lra|]. intros t Ht. lra. }
  apply Rlt_le_trans with (RInt h u w); [|apply (io_nonneg_bound lo hi h v NN C H u w Hu Hw); lra].
  apply RInt_gt_0; [assumption| |].
  - intros t Ht. apply P; [apply (between_mid lo hi u w); try assumption; lra|now apply Hc].
  - intros t Ht. apply C. now apply (between_mid lo hi u w).
Qed.

Lemma two_inside d : valid d -> exists x y, inside d x /\ inside d y /\ x < y.
Proof. intros V. destruct (cdf_close d (1 / 4) V ltac:(lra)) as (a & b & Ha & Hb & L & _). eauto. Qed.
Lemma density_facts d x : valid d -> inside d x -> 0 < density d x /\ continuous (density d) x.
Proof. intros V Hx. split; [apply (pdf_real_spec d V x Hx)|exact (pdf_cont d x V Hx)]. Qed.

Lemma second_moment d c : valid d -> moments_there d -> exists_moment d 2 ->
  expectation d (fun x => (x - (loc_arg d + scale_arg d * c)) ^ 2) (scale_arg d * scale_arg d * (raw d 2 - 2 * c * raw d 1 + c * c)).
Proof.
  intros V G E. set (S := scale_arg d). replace (S * S * (raw d 2 - 2 * c * raw d 1 + c * c)) with (pdot [S * S * (c * c); - 2 * S * S * c; S * S] (raw d)).
  - apply poly_expectation; try assumption; [simpl; lia|]. intros y. simpl. fold S. ring.
  - simpl. rewrite raw_0 by assumption. ring.
Qed.
Lemma mu2_pos d : valid d -> moments_there d -> exists_moment d 2 -> 0 < raw d 2 - raw d 1 * raw d 1.
Proof.
  intros V G E. pose proof (second_moment d (raw d 1) V G E) as H. pose proof (scale_pos d V) as HS.
  assert (0 < scale_arg d * scale_arg d * (raw d 2 - 2 * raw d 1 * raw d 1 + raw d 1 * raw d 1)) as P.
  { apply (io_positive _ _ _ _ (loc_arg d + scale_arg d * raw d 1)) with (5 := H).
    - intros x Hx N. destruct (density_facts d x V Hx). apply Rmult_lt_0_compat; [|assumption]. rewrite <- Rsqr_pow2. apply Rsqr_pos_lt. lra.
    - intros x Hx. destruct (density_facts d x V Hx). apply Rmult_le_pos; [|lra]. apply pow2_ge_0.
    - intros x Hx. apply (continuous_mult (fun x => (x - (loc_arg d + scale_arg d * raw d 1)) ^ 2) (density d)); [|now apply density_facts].
      apply (ex_derive_continuous (fun x => (x - (loc_arg d + scale_arg d * raw d 1)) ^ 2)). auto_derive. exact I.
    - destruct (two_inside d V) as (x & y & ? & ? & ?). exists x, y. auto. }
  assert (0 < scale_arg d * scale_arg d) by nra. nra.
Qed.

(** Raw moments of Gamma, Exponential, Beta and Lognormal in closed form. *)
Lemma gamma_at b n : 0 < b -> gamma_fun (b + INR (S n)) = (b + INR n) * gamma_fun (b + INR n).
Proof. intros Hb. pose proof (pos_INR n). rewrite S_INR. replace (b + (INR n + 1)) with (b + INR n + 1) by ring. apply gamma_rec. lra. Qed.
Lemma beta_at a b n : 0 < a -> 0 < b -> beta_fun (a + INR (S n)) b = (a + INR n) / (a + INR n + b) * beta_fun (a + INR n) b.
Proof. intros Ha Hb. pose proof (pos_INR n). rewrite S_INR. replace (a + (INR n + 1)) with (a + INR n + 1) by ring. apply beta_rec; lra. Qed.
Lemma gamma_raws b : 0 < b -> gamma_fun (b + INR 1) = b * gamma_fun b /\ gamma_fun (b + INR 2) = b * (b + 1) * gamma_fun b /\
  gamma_fun (b + INR 3) = b * (b + 1) * (b + 2) * gamma_fun b /\ gamma_fun (b + INR 4) = b * (b + 1) * (b + 2) * (b + 3) * gamma_fun b.
Proof. intros Hb. rewrite !gamma_at by assumption. replace (b + INR 0) with b by (simpl; ring). simpl. repeat split; ring. Qed.
Lemma beta_raws a b : 0 < a -> 0 < b -> beta_fun (a + INR 1) b = a / (a + b) * beta_fun a b /\
  beta_fun (a + INR 2) b = a * (a + 1) / ((a + b) * (a + b + 1)) * beta_fun a b /\
  beta_fun (a + INR 3) b = a * (a + 1) * (a + 2) / ((a + b) * (a + b + 1) * (a + b + 2)) * beta_fun a b /\
  beta_fun (a + INR 4) b = a * (a + 1) * (a + 2) * (a + 3) / ((a + b) * (a + b + 1) * (a + b + 2) * (a + b + 3)) * beta_fun a b.
Proof.
  intros Ha Hb. rewrite !beta_at by assumption. replace (a + INR 0) with a by (simpl; ring). simpl. repeat split; field; repeat split; lra.
Qed.
Lemma pow_exp x n : exp x ^ n = exp (INR n * x).
Proof. induction n; [simpl; now rewrite Rmult_0_l, exp_0|]. rewrite <- tech_pow_Rmult, IHn, S_INR, <- exp_plus. f_equal. ring. Qed.

(** What scipy's formulas say about the raw moments. *)
Record std_right (d : dist) : Prop := {
  R1 : exists_moment d 1 -> s_mu (scipy_std d) = raw d 1;
  R2 : exists_moment d 2 -> s_mu2 (scipy_std d) = raw d 2 - raw d 1 * raw d 1;
  R3 : exists_moment d 3 -> s_g1 (scipy_std d) * sqrt (raw d 2 - raw d 1 * raw d 1) ^ 3 = raw d 3 - 3 * raw d 1 * raw d 2 + 2 * raw d 1 ^ 3;
  R4 : exists_moment d 4 -> (s_g2 (scipy_std d) + 3) * (raw d 2 - raw d 1 * raw d 1) ^ 2 = raw d 4 - 4 * raw d 1 * raw d 3 + 6 * raw d 1 ^ 2 * raw d 2 - 3 * raw d 1 ^ 4
}.
Lemma from_raw_right d : valid d -> not_gumbel d -> scipy_std d = from_raw (raw d 1) (raw d 2) (raw d 3) (raw d 4) -> std_right d.
Proof.
  intros V G E. assert (exists_moment d 2 -> 0 < raw d 2 - raw d 1 * raw d 1) as P by (apply mu2_pos; [assumption|now apply moments_of]).
  split; intros X; rewrite E; unfold from_raw; cbn [s_mu s_mu2 s_g1 s_g2]; try reflexivity.
  - specialize (P (exists_le d 2 3 ltac:(lia) X)). set (v := raw d 2 - raw d 1 * raw d 1) in *.
    replace (Rpower v (3 / 2)) with (sqrt v ^ 3).
    + pose proof (sqrt_lt_R0 v P). field_simplify; [|lra]. unfold v. ring.
    + replace (3 / 2) with (/ 2 * INR 3) by (simpl; field). rewrite <- Rpower_mult, Rpower_sqrt, Rpower_pow by (try apply sqrt_lt_R0; assumption). reflexivity.
  - specialize (P (exists_le d 2 4 ltac:(lia) X)). set (v := raw d 2 - raw d 1 * raw d 1) in *. field_simplify; [|lra]. unfold v. ring.
Qed.

Lemma scipy_right d : valid d -> not_gumbel d -> std_right d.
Proof.
  intros V G. destruct d; try (now destruct G).
  - apply from_raw_right; [assumption|exact I|]. unfold scipy_std. cbn [raw]. f_equal; f_equal; f_equal; simpl; field; simpl in V; lra.
  - split; intros _; cbn [scipy_std s_mu s_mu2 s_g1 s_g2 raw]; ring.
  - (* Lognormal *)
    simpl in V. destruct V as [Hs _]. set (r := exp (sigma * sigma / 2)).
    assert (1 < r) as Hr by (unfold r; rewrite <- exp_0; apply exp_increasing; nra).
    assert (exp (sigma * sigma) = r ^ 2) as Ep by (unfold r; rewrite pow_exp; f_equal; simpl; field).
    assert (raw (Lognormal mu sigma gamma) 1 = r) as M1 by (cbn [raw]; unfold r; f_equal; simpl; field).
    assert (raw (Lognormal mu sigma gamma) 2 = r ^ 4) as M2 by (cbn [raw]; unfold r; rewrite pow_exp; f_equal; simpl; field).
    assert (raw (Lognormal mu sigma gamma) 3 = r ^ 9) as M3 by (cbn [raw]; unfold r; rewrite pow_exp; f_equal; simpl; field).
    assert (raw (Lognormal mu sigma gamma) 4 = r ^ 16) as M4 by (cbn [raw]; unfold r; rewrite pow_exp; f_equal; simpl; field).
    clearbody r. split; intros _; rewrite ?M1, ?M2, ?M3, ?M4; unfold scipy_std; rewrite Ep; cbn [s_mu s_mu2 s_g1 s_g2].
    + rewrite sqrt_pow2; lra.
    + ring.
    + assert (0 < r ^ 2 - 1) as P by nra. replace (r ^ 4 - r * r) with (r ^ 2 * (r ^ 2 - 1)) by ring. rewrite sqrt_mult, sqrt_pow2 by nra.
      pose proof (sqrt_sqrt (r ^ 2 - 1) ltac:(lra)) as Q. set (q := sqrt (r ^ 2 - 1)) in *.
      replace (q * (2 + r ^ 2) * (r * q) ^ 3) with ((q * q) ^ 2 * (2 + r ^ 2) * r ^ 3) by ring. rewrite Q. ring.
    + ring.
  - (* Exponential *)
    destruct (gamma_raws 1 ltac:(lra)) as (E1 & E2 & E3 & E4). rewrite gamma_fun_1 in E1, E2, E3, E4.
    split; intros _; cbn [scipy_std s_mu s_mu2 s_g1 s_g2 raw]; rewrite ?E1, ?E2, ?E3, ?E4; try ring.
    replace (1 * (1 + 1) * 1 - 1 * 1 * (1 * 1)) with 1 by ring. rewrite sqrt_1. ring.
  - (* Gamma *)
    simpl in V. assert (0 < beta) as Hb by lra. destruct (gamma_raws beta Hb) as (E1 & E2 & E3 & E4). pose proof (gamma_fun_pos beta Hb) as P.
    assert (forall k, k * gamma_fun beta / gamma_fun beta = k) as C by (intros; field; lra).
    split; intros _; cbn [scipy_std s_mu s_mu2 s_g1 s_g2 raw]; rewrite ?E1, ?E2, ?E3, ?E4, ?C; try ring.
    + replace (beta * (beta + 1) - beta * beta) with beta by ring. pose proof (sqrt_sqrt beta ltac:(lra)) as Q. pose proof (sqrt_lt_R0 beta Hb).
      set (q := sqrt beta) in *. replace (2 / q * q ^ 3) with (2 * (q * q)) by (field; lra). rewrite Q. ring.
    + field. lra.
  - (* Beta *)
    simpl in V. destruct V as [Ha Hb]. destruct (beta_raws alpha beta Ha Hb) as (E1 & E2 & E3 & E4). pose proof (beta_fun_pos alpha beta Ha Hb) as P.
    assert (forall k, k * beta_fun alpha beta / beta_fun alpha beta = k) as C by (intros; field; lra).
    split; intros _; cbn [scipy_std s_mu s_mu2 s_g1 s_g2 raw]; rewrite ?E1, ?E2, ?E3, ?E4, ?C.
    + reflexivity.
    + field. lra.
    + set (s := alpha + beta). assert (0 < s) as Hs by (unfold s; lra).
      replace (alpha * (alpha + 1) / (s * (s + 1)) - alpha / s * (alpha / s)) with ((alpha * beta) / (s * s * (s + 1))) by (unfold s; field; lra).
      assert (0 < alpha * beta) as Hab by nra. rewrite sqrt_div_alt, (sqrt_mult (s * s)), (sqrt_square s) by nra.
      pose proof (sqrt_sqrt (alpha * beta) ltac:(lra)) as Q1. pose proof (sqrt_sqrt (s + 1) ltac:(lra)) as Q2.
      pose proof (sqrt_lt_R0 (alpha * beta) Hab). pose proof (sqrt_lt_R0 (s + 1) ltac:(lra)).
      set (p := sqrt (alpha * beta)) in *. set (q := sqrt (s + 1)) in *.
      replace (2 * (beta - alpha) * q / ((s + 2) * p) * (p / (s * q)) ^ 3) with (2 * (beta - alpha) * (p * p) / ((s + 2) * s ^ 3 * (q * q))) by (field; lra).
      rewrite Q1, Q2. unfold s. field. lra.
    + field. lra.
  - apply from_raw_right; [assumption|exact I|]. unfold scipy_std. cbn [raw].
    f_equal; rewrite beta_fun_sym; f_equal; f_equal; simpl; field; simpl in V; lra.
Qed.
