(** The class attributes as moments; moments that do not exist. *)
From Coquelicot Require Import Coquelicot.
From Coq Require Import List Arith Reals Lra Lia.
From Verif Require Import Base RealFacts Gauss Improper Ext DistModel DistSpec DistIntegrals DistProofs PoFProofs2 DistProofs2 FitProofs2 DistProofs4 DistProofs5 ExpectSpec Expect MomentModel MomentSpec MomentProofs MomentProofs2 MomentProofs3.
Import ListNotations.
Open Scope R_scope.

Lemma Rpower_half v : 0 < v -> Rpower v (1 / 2) = sqrt v.
Proof. intros H. rewrite <- Rpower_sqrt by assumption. f_equal. field. Qed.

Lemma mean_eq d : mean d = if reported d 1 then Some (scipy_mean d) else None.
Proof. destruct d; try reflexivity. simpl. f_equal. unfold scipy_mean. simpl. ring. Qed.
Lemma variance_eq d : variance d = if reported d 2 then Some (scipy_var d) else None.
Proof. destruct d; try reflexivity. simpl. f_equal. unfold scipy_var. simpl. ring. Qed.
Lemma sd_eq d : valid d -> standard_deviation d = if reported d 2 then Some (Rpower (scipy_var d) (1 / 2)) else None.
Proof.
  intros V. destruct d; try reflexivity. simpl in *. f_equal. unfold scipy_var. simpl. rewrite Rpower_half by nra.
  replace (1 * sigma * sigma) with (sigma * sigma) by ring. symmetry. apply sqrt_square. lra.
Qed.
Lemma skewness_eq d : skewness d = if reported d 3 then Some (scipy_skew d) else None.
Proof. destruct d; reflexivity. Qed.
Lemma excess_eq d : excess_kurtosis d = if reported d 4 then Some (scipy_kurt d) else None.
Proof. destruct d; reflexivity. Qed.
Lemma kurtosis_eq d : kurtosis d = if reported d 4 then Some (scipy_kurt d + 3) else None.
Proof. destruct d; try reflexivity. simpl. f_equal. unfold scipy_kurt. simpl. ring. Qed.
Lemma reported_exists d n : reported d (INR n) = true <-> exists_moment d n.
Proof. destruct d; simpl; try tauto. destruct Rlt_dec; split; intros; try tauto; discriminate. Qed.
Lemma reported_exists' d n r : r = INR n -> reported d r = true -> exists_moment d n.
Proof. intros ->. apply reported_exists. Qed.

Section Right.
  Variable d : dist.
  Hypothesis V : valid d.
  Hypothesis G : moments_there d.
  Hypothesis HR : std_right d.
  Let L := loc_arg d.
  Let S := scale_arg d.

  Lemma mean_right m : mean d = Some m -> expectation d (fun x => x) m.
  Proof.
    rewrite mean_eq. destruct (reported d 1) eqn:E; [|discriminate]. apply (reported_exists' d 1 1 ltac:(simpl; ring)) in E.
    intros K. assert (m = scipy_mean d) as -> by congruence. unfold scipy_mean. rewrite (R1 d HR E). fold L S.
    replace (raw d 1 * S + L) with (pdot [L; S] (raw d)) by (simpl; rewrite raw_0 by assumption; ring).
    apply poly_expectation; try assumption; [simpl; lia|]. intros y. simpl. fold L S. ring.
  Qed.
  Lemma mean_value m : mean d = Some m -> exists_moment d 1 /\ m = L + S * raw d 1.
  Proof.
    rewrite mean_eq. destruct (reported d 1) eqn:E; [|discriminate]. apply (reported_exists' d 1 1 ltac:(simpl; ring)) in E.
    intros K. assert (m = scipy_mean d) as -> by congruence. split; [assumption|]. unfold scipy_mean. rewrite (R1 d HR E). fold L S. ring.
  Qed.
  Lemma mean_there : exists_moment d 1 -> mean d = Some (L + S * raw d 1).
  Proof.
    intros E. rewrite mean_eq. destruct (proj2 (reported_exists d 1) E). change (INR 1) with 1. destruct (reported d 1) eqn:Q.
    - f_equal. unfold scipy_mean. rewrite (R1 d HR E). fold L S. ring.
    - apply (proj2 (reported_exists d 1)) in E. simpl in E. congruence.
  Qed.
  Lemma variance_value v : variance d = Some v -> exists_moment d 2 /\ v = S * S * (raw d 2 - raw d 1 * raw d 1) /\ 0 < v.
  Proof.
    rewrite variance_eq. destruct (reported d 2) eqn:E; [|discriminate]. apply (reported_exists' d 2 2 ltac:(simpl; ring)) in E.
    intros K. assert (v = scipy_var d) as -> by congruence. split; [assumption|]. unfold scipy_var. rewrite (R2 d HR E). fold S.
    pose proof (mu2_pos d V G E). assert (0 < S) by now apply scale_pos. assert (0 < S * S) by nra. split; [ring|]. nra.
  Qed.
  Lemma variance_right v : variance d = Some v -> exists m, mean d = Some m /\ 0 < v /\ expectation d (fun x => (x - m) ^ 2) v.
  Proof.
    intros K. destruct (variance_value v K) as (E & Ev & P). exists (L + S * raw d 1).
    split; [apply mean_there, (exists_le d 1 2); [lia|assumption]|]. split; [assumption|].
    replace v with (S * S * (raw d 2 - 2 * raw d 1 * raw d 1 + raw d 1 * raw d 1)) by (rewrite Ev; ring). now apply second_moment.
  Qed.
  Lemma sd_value s : standard_deviation d = Some s -> exists_moment d 2 /\ s = S * sqrt (raw d 2 - raw d 1 * raw d 1).
  Proof.
    rewrite sd_eq by assumption. destruct (reported d 2) eqn:E; [|discriminate].
    assert (variance d = Some (scipy_var d)) as K by (rewrite variance_eq, E; reflexivity).
    destruct (variance_value _ K) as (X & Ev & P). intros Q. assert (s = Rpower (scipy_var d) (1 / 2)) as -> by congruence. split; [assumption|].
    rewrite Rpower_half by assumption. rewrite Ev. assert (0 < S) as HS by now apply scale_pos. pose proof (mu2_pos d V G X).
    rewrite sqrt_mult, sqrt_square by nra. reflexivity.
  Qed.
  Lemma sd_right s : standard_deviation d = Some s -> 0 < s /\ variance d = Some (s * s).
  Proof.
    intros K. pose proof K as K'. rewrite sd_eq in K' by assumption. destruct (sd_value s K) as [E Es]. pose proof (mu2_pos d V G E) as P.
    assert (0 < S) as HS by now apply scale_pos. split; [rewrite Es; apply Rmult_lt_0_compat; [assumption|now apply sqrt_lt_R0]|].
    rewrite variance_eq. destruct (reported d 2); [|discriminate]. f_equal. unfold scipy_var. rewrite (R2 d HR E). fold S. rewrite Es.
    pose proof (sqrt_sqrt (raw d 2 - raw d 1 * raw d 1) ltac:(lra)). set (q := sqrt _) in *. rewrite <- H. ring.
  Qed.
  Lemma sd_there : exists_moment d 2 -> standard_deviation d = Some (S * sqrt (raw d 2 - raw d 1 * raw d 1)).
  Proof.
    intros E. destruct (standard_deviation d) as [s|] eqn:K; [destruct (sd_value s K) as [_ ->]; reflexivity|].
    rewrite sd_eq in K by assumption. apply (proj2 (reported_exists d 2)) in E. replace (INR 2) with 2 in E by (simpl; ring). rewrite E in K. discriminate.
  Qed.
  Lemma skewness_right k : skewness d = Some k -> exists m s, mean d = Some m /\ standard_deviation d = Some s /\ expectation d (fun x => ((x - m) / s) ^ 3) k.
  Proof.
    rewrite skewness_eq. destruct (reported d 3) eqn:E; [|discriminate]. apply (reported_exists' d 3 3 ltac:(simpl; ring)) in E.
    intros K. assert (k = scipy_skew d) as -> by congruence. pose proof (exists_le d 2 3 ltac:(lia) E) as E2.
    exists (L + S * raw d 1), (S * sqrt (raw d 2 - raw d 1 * raw d 1)).
    split; [apply mean_there, (exists_le d 1 3); [lia|assumption]|]. split; [now apply sd_there|].
    pose proof (mu2_pos d V G E2) as P. pose proof (sqrt_lt_R0 _ P) as Q. pose proof (R3 d HR E) as T. unfold scipy_skew.
    set (q := sqrt (raw d 2 - raw d 1 * raw d 1)) in *. assert (0 < S) as HS by now apply scale_pos.
    set (c := raw d 1) in *.
    replace (s_g1 (scipy_std d)) with (pdot [- c ^ 3 / q ^ 3; 3 * c ^ 2 / q ^ 3; - 3 * c / q ^ 3; 1 / q ^ 3] (raw d)).
    - apply poly_expectation; try assumption; [simpl; lia|]. intros y. simpl. fold L S. field. lra.
    - simpl. rewrite raw_0 by assumption. fold c. apply (Rmult_eq_reg_r (q ^ 3)); [|apply pow_nonzero; lra]. rewrite T. field. lra.
  Qed.
  Lemma kurtosis_right k : kurtosis d = Some k -> exists m s, mean d = Some m /\ standard_deviation d = Some s /\ expectation d (fun x => ((x - m) / s) ^ 4) k.
  Proof.
    rewrite kurtosis_eq. destruct (reported d 4) eqn:E; [|discriminate]. apply (reported_exists' d 4 4 ltac:(simpl; ring)) in E.
    intros K. assert (k = scipy_kurt d + 3) as -> by congruence. pose proof (exists_le d 2 4 ltac:(lia) E) as E2.
    exists (L + S * raw d 1), (S * sqrt (raw d 2 - raw d 1 * raw d 1)).
    split; [apply mean_there, (exists_le d 1 4); [lia|assumption]|]. split; [now apply sd_there|].
    pose proof (mu2_pos d V G E2) as P. pose proof (sqrt_lt_R0 _ P) as Q. pose proof (R4 d HR E) as T. unfold scipy_kurt.
    pose proof (sqrt_sqrt _ (Rlt_le _ _ P)) as QQ. rewrite <- QQ in T.
    set (q := sqrt (raw d 2 - raw d 1 * raw d 1)) in *. assert (0 < S) as HS by now apply scale_pos.
    set (c := raw d 1) in *.
    replace (s_g2 (scipy_std d) + 3) with (pdot [c ^ 4 / q ^ 4; - 4 * c ^ 3 / q ^ 4; 6 * c ^ 2 / q ^ 4; - 4 * c / q ^ 4; 1 / q ^ 4] (raw d)).
    - apply poly_expectation; try assumption; [simpl; lia|]. intros y. simpl. fold L S. field. lra.
    - simpl. rewrite raw_0 by assumption. fold c. apply (Rmult_eq_reg_r ((q * q) ^ 2)); [|apply pow_nonzero; nra]. rewrite T. field. lra.
  Qed.
  Lemma excess_right k : excess_kurtosis d = Some k -> kurtosis d = Some (k + 3).
  Proof. rewrite excess_eq, kurtosis_eq. destruct (reported d 4); [|discriminate]. intros K. assert (k = scipy_kurt d) as -> by congruence. reflexivity. Qed.
End Right.

(** ** Moments that do not exist *)
Lemma io_no_log lo h v c0 g x0 : 0 < c0 -> (forall x, x0 <= x -> between lo p_infty x) -> g < x0 -> (forall x, x0 <= x -> c0 / (x - g) <= h x) ->
  ~ integral_over h lo p_infty v.
Proof.
  intros Hc Hin Hg Hle H. destruct (H 1 ltac:(lra)) as (a0 & b0 & Ia & Ib & L0 & F).
  set (u := Rmax b0 x0). set (w := g + (u - g) * exp (3 / c0)). pose proof (Rmax_l b0 x0). pose proof (Rmax_r b0 x0). fold u in H0, H1.
  assert (1 < exp (3 / c0)) as E1 by (rewrite <- exp_0; apply exp_increasing, Rdiv_lt_0_compat; lra).
  assert (u < w) as Luw by (unfold w; nra).
  destruct (F a0 u) as (I1 & R1 & D1); [assumption|apply Hin; lra|lra|lra|]. destruct (F a0 w) as (I2 & R2 & D2); [assumption|apply Hin; lra|lra|lra|].
  assert (is_RInt h u w (I2 - I1)) as R3.
  { apply is_RInt_swap in R1. pose proof (is_RInt_Chasles h u a0 w _ _ R1 R2) as K. unfold plus, opp in K; simpl in K. replace (I2 - I1) with (- I1 + I2) by ring. exact K. }
  assert (is_RInt (fun x => c0 / (x - g)) u w (c0 * ln (w - g) - c0 * ln (u - g))) as R4.
  { apply (is_RInt_derive (fun x => c0 * ln (x - g)) (fun x => c0 / (x - g))); rewrite Rmin_left, Rmax_right by lra; intros x Hx.
    - auto_derive; [lra|]. field. lra.
    - apply (ex_derive_continuous (fun x => c0 / (x - g))). auto_derive. lra. }
  assert (c0 * ln (w - g) - c0 * ln (u - g) <= I2 - I1) as LE.
  { apply (is_RInt_le (fun x => c0 / (x - g)) h u w); [lra|assumption|assumption|]. intros x Hx. apply Hle. lra. }
  replace (w - g) with ((u - g) * exp (3 / c0)) in LE by (unfold w; ring). rewrite ln_mult, ln_exp in LE by (try apply exp_pos; lra).
  replace (c0 * (ln (u - g) + 3 / c0) - c0 * ln (u - g)) with 3 in LE by (field; lra). apply Rabs_def2 in D1, D2. lra.
Qed.

Lemma loglogistic_no_moment a b g n c v : valid (Loglogistic a b g) -> (1 <= n)%nat -> b <= INR n -> ~ expectation (Loglogistic a b g) (fun x => (x - c) ^ n) v.
Proof.
  intros V Hn Hb. assert (0 < a /\ 0 < b) as [Ha Hb0] by (simpl in V; tauto). unfold expectation. simpl supp_lo; simpl supp_hi.
  set (x0 := Rmax (g + a) (2 * Rabs c + 2 * Rabs g + 1)). pose proof (Rmax_l (g + a) (2 * Rabs c + 2 * Rabs g + 1)) as X1. pose proof (Rmax_r (g + a) (2 * Rabs c + 2 * Rabs g + 1)) as X2. fold x0 in X1, X2.
  apply (io_no_log g _ v ((a / 2) ^ n * b / 4) g x0).
  - assert (0 < (a / 2) ^ n) by (apply pow_lt; lra). nra.
  - intros x Hx. unfold between; simpl. split; [lra|exact I].
  - lra.
  - intros x Hx. assert (inside (Loglogistic a b g) x) as Hin by (split; simpl; [lra|exact I]).
    rewrite (density_std _ x V Hin). cbn [loc_arg scale_arg std_density]. set (y := (x - g) / a).
    assert (1 <= y) as Hy by (unfold y; apply (Rmult_le_reg_r a); [assumption|]; field_simplify; lra).
    assert ((a / 2) ^ n * y ^ n <= (x - c) ^ n) as P1.
    { rewrite <- Rpow_mult_distr. apply pow_incr. split; [nra|]. replace (a / 2 * y) with ((x - g) / 2) by (unfold y; field; lra).
      assert (c <= Rabs c) by apply Rle_abs. assert (- g <= Rabs g) by (rewrite <- Rabs_Ropp; apply Rle_abs). pose proof (Rabs_pos g). lra. }

    assert (1 <= Rpower y b) as Q1 by (replace 1 with (Rpower y 0) by (apply Rpower_O; lra); apply Rle_Rpower; lra).
    assert (Rpower y (b - 1) = Rpower y b / y) as Q2 by (unfold Rminus; rewrite Rpower_plus, Rpower_Ropp, Rpower_1 by lra; reflexivity).
    assert (Rpower y b <= y ^ n) as Q3 by (rewrite pow_as_Rpower by lra; apply Rle_Rpower; lra).
    rewrite Q2. set (z := Rpower y b) in *. replace ((a / 2) ^ n * b / 4 / (x - g)) with ((a / 2) ^ n * (b / (4 * y)) / a) by (unfold y; field; lra).
    assert (y ^ n * (b * (z / y) / (1 + z) ^ 2) >= b / (4 * y)) as P2.
    { replace (y ^ n * (b * (z / y) / (1 + z) ^ 2)) with (b / y * (y ^ n * z / (1 + z) ^ 2)) by (field; lra).
      replace (b / (4 * y)) with (b / y * (1 / 4)) by (field; lra). apply Rle_ge, Rmult_le_compat_l; [apply Rdiv_le_0_compat; lra|].
      apply (Rmult_le_reg_r ((1 + z) ^ 2)); [nra|]. replace (y ^ n * z / (1 + z) ^ 2 * (1 + z) ^ 2) with (y ^ n * z) by (field; lra). nra. }
    assert (0 <= b * (z / y) / (1 + z) ^ 2 / a) as P3.
    { apply Rdiv_le_0_compat; [|assumption]. apply Rdiv_le_0_compat; [|nra]. apply Rmult_le_pos; [lra|]. apply Rdiv_le_0_compat; lra. }
    apply Rle_trans with ((a / 2) ^ n * y ^ n * (b * (z / y) / (1 + z) ^ 2 / a)); [|now apply Rmult_le_compat_r].
    replace ((a / 2) ^ n * y ^ n * (b * (z / y) / (1 + z) ^ 2 / a)) with ((a / 2) ^ n * (y ^ n * (b * (z / y) / (1 + z) ^ 2)) / a) by (field; repeat split; lra).
    unfold Rdiv at 1. apply Rmult_le_compat_r; [left; now apply Rinv_0_lt_compat|]. apply Rmult_le_compat_l; [apply pow_le; lra|lra].
Qed.
Lemma unreported d n : reported d (INR n) = false -> exists a b g, d = Loglogistic a b g /\ b <= INR n.
Proof. destruct d; simpl; try discriminate. destruct Rlt_dec; [discriminate|]. intros _. exists alpha, beta, gamma. split; [reflexivity|lra]. Qed.
