(** Distributions, proportions, sample size, sequential sampling. *)
From Coquelicot Require Import Coquelicot.
From Coq Require Import List Arith ZArith Reals Bool Lra Lia.
From Verif Require Import Base RealFacts Gauss NonparModel NonparProofs RList RepairModel RepairProofs RepairProofs2 Binom TestingModel TestingSpec.
Import ListNotations.
Open Scope R_scope.

Lemma RInt_antider (f F : R -> R) a b : (forall x, is_derive F x (f x)) -> (forall x, continuous f x) ->
  RInt f a b = F b - F a.
Proof.
  intros Hd Hc. apply is_RInt_unique. apply (is_RInt_derive F f); auto.
Qed.

(** * Chi-squared with even degrees of freedom *)
Lemma chi2_cdf_pois k x : 0 <= x -> chi2_cdf_even (S k) x = 1 - pois (S k) (x / 2).
Proof.
  intros Hx. unfold chi2_cdf_even. destruct (Rle_dec x 0) as [H|H].
  - replace x with 0 by lra. replace (0 / 2) with 0 by lra. rewrite pois_at_0. ring.
  - assert (forall y, is_derive (fun x => - pois (S k) (x / 2)) y (chi2_pdf (S k) y)) as Hd.
    { intros y. replace (chi2_pdf (S k) y) with (- ((1 / 2) * - (exp (- (y / 2)) * ((y / 2) ^ k / INR (fact k))))).
      - apply (@is_derive_opp R_AbsRing R_NormedModule (fun x => pois (S k) (x / 2))).
        apply (is_derive_comp (pois (S k)) (fun x => x / 2)); [apply pois_derive|].
        auto_derive; [trivial|]. lra.
      - unfold chi2_pdf. replace (S k - 1)%nat with k by lia. replace (- (y / 2)) with (- y / 2) by field.
        unfold Rdiv at 4. rewrite Rpow_mult_distr, pow_inv. cbn [pow]. field. split; first [apply INR_fact_neq_0|apply pow_nonzero; lra]. }
    rewrite (RInt_antider _ _ 0 x Hd).
    + replace (0 / 2) with 0 by lra. rewrite pois_at_0. ring.
    + intros y. apply (ex_derive_continuous (chi2_pdf (S k))). unfold chi2_pdf. auto_derive. trivial.
Qed.

Lemma chi2_ppf_eq k q m : 0 < m -> pois (S k) m = 1 - q -> q < 1 -> chi2_ppf q (S k) = Some (2 * m).
Proof.
  intros Hm E Hq. unfold chi2_ppf. f_equal. apply inverse_of_eq.
  - rewrite chi2_cdf_pois by lra. replace (2 * m / 2) with m by field. lra.
  - intros x Hx. destruct (Rle_or_lt x (2 * m)) as [L|L]; [exact L|exfalso].
    rewrite chi2_cdf_pois in Hx by lra. pose proof (pois_decreasing k m (x / 2) ltac:(lra) ltac:(lra)). lra.
Qed.

Lemma chi2_ppf_spec k q : 0 < q < 1 -> exists m, 0 < m /\ pois (S k) m = 1 - q /\ chi2_ppf q (S k) = Some (2 * m).
Proof.
  intros Hq. destruct (pois_solve k (1 - q) ltac:(lra)) as (m & Hm & E). exists m. repeat split; auto.
  apply chi2_ppf_eq; auto; lra.
Qed.

Lemma pois_inj k m m' : 0 <= m -> 0 <= m' -> pois (S k) m = pois (S k) m' -> m = m'.
Proof.
  intros H H' E. destruct (Rtotal_order m m') as [L|[L|L]]; auto.
  - pose proof (pois_decreasing k m m' H L). lra.
  - pose proof (pois_decreasing k m' m H' L). lra.
Qed.

Lemma pois_lt_iff k m m' : 0 <= m -> 0 <= m' -> (pois (S k) m < pois (S k) m' <-> m' < m).
Proof.
  intros H H'. split; intros L.
  - destruct (Rlt_or_le m' m) as [A|[A|A]]; [exact A| |subst; lra]. pose proof (pois_decreasing k m m' H A). lra.
  - now apply pois_decreasing.
Qed.

Lemma pois_spec k m : poisson_fewer k m = pois k m.
Proof.
  unfold poisson_fewer, pois, bsum. rewrite <- rsum_scal. apply rsum_ext. intros j _. unfold Rdiv. ring.
Qed.
Lemma at_least_spec n p k : (k <= S n)%nat -> prob_at_least n p k = bge n p k.
Proof. intros H. unfold prob_at_least, bge, bsum. replace (n + 1 - k)%nat with (S n - k)%nat by lia. reflexivity. Qed.
Lemma at_most_spec n p k : prob_at_most n p k = ble n p k.
Proof. unfold prob_at_most, ble, bsum. rewrite Nat.add_1_r. reflexivity. Qed.

(** * F with even degrees of freedom *)
Definition yof (a b : nat) (x : R) : R := INR a * x / (INR a * x + INR b).

Lemma ratio_derive A B y : 0 < A * y + B -> is_derive (fun x => A * x / (A * x + B)) y (A * B / (A * y + B) ^ 2).
Proof. intros H. auto_derive; [lra|]. field. lra. Qed.
Lemma f_pdf_ex A B cst m n y : 0 < A * y + B -> ex_derive (fun x => cst * x ^ m / (A * x + B) ^ n) y.
Proof. intros H. auto_derive. apply pow_nonzero. lra. Qed.

Lemma f_cdf_bge a b x : 0 <= x -> f_cdf (S a) (S b) x = bge (S a + b) (yof (S a) (S b) x) (S a).
Proof.
  intros Hx. unfold f_cdf.
  assert (0 < INR (S a)) as Ha by (apply lt_0_INR; lia).
  assert (0 < INR (S b)) as Hb by (apply lt_0_INR; lia).
  assert (yof (S a) (S b) 0 = 0) as Y0 by (unfold yof; unfold Rdiv; ring).
  assert (bge (S a + b) 0 (S a) = 0) as B0 by (apply bge_at_0; lia).
  destruct (Rle_dec x 0) as [H|H].
  - replace x with 0 by lra. rewrite Y0, B0. reflexivity.
  - assert (forall y, 0 <= y -> 0 < INR (S a) * y + INR (S b)) as Hpos.
    { intros y Hy. assert (0 <= INR (S a) * y) by (apply Rmult_le_pos; lra). lra. }
    apply is_RInt_unique.
    replace (bge (S a + b) (yof (S a) (S b) x) (S a))
      with (minus (bge (S a + b) (yof (S a) (S b) x) (S a)) (bge (S a + b) (yof (S a) (S b) 0) (S a))).
    2:{ rewrite Y0, B0. unfold minus, plus, opp; simpl. as_R. ring. }
    apply (is_RInt_derive (fun x => bge (S a + b) (yof (S a) (S b) x) (S a))).
    + intros y Hy. rewrite Rmin_left in Hy by lra. specialize (Hpos y ltac:(lra)).
      pose proof (bge_derive (S a + b) (yof (S a) (S b) y) b ltac:(lia)) as Hd.
      replace (S a + b - b)%nat with (S a) in Hd by lia.
      replace (f_pdf (S a) (S b) y) with
        (scal (INR (S a) * INR (S b) / (INR (S a) * y + INR (S b)) ^ 2)
         (INR (S a) * C (S a + b) (S a) * yof (S a) (S b) y ^ (S a - 1) * (1 - yof (S a) (S b) y) ^ b)).
      * apply (is_derive_comp (fun p => bge (S a + b) p (S a)) (yof (S a) (S b))); [exact Hd|].
        now apply ratio_derive.
      * unfold f_pdf, scal; simpl; unfold mult; simpl. as_R.
        change (match a with 0%nat => 1 | S _ => INR a + 1 end) with (INR (S a)).
        change (match b with 0%nat => 1 | S _ => INR b + 1 end) with (INR (S b)).
        replace (a - 0)%nat with a by lia. replace (b - 0)%nat with b by lia.
        replace (a + S b - 0)%nat with (S a + b)%nat by lia. replace (a + S b)%nat with (S (a + b)) by lia.
        replace (1 - yof (S a) (S b) y) with (INR (S b) / (INR (S a) * y + INR (S b))) by (unfold yof; field; lra).
        unfold yof, C. replace (S a + b - S a)%nat with b by lia.
        rewrite (fact_simpl a), mult_INR. unfold Rdiv. rewrite !Rpow_mult_distr. rewrite !pow_inv. cbn [pow]. rewrite pow_add.
        set (A := INR (S a)) in *. set (B := INR (S b)) in *. set (D := A * y + B) in *.
        replace (S (a + b) - S a)%nat with b by lia. change (S a + b)%nat with (S (a + b)).
        field. repeat split; try apply INR_fact_neq_0; try apply pow_nonzero; lra.
    + intros y Hy. rewrite Rmin_left in Hy by lra. specialize (Hpos y ltac:(lra)).
      apply (ex_derive_continuous (f_pdf (S a) (S b))).
      apply ex_derive_ext with (fun x => (INR (S a) ^ S a * INR (S b) ^ S b * (INR (fact (S a + S b - 1)) / (INR (fact (S a - 1)) * INR (fact (S b - 1))))) * x ^ (S a - 1) / (INR (S a) * x + INR (S b)) ^ (S a + S b)).
      * intros t. unfold f_pdf, Rdiv. as_R; ring.
      * now apply f_pdf_ex.
Qed.

Lemma yof_spec a b x : 0 <= x -> 0 <= yof (S a) (S b) x < 1.
Proof.
  intros Hx. assert (0 < INR (S a)) as Ha by (apply lt_0_INR; lia). assert (0 < INR (S b)) as Hb by (apply lt_0_INR; lia).
  assert (0 <= INR (S a) * x) by (apply Rmult_le_pos; lra). unfold yof. split.
  - apply Rmult_le_pos; [assumption|]. left. apply Rinv_0_lt_compat. lra.
  - apply Rmult_lt_reg_r with (INR (S a) * x + INR (S b)); [lra|]. unfold Rdiv. rewrite Rmult_assoc, Rinv_l by lra. lra.
Qed.
Lemma yof_onto a b y : 0 <= y < 1 -> exists x, 0 <= x /\ yof (S a) (S b) x = y.
Proof.
  intros Hy. assert (0 < INR (S a)) as Ha by (apply lt_0_INR; lia). assert (0 < INR (S b)) as Hb by (apply lt_0_INR; lia).
  exists (INR (S b) * y / (INR (S a) * (1 - y))). split.
  - apply Rmult_le_pos; [apply Rmult_le_pos; lra|]. left. apply Rinv_0_lt_compat, Rmult_lt_0_compat; lra.
  - unfold yof. field. repeat split; try lra. Qed.
Lemma yof_incr a b x x' : 0 <= x -> x < x' -> yof (S a) (S b) x < yof (S a) (S b) x'.
Proof.
  intros Hx H. assert (0 < INR (S a)) as Ha by (apply lt_0_INR; lia). assert (0 < INR (S b)) as Hb by (apply lt_0_INR; lia).
  assert (0 <= INR (S a) * x) by (apply Rmult_le_pos; lra).
  assert (INR (S a) * x < INR (S a) * x') by (apply Rmult_lt_compat_l; lra). unfold yof.
  set (A := INR (S a) * x) in *. set (A' := INR (S a) * x') in *. set (B := INR (S b)) in *.
  apply Rmult_lt_reg_r with (A + B); [lra|]. unfold Rdiv at 1. rewrite Rmult_assoc, Rinv_l, Rmult_1_r by lra.
  apply Rmult_lt_reg_r with (A' + B); [lra|]. replace (A' / (A' + B) * (A + B) * (A' + B)) with (A' * (A + B)) by (field; lra). nra.
Qed.

(** The limit computed from the F quantile is the p at which P(X >= a) = q. *)
Lemma f_limit a b q : 0 < q < 1 -> exists f, f_ppf q (S a) (S b) = Some f /\ 0 <= f /\
  0 < yof (S a) (S b) f < 1 /\ bge (S a + b) (yof (S a) (S b) f) (S a) = q.
Proof.
  intros Hq. destruct (bge_solve (S a + b) (S a) q ltac:(lia) Hq) as (y & Hy & E).
  destruct (yof_onto a b y ltac:(lra)) as (f & Hf & Ef). exists f.
  split; [|split; [exact Hf|rewrite Ef; auto]].
  unfold f_ppf. destruct (Rlt_dec 0 q); [|lra]. destruct (Rlt_dec q 1); [|lra]. f_equal.
  apply inverse_of_eq.
  - rewrite f_cdf_bge, Ef by assumption. exact E.
  - intros x Hx. destruct (Rle_or_lt x f) as [L|L]; [exact L|exfalso].
    rewrite f_cdf_bge in Hx by lra. pose proof (yof_incr a b f x Hf L) as Hi. pose proof (yof_spec a b x ltac:(lra)).
    rewrite Ef in Hi. pose proof (bge_increasing (S a + b) (S a) y (yof (S a) (S b) x) ltac:(lia) ltac:(lra) Hi ltac:(lra)). lra.
Qed.

Lemma ratio_yof a b f d : ratio_of (2 * INR (S a)) (2 * INR (S b)) (Some f) d = yof (S a) (S b) f \/ INR (S a) * f + INR (S b) = 0.
Proof.
  destruct (Req_EM_T (INR (S a) * f + INR (S b)) 0) as [E|E]; [now right|left].
  unfold ratio_of, yof. field. split; [exact E|]. replace (2 * INR (S b) + 2 * INR (S a) * f) with (2 * (INR (S a) * f + INR (S b))) by ring. lra.
Qed.

Lemma ratio_yof' a b f d : 0 <= f -> ratio_of (2 * INR (S a)) (2 * INR (S b)) (Some f) d = yof (S a) (S b) f.
Proof.
  intros Hf. destruct (ratio_yof a b f d) as [E|E]; [exact E|exfalso].
  assert (0 < INR (S a)) by (apply lt_0_INR; lia). assert (0 < INR (S b)) by (apply lt_0_INR; lia).
  assert (0 <= INR (S a) * f) by (apply Rmult_le_pos; lra). lra.
Qed.

Definition tail (t s : nat) (CI : R) : R := if (s =? 0)%nat || (s =? t)%nat then 1 - CI else (1 - CI) / 2.

Lemma osp_spec t s CI lo up : 0 < CI < 1 -> one_sample_proportion t s CI = Ok (lo, up) ->
  (s <= t)%nat /\
  (s = 0%nat -> lo = 0) /\ (s = t -> up = 1) /\
  ((0 < s)%nat -> 0 < lo < 1 /\ bge t lo s = tail t s CI) /\
  ((s < t)%nat -> 0 < up < 1 /\ ble t up s = tail t s CI).
Proof.
  intros HC H. unfold one_sample_proportion in H. destruct (Nat.ltb_spec t s) as [L|L]; [discriminate|].
  set (n := if (s =? 0)%nat || (s =? t)%nat then 1 else 2) in *.
  assert ((1 - CI) / n = tail t s CI) as ET. { unfold tail, n. destruct ((s =? 0)%nat || (s =? t)%nat); [lra|reflexivity]. }
  rewrite ET in H.
  assert (0 < tail t s CI < 1) as HT. { unfold tail. destruct ((s =? 0)%nat || (s =? t)%nat); lra. }
  injection H as <- <-. split; [exact L|].
  split; [intros ->; reflexivity|]. split; [|split].
  - intros ->. rewrite Nat.sub_diag. unfold f_ppf. now destruct (t + 1)%nat.
  - intros Hs. destruct s as [|s]; [lia|]. replace (t - S s + 1)%nat with (S (t - S s)) by lia.
    destruct (f_limit s (t - S s) (tail t (S s) CI) HT) as (f & -> & Hf & Hy & E).
    rewrite ratio_yof' by assumption. split; [exact Hy|]. replace (S s + (t - S s))%nat with t in E by lia. exact E.
  - intros Hs. replace (s + 1)%nat with (S s) by lia. replace (t - s)%nat with (S (t - s - 1)) by lia.
    destruct (f_limit s (t - s - 1) (1 - tail t s CI) ltac:(lra)) as (f & -> & Hf & Hy & E).
    rewrite ratio_yof' by assumption. split; [exact Hy|]. replace (S s + (t - s - 1))%nat with t in E by lia.
    pose proof (ble_bge t (yof (S s) (S (t - s - 1)) f) s L). lra.
Qed.

Lemma osp_order t s CI lo up : 0 < CI < 1 -> (0 < t)%nat -> one_sample_proportion t s CI = Ok (lo, up) ->
  0 <= lo <= INR s / INR t /\ INR s / INR t <= up <= 1.
Proof.
  intros HC Ht H. destruct (osp_spec t s CI lo up HC H) as (L & H0 & H1 & H2 & H3).
  assert (0 < INR t) as HIt by now apply lt_0_INR.
  assert (0 <= INR s / INR t <= 1) as Hr.
  { pose proof (pos_INR s). assert (INR s <= INR t) by now apply le_INR. split.
    - apply Rmult_le_pos; [assumption|left; now apply Rinv_0_lt_compat].
    - apply Rmult_le_reg_r with (INR t); [assumption|]. unfold Rdiv. rewrite Rmult_assoc, Rinv_l by lra. lra. }
  assert (INR s / INR t = 1 - INR (t - s) / INR t) as Er. { rewrite minus_INR by assumption. field. lra. }
  assert ((0 < s < t)%nat -> tail t s CI < 1 / 2) as Htail.
  { intros Hs. unfold tail. destruct (Nat.eqb_spec s 0); [lia|]. destruct (Nat.eqb_spec s t); [lia|]. cbn [orb]. lra. }
  split.
  - destruct (Nat.eq_0_gt_0_cases s) as [->|Hs]; [rewrite (H0 eq_refl) in *; simpl; unfold Rdiv; rewrite Rmult_0_l; lra|].
    destruct (H2 Hs) as [Hlo E]. split; [lra|].
    destruct (Nat.eq_dec s t) as [->|Hne]. { unfold Rdiv. rewrite Rinv_r by lra. lra. }
    destruct (Rle_or_lt lo (INR s / INR t)) as [A|A]; [exact A|exfalso].
    pose proof (binomial_median t s ltac:(lia)) as Hmed.
    pose proof (bge_increasing t s (INR s / INR t) lo ltac:(lia) ltac:(lra) A ltac:(lra)).
    specialize (Htail ltac:(lia)). lra.
  - destruct (Nat.eq_dec s t) as [->|Hne]; [rewrite (H1 eq_refl); lra|].
    destruct (H3 ltac:(lia)) as [Hup E]. split; [|lra].
    destruct (Nat.eq_0_gt_0_cases s) as [->|Hs]; [simpl; unfold Rdiv; rewrite Rmult_0_l; lra|].
    destruct (Rle_or_lt (INR s / INR t) up) as [A|A]; [exact A|exfalso].
    pose proof (binomial_median t (t - s) ltac:(lia)) as Hmed.
    rewrite ble_sym in E by lia.
    pose proof (bge_increasing t (t - s) (INR (t - s) / INR t) (1 - up) ltac:(lia) ltac:(lra) ltac:(lra) ltac:(lra)).
    specialize (Htail ltac:(lia)). lra.
Qed.

(** * Two proportions *)
Lemma two_prop_inv t1 s1 t2 s2 CI r : two_proportion_test t1 s1 t2 s2 CI = Ok r ->
  1 / 2 <= CI < 1 /\ (s1 <= t1)%nat /\ (s2 <= t2)%nat /\ (0 < t1)%nat /\ (0 < t2)%nat /\
  let p1 := INR s1 / INR t1 in let p2 := INR s2 / INR t2 in
  let k := norm_ppf (1 - (1 - CI) / 2) * sqrt (p1 * (1 - p1) / INR t1 + p2 * (1 - p2) / INR t2) in
  r = (p1 - p2 - k, p1 - p2 + k, negb (Rltb (p1 - p2 - k) 0 && Rltb 0 (p1 - p2 + k))).
Proof.
  unfold two_proportion_test. destruct (Rltb CI (1 / 2)) eqn:E1; [discriminate|].
  destruct (Rleb 1 CI) eqn:E2; [discriminate|]. cbn [orb]. apply Rltb_false in E1. apply Rleb_false in E2.
  destruct (Nat.ltb_spec t1 s1); [discriminate|]. destruct (Nat.ltb_spec t2 s2); [discriminate|]. cbn [orb].
  destruct (Nat.eqb_spec t1 0); [discriminate|]. destruct (Nat.eqb_spec t2 0); [discriminate|]. cbn [orb].
  intros E. injection E as <-. repeat split; try lra; lia.
Qed.

Lemma two_prop_ok t1 s1 t2 s2 CI : 1 / 2 <= CI < 1 -> (s1 <= t1)%nat -> (s2 <= t2)%nat -> (0 < t1)%nat -> (0 < t2)%nat ->
  exists r, two_proportion_test t1 s1 t2 s2 CI = Ok r.
Proof.
  intros H H1 H2 H3 H4. unfold two_proportion_test.
  rewrite (proj2 (Rltb_false CI (1 / 2))), (proj2 (Rleb_false 1 CI)) by lra. cbn [orb].
  destruct (Nat.ltb_spec t1 s1); [lia|]. destruct (Nat.ltb_spec t2 s2); [lia|]. cbn [orb].
  destruct (Nat.eqb_spec t1 0); [lia|]. destruct (Nat.eqb_spec t2 0); [lia|]. cbn [orb]. eauto.
Qed.

Lemma two_prop_swap t1 s1 t2 s2 CI lo up sig : two_proportion_test t1 s1 t2 s2 CI = Ok (lo, up, sig) ->
  two_proportion_test t2 s2 t1 s1 CI = Ok (- up, - lo, sig) /\ (sig = false <-> lo < 0 < up) /\
  lo <= INR s1 / INR t1 - INR s2 / INR t2 <= up.
Proof.
  intros H. destruct (two_prop_inv _ _ _ _ _ _ H) as (HC & H1 & H2 & H3 & H4 & E).
  destruct (two_prop_ok t2 s2 t1 s1 CI HC H2 H1 H4 H3) as [r Hr]. rewrite Hr.
  destruct (two_prop_inv _ _ _ _ _ _ Hr) as (_ & _ & _ & _ & _ & E').
  cbv zeta in E, E'. set (p1 := INR s1 / INR t1) in *. set (p2 := INR s2 / INR t2) in *.
  rewrite (Rplus_comm (p2 * (1 - p2) / INR t2)) in E'.
  set (Z := norm_ppf (1 - (1 - CI) / 2)) in *. set (q := sqrt (p1 * (1 - p1) / INR t1 + p2 * (1 - p2) / INR t2)) in *.
  assert (0 <= Z * q) as Hk.
  { apply Rmult_le_pos; [|apply sqrt_pos]. unfold Z.
    pose proof (Phi_norm_ppf (1 - (1 - CI) / 2) ltac:(lra)) as EP.
    destruct (Rle_or_lt 0 (norm_ppf (1 - (1 - CI) / 2))) as [A|A]; [exact A|exfalso].
    apply Phi_increasing in A. rewrite EP, Phi_0 in A. lra. }
  set (k := Z * q) in *. injection E as -> -> ->. clearbody k.
  assert (- (p1 - p2 + k) = p2 - p1 - k) as EA by ring. assert (- (p1 - p2 - k) = p2 - p1 + k) as EB by ring.
  split; [|split].
  - rewrite E', EA, EB. do 2 f_equal. f_equal. rewrite andb_comm. f_equal.
    + destruct (Rltb 0 (p2 - p1 + k)) eqn:F.
      * apply Rltb_true in F. symmetry. apply Rltb_true. lra.
      * apply Rltb_false in F. symmetry. apply Rltb_false. lra.
    + destruct (Rltb (p2 - p1 - k) 0) eqn:F.
      * apply Rltb_true in F. symmetry. apply Rltb_true. lra.
      * apply Rltb_false in F. symmetry. apply Rltb_false. lra.
  - rewrite negb_false_iff, andb_true_iff, !Rltb_true. tauto.
  - lra.
Qed.

Lemma two_prop_same t1 s1 t2 s2 CI lo up sig : (s1 * t2 = s2 * t1)%nat -> (0 < s1 < t1)%nat ->
  two_proportion_test t1 s1 t2 s2 CI = Ok (lo, up, sig) -> sig = false.
Proof.
  intros Hp Hs H. destruct (two_prop_inv _ _ _ _ _ _ H) as (HC & H1 & H2 & H3 & H4 & E). cbv zeta in E.
  assert (0 < INR t1) as HI1 by now apply lt_0_INR. assert (0 < INR t2) as HI2 by now apply lt_0_INR.
  assert (INR s2 / INR t2 = INR s1 / INR t1) as Ep.
  { apply Rmult_eq_reg_r with (INR t1 * INR t2); [|apply Rmult_integral_contrapositive_currified; lra].
    transitivity (INR (s2 * t1)); [rewrite mult_INR; field; lra|]. rewrite <- Hp, mult_INR. field. lra. }
  rewrite Ep in E. set (p := INR s1 / INR t1) in *.
  assert (0 < p < 1) as Hp01.
  { assert (0 < INR s1) by (apply lt_0_INR; lia). assert (INR s1 < INR t1) by (apply lt_INR; lia). unfold p. split.
    - now apply Rdiv_lt_0_compat.
    - apply Rmult_lt_reg_r with (INR t1); [assumption|]. unfold Rdiv. rewrite Rmult_assoc, Rinv_l by lra. lra. }
  set (q := sqrt _) in *.
  assert (0 < q) as Hq.
  { unfold q. apply sqrt_lt_R0. assert (0 < p * (1 - p)) by (apply Rmult_lt_0_compat; lra).
    pose proof (Rdiv_lt_0_compat _ _ H0 HI1). pose proof (Rdiv_lt_0_compat _ _ H0 HI2). lra. }
  assert (0 < norm_ppf (1 - (1 - CI) / 2)) as HZ.
  { pose proof (Phi_norm_ppf (1 - (1 - CI) / 2) ltac:(lra)) as EP.
    destruct (Rlt_or_le 0 (norm_ppf (1 - (1 - CI) / 2))) as [A|A]; [exact A|exfalso].
    assert (Phi (norm_ppf (1 - (1 - CI) / 2)) <= Phi 0) by (destruct A as [A|A]; [left; now apply Phi_increasing|rewrite A; lra]).
    rewrite EP, Phi_0 in *. lra. }
  set (Z := norm_ppf (1 - (1 - CI) / 2)) in *. assert (0 < Z * q) by now apply Rmult_lt_0_compat.
  injection E as _ _ ->. rewrite negb_false_iff, andb_true_iff, !Rltb_true. lra.
Qed.

Lemma two_prop_same_refuted : exists t1 t2 lo up, two_proportion_test t1 0 t2 0 (95 / 100) = Ok (lo, up, true).
Proof.
  destruct (two_prop_ok 5 0 5 0 (95 / 100)) as [r Hr]; try lia; [lra|].
  destruct (two_prop_inv _ _ _ _ _ _ Hr) as (_ & _ & _ & _ & _ & E). cbv zeta in E.
  exists 5%nat, 5%nat. destruct r as [[lo up] sig]. exists lo, up. rewrite Hr. do 2 f_equal.
  injection E as _ _ ->. change (INR 0) with 0.
  replace (sqrt _) with 0.
  - rewrite !Rmult_0_r. match goal with |- context [Rltb ?x 0] => assert (Rltb x 0 = false) as -> by (apply Rltb_false; lra) end. reflexivity.
  - symmetry. transitivity (sqrt 0); [f_equal; field|apply sqrt_0].
Qed.

(** * Floor and ceiling *)
Lemma rfloor_spec x z : (z <= rfloor x)%Z <-> IZR z <= x.
Proof.
  unfold rfloor. destruct (base_Int_part x) as [H1 H2]. split; intros H.
  - apply IZR_le in H. lra.
  - apply Z.lt_succ_r. apply lt_IZR. rewrite succ_IZR. lra.
Qed.
Lemma rceil_spec x z : (rceil x <= z)%Z <-> x <= IZR z.
Proof.
  unfold rceil. pose proof (rfloor_spec (- x) (- z)) as H. unfold rfloor in H. rewrite opp_IZR in H.
  split; intros L.
  - assert (- z <= Int_part (- x))%Z as L' by lia. apply H in L'. lra.
  - assert (- z <= Int_part (- x))%Z; [|lia]. apply H. lra.
Qed.

Lemma sample_size_least R0 CI L shape n : sample_size_no_failures R0 CI L shape = Ok n ->
  (1 <= n)%Z /\ forall m : nat, CI <= 1 - Rpower R0 (INR m * Rpower L shape) <-> (n <= Z.of_nat m)%Z.
Proof.
  unfold sample_size_no_failures. destruct (Rltb CI (1 / 2)) eqn:E1; [discriminate|].
  destruct (Rleb 1 CI) eqn:E2; [discriminate|]. destruct (Rleb R0 0) eqn:E3; [discriminate|].
  destruct (Rleb 1 R0) eqn:E4; [discriminate|]. cbn [orb]. destruct (Rltb shape 0); [discriminate|].
  destruct (Rleb L 0) eqn:E6; [discriminate|]. intros H. injection H as <-.
  apply Rltb_false in E1. apply Rleb_false in E2, E3, E4, E6.
  set (P := Rpower L shape). assert (0 < P) as HP by apply exp_pos.
  assert (ln R0 < 0) as HR. { rewrite <- ln_1. apply ln_increasing; lra. }
  assert (ln (1 - CI) < 0) as HC. { rewrite <- ln_1. apply ln_increasing; lra. }
  assert (P * ln R0 < 0) as HPR by nra.
  set (x := ln (1 - CI) / (P * ln R0)).
  assert (ln (1 - CI) = x * (P * ln R0)) as Ex by (unfold x; field; split; lra).
  assert (0 < x) as Hx by nra.
  split.
  - destruct (Z.le_gt_cases 1 (rceil x)) as [A|A]; [exact A|exfalso].
    assert (rceil x <= 0)%Z as B by lia. apply rceil_spec in B. lra.
  - intros m. rewrite rceil_spec, <- INR_IZR_INZ. unfold Rpower at 1.
    replace (INR m * P * ln R0) with (INR m * (P * ln R0)) by ring. split; intros H.
    + assert (exp (INR m * (P * ln R0)) <= 1 - CI) as H' by lra.
      destruct (Rle_or_lt x (INR m)) as [A|A]; [exact A|exfalso].
      assert (ln (1 - CI) < INR m * (P * ln R0)) as B by (rewrite Ex; nra).
      apply exp_increasing in B. rewrite exp_ln in B by lra. lra.
    + assert (exp (INR m * (P * ln R0)) <= exp (ln (1 - CI))) as B.
      { assert (INR m * (P * ln R0) <= ln (1 - CI)) as [A|A] by (rewrite Ex; nra).
        - left. now apply exp_increasing.
        - rewrite A. lra. }
      rewrite exp_ln in B by lra. lra.
Qed.

(** * Sequential sampling *)
Section Sequential.
  Variables p1 p2 alpha beta : R.
  Hypothesis H1 : 0 < p1.
  Hypothesis H12 : p1 < p2.
  Hypothesis H2 : p2 < 1.
  Hypothesis Ha : 0 < alpha.
  Hypothesis Hb : 0 < beta.
  Hypothesis Hab : alpha + beta < 1.
  Let g := ln ((1 - p1) / (1 - p2)).
  Let d := ln (p2 / p1) + g.
  Let h1 := ln ((1 - (1 - alpha)) / (1 - beta)) / d.
  Let h2 := ln ((1 - (1 - beta)) / (1 - alpha)) / d.
  Let s := g / d.

  Local Lemma ratio_gt x y : 0 < y -> y < x -> 1 < x / y.
  Proof. intros Hy H. apply Rmult_lt_reg_r with y; [assumption|]. unfold Rdiv. rewrite Rmult_assoc, Rinv_l by lra. lra. Qed.
  Local Lemma g_pos : 0 < g.
  Proof. unfold g. rewrite <- ln_1. apply ln_increasing; [lra|]. apply ratio_gt; lra. Qed.
  Local Lemma d_pos : g < d.
  Proof. unfold d. assert (0 < ln (p2 / p1)); [|lra]. rewrite <- ln_1. apply ln_increasing; [lra|]. apply ratio_gt; lra. Qed.
  Local Lemma ln_inv_ratio x y : 0 < x -> 0 < y -> ln (x / y) = - ln (y / x).
  Proof. intros Hx Hy. rewrite <- ln_Rinv; [f_equal; field; lra|now apply Rdiv_lt_0_compat]. Qed.
  Local Lemma h1d : h1 * d = ln (alpha / (1 - beta)).
  Proof. pose proof g_pos. pose proof d_pos. unfold h1. replace (1 - (1 - alpha)) with alpha by ring. field. lra. Qed.
  Local Lemma h2d : h2 * d = ln (beta / (1 - alpha)).
  Proof. pose proof g_pos. pose proof d_pos. unfold h2. replace (1 - (1 - beta)) with beta by ring. field. lra. Qed.
  Local Lemma h1_neg : h1 < 0.
  Proof.
    pose proof g_pos. pose proof d_pos. assert (h1 * d < 0); [|nra]. rewrite h1d, ln_inv_ratio by lra.
    assert (0 < ln ((1 - beta) / alpha)); [|lra]. rewrite <- ln_1. apply ln_increasing; [lra|]. apply ratio_gt; lra.
  Qed.
  Local Lemma h2_neg : h2 < 0.
  Proof.
    pose proof g_pos. pose proof d_pos. assert (h2 * d < 0); [|nra]. rewrite h2d, ln_inv_ratio by lra.
    assert (0 < ln ((1 - alpha) / beta)); [|lra]. rewrite <- ln_1. apply ln_increasing; [lra|]. apply ratio_gt; lra.
  Qed.
  Local Lemma s_range : 0 < s < 1.
  Proof.
    pose proof g_pos. pose proof d_pos. unfold s. split; [apply Rdiv_lt_0_compat; lra|].
    apply Rmult_lt_reg_r with d; [lra|]. unfold Rdiv. rewrite Rmult_assoc, Rinv_l by lra. lra.
  Qed.

  Local Lemma llr n k : (k <= n)%nat -> log_likelihood_ratio p1 p2 n k = d * (INR k - s * INR n).
  Proof.
    intros Hk. pose proof g_pos. pose proof d_pos. unfold log_likelihood_ratio. rewrite minus_INR by assumption.
    rewrite (ln_inv_ratio (1 - p2)) by lra. fold g. replace (d * (INR k - s * INR n)) with (d * INR k - g * INR n) by (unfold s; field; lra).
    unfold d. ring.
  Qed.

  Lemma sequential_row_eq n : sequential_row p1 p2 alpha beta n =
    (n, (if (rfloor (s * INR n + h2) <? 0)%Z then None else Some (rfloor (s * INR n + h2))),
     (if (Z.of_nat n <? rceil (s * INR n - h1))%Z then None else Some (rceil (s * INR n - h1)))).
  Proof.
    unfold sequential_row. fold g. fold d. fold h1. fold h2. fold s. f_equal.
    destruct (Z.of_nat n <? rceil (s * INR n - h1))%Z; [reflexivity|].
    destruct (Z.ltb_spec (rceil (s * INR n - h1)) 0) as [L|L]; [exfalso|reflexivity].
    assert (rceil (s * INR n - h1) <= 0)%Z as L' by lia. apply rceil_spec in L'.
    pose proof h1_neg. pose proof s_range. pose proof (pos_INR n). nra.
  Qed.

  Lemma sequential_accept n k : (k <= n)%nat ->
    (exists a, snd (fst (sequential_row p1 p2 alpha beta n)) = Some a /\ (Z.of_nat k <= a)%Z) <->
    log_likelihood_ratio p1 p2 n k <= ln (beta / (1 - alpha)).
  Proof.
    intros Hk. rewrite sequential_row_eq. cbn [fst snd]. rewrite llr by assumption. rewrite <- h2d.
    pose proof g_pos. pose proof d_pos.
    assert (d * (INR k - s * INR n) <= h2 * d <-> INR k <= s * INR n + h2) as -> by (split; intros; nra).
    rewrite (INR_IZR_INZ k). rewrite <- rfloor_spec. split.
    - intros (a & E & L). destruct (_ <? 0)%Z; [discriminate|]. injection E as <-. exact L.
    - intros L. destruct (Z.ltb_spec (rfloor (s * INR n + h2)) 0); [lia|]. eauto.
  Qed.

  Lemma sequential_reject n k : (k <= n)%nat ->
    (exists r, snd (sequential_row p1 p2 alpha beta n) = Some r /\ (r <= Z.of_nat k)%Z) <->
    ln ((1 - beta) / alpha) <= log_likelihood_ratio p1 p2 n k.
  Proof.
    intros Hk. rewrite sequential_row_eq. cbn [snd]. rewrite llr by assumption.
    rewrite (ln_inv_ratio (1 - beta)) by lra. rewrite <- h1d. pose proof g_pos. pose proof d_pos.
    assert (- (h1 * d) <= d * (INR k - s * INR n) <-> s * INR n - h1 <= INR k) as -> by (split; intros; nra).
    rewrite (INR_IZR_INZ k). rewrite <- rceil_spec. split.
    - intros (a & E & L). destruct (_ <? _)%Z; [discriminate|]. injection E as <-. exact L.
    - intros L. destruct (Z.ltb_spec (Z.of_nat n) (rceil (s * INR n - h1))); [lia|]. eauto.
  Qed.

  Lemma sequential_order n a r : snd (fst (sequential_row p1 p2 alpha beta n)) = Some a ->
    snd (sequential_row p1 p2 alpha beta n) = Some r -> (0 <= a < r)%Z /\ (r <= Z.of_nat n)%Z.
  Proof.
    rewrite sequential_row_eq. cbn [fst snd].
    destruct (Z.ltb_spec (rfloor (s * INR n + h2)) 0); [discriminate|].
    destruct (Z.ltb_spec (Z.of_nat n) (rceil (s * INR n - h1))); [discriminate|].
    intros E1 E2. injection E1 as <-. injection E2 as <-. split; [|lia]. split; [lia|].
    apply lt_IZR. pose proof (proj1 (rfloor_spec (s * INR n + h2) _) (Z.le_refl _)).
    pose proof (proj1 (rceil_spec (s * INR n - h1) _) (Z.le_refl _)).
    pose proof h1_neg. pose proof h2_neg. lra.
  Qed.

  (** Once there is an acceptance (rejection) number it stays and never decreases. *)
  Lemma sequential_accept_mono n n' a : (n <= n')%nat ->
    snd (fst (sequential_row p1 p2 alpha beta n)) = Some a ->
    exists a', snd (fst (sequential_row p1 p2 alpha beta n')) = Some a' /\ (a <= a')%Z.
  Proof.
    intros Hn. rewrite !sequential_row_eq. cbn [fst snd].
    destruct (Z.ltb_spec (rfloor (s * INR n + h2)) 0); [discriminate|]. intros E. injection E as <-.
    assert (rfloor (s * INR n + h2) <= rfloor (s * INR n' + h2))%Z as L.
    { apply rfloor_spec. pose proof (proj1 (rfloor_spec (s * INR n + h2) _) (Z.le_refl _)).
      apply le_INR in Hn. pose proof s_range. nra. }
    destruct (Z.ltb_spec (rfloor (s * INR n' + h2)) 0); [lia|]. eauto.
  Qed.
  Lemma sequential_reject_mono n n' r : (n <= n')%nat ->
    snd (sequential_row p1 p2 alpha beta n) = Some r ->
    exists r', snd (sequential_row p1 p2 alpha beta n') = Some r' /\ (r <= r')%Z.
  Proof.
    intros Hn. rewrite !sequential_row_eq. cbn [snd].
    destruct (Z.ltb_spec (Z.of_nat n) (rceil (s * INR n - h1))) as [?|L0]; [discriminate|]. intros E. injection E as <-.
    assert (rceil (s * INR n - h1) <= rceil (s * INR n' - h1))%Z as L.
    { apply rceil_spec. pose proof (proj1 (rceil_spec (s * INR n' - h1) _) (Z.le_refl _)).
      apply le_INR in Hn. pose proof s_range. nra. }
    assert (rceil (s * INR n' - h1) <= Z.of_nat n')%Z as L2.
    { apply rceil_spec. apply rceil_spec in L0. rewrite <- INR_IZR_INZ in *. apply le_INR in Hn. pose proof s_range. nra. }
    destruct (Z.ltb_spec (Z.of_nat n') (rceil (s * INR n' - h1))); [lia|]. eauto.
  Qed.
End Sequential.
