(** Chebyshev bounds for the Poisson distribution; the test duration solver. *)
From Coquelicot Require Import Coquelicot.
From Coq Require Import List Arith ZArith Reals Bool Lra Lia.
From Verif Require Import Base RealFacts Gauss NonparModel NonparProofs RList RepairModel RepairProofs RepairProofs2 Binom TestingModel TestingSpec TestingProofs TestingProofs2.
Import ListNotations.
Open Scope R_scope.

Definition ppmf (m : R) (j : nat) : R := exp (- m) * (m ^ j / INR (fact j)).
Definition pvar (m : R) (n : nat) : R := bsum (fun j => (INR j - m) ^ 2 * ppmf m j) 0 n.

Lemma pois_sum k m : pois k m = bsum (ppmf m) 0 k.
Proof. unfold pois. rewrite <- bsum_scal. reflexivity. Qed.
Lemma nat_above m : exists N, m < INR N.
Proof.
  exists (Z.to_nat (up m)). destruct (archimed m) as [H _]. rewrite INR_IZR_INZ. apply Rlt_le_trans with (IZR (up m)); [lra|].
  apply IZR_le. lia.
Qed.
Lemma ppmf_nonneg m j : 0 <= m -> 0 <= ppmf m j.
Proof. apply pois_term_nonneg. Qed.
Lemma ppmf_step m j : m * ppmf m j = INR (S j) * ppmf m (S j).
Proof.
  unfold ppmf. rewrite fact_simpl, mult_INR. cbn [pow]. field. split; [apply INR_fact_neq_0|apply not_0_INR; lia].
Qed.
Lemma pvar_S m n : pvar m (S n) = pvar m n + (INR n - m) ^ 2 * ppmf m n.
Proof. unfold pvar. rewrite bsum_S_r. rewrite Nat.add_0_l. reflexivity. Qed.

Lemma pvar_closed m n : pvar m (S n) = m * pois n m + m * ppmf m n * (m - INR n).
Proof.
  induction n as [|n IH].
  - rewrite pvar_S. unfold pvar, pois, bsum. cbn. ring.
  - rewrite pvar_S, IH, pois_S. fold (ppmf m n). pose proof (ppmf_step m n) as E. rewrite !S_INR in *.
    replace (m * ppmf m n * (m - INR n)) with ((INR n + 1) * ppmf m (S n) * (m - INR n)) by (rewrite <- E; ring).
    replace (m * (pois n m + ppmf m n)) with (m * pois n m + (INR n + 1) * ppmf m (S n)) by (rewrite <- E; ring).
    ring.
Qed.
Lemma pvar_mono m n n' : 0 <= m -> (n <= n')%nat -> pvar m n <= pvar m n'.
Proof.
  intros Hm H. induction H as [|n' H IH]; [lra|]. rewrite pvar_S. pose proof (ppmf_nonneg m n' Hm).
  assert (0 <= (INR n' - m) ^ 2 * ppmf m n'); [|lra]. apply Rmult_le_pos; [apply pow2_ge_0|assumption].
Qed.
Lemma pvar_le m n : 0 <= m -> pvar m n <= m.
Proof.
  intros Hm. destruct (nat_above m) as [N HN].
  apply Rle_trans with (pvar m (S (n + N))); [apply pvar_mono; [assumption|lia]|].
  rewrite pvar_closed. pose proof (pois_le_1 (n + N) m Hm). pose proof (ppmf_nonneg m (n + N) Hm).
  assert (INR N <= INR (n + N)) by (apply le_INR; lia).
  assert (0 <= m * ppmf m (n + N)) by now apply Rmult_le_pos. nra.
Qed.

Lemma cheb_lower m k : INR k <= m -> pois (S k) m * (m - INR k) ^ 2 <= m.
Proof.
  intros H. pose proof (pos_INR k). apply Rle_trans with (pvar m (S k)); [|apply pvar_le; lra].
  rewrite pois_sum. unfold pvar. rewrite Rmult_comm. rewrite <- bsum_scal. apply bsum_le. intros j Hj.
  apply Rmult_le_compat_r; [apply ppmf_nonneg; lra|].
  assert (INR j <= INR k) by (apply le_INR; lia). nra.
Qed.
Lemma cheb_upper_fin m k d : 0 <= m <= INR k -> (pois (k + d) m - pois k m) * (INR k - m) ^ 2 <= m.
Proof.
  intros H. apply Rle_trans with (pvar m (k + d) - pvar m k).
  - rewrite !pois_sum. unfold pvar. rewrite !bsum_split. rewrite Nat.add_0_l.
    match goal with |- (?a + ?b - ?a) * _ <= ?c + ?e - ?c => replace (a + b - a) with b by ring; replace (c + e - c) with e by ring end.
    rewrite Rmult_comm, <- bsum_scal. apply bsum_le. intros j Hj.
    apply Rmult_le_compat_r; [apply ppmf_nonneg; lra|]. assert (INR k <= INR j) by (apply le_INR; lia). nra.
  - pose proof (pvar_le m (k + d) ltac:(lra)). pose proof (pvar_mono m 0 k ltac:(lra) ltac:(lia)) as A.
    change (pvar m 0) with 0 in A. lra.
Qed.
Lemma cheb_upper m k : 0 <= m < INR k -> (1 - pois k m) * (INR k - m) ^ 2 <= m.
Proof.
  intros H. set (D := (INR k - m) ^ 2). assert (0 < D) as HD by (unfold D; apply pow_lt; lra).
  destruct (Rle_or_lt ((1 - pois k m) * D) m) as [L|L]; [exact L|exfalso].
  destruct (pois_large m (pois k m + m / D)) as [N HN]; [lra| |].
  { apply Rmult_lt_reg_r with D; [assumption|]. replace ((pois k m + m / D) * D) with (pois k m * D + m) by (field; lra). lra. }
  assert (k <= N)%nat as HkN.
  { destruct (Nat.le_gt_cases k N) as [A|A]; [exact A|exfalso].
    pose proof (pois_mono_le N k m ltac:(lra) ltac:(lia)). assert (0 <= m / D); [|lra].
    apply Rmult_le_pos; [lra|left; now apply Rinv_0_lt_compat]. }
  pose proof (cheb_upper_fin m k (N - k) ltac:(lra)) as A. replace (k + (N - k))%nat with N in A by lia. fold D in A.
  assert (m < (pois N m - pois k m) * D); [|lra].
  apply Rmult_lt_reg_r with (/ D); [now apply Rinv_0_lt_compat|]. rewrite Rmult_assoc, Rinv_r, Rmult_1_r by lra.
  unfold Rdiv in HN. lra.
Qed.

(** The risk tends to zero. *)
Lemma risk_small c rho eps n0 : 0 < c < 1 -> 0 < rho < 1 -> 0 < eps ->
  exists k, (n0 <= k)%nat /\ forall m, 0 < m -> pois (S k) m = c -> 1 - pois (S k) (rho * m) < eps.
Proof.
  intros Hc Hr He. set (d := (1 - rho) / 2). assert (0 < d < 1 / 2) as Hd by (unfold d; lra).
  set (B := 1 / (c * d ^ 2) + 1 / (d ^ 2 * eps)).
  assert (0 < d ^ 2) as Hd2 by (apply pow_lt; lra).
  assert (0 < 1 / (c * d ^ 2)) as HB1 by (apply Rdiv_lt_0_compat; [lra|apply Rmult_lt_0_compat; lra]).
  assert (0 < 1 / (d ^ 2 * eps)) as HB2 by (apply Rdiv_lt_0_compat; [lra|apply Rmult_lt_0_compat; lra]).
  destruct (pois_large B c) as [k0 Hk0]; [unfold B; lra|lra|].
  exists (n0 + k0)%nat. split; [lia|]. set (k := (n0 + k0)%nat). intros m Hm E.
  assert (B < m) as HBm.
  { apply (pois_lt_iff k); [lra|unfold B; lra|]. rewrite E.
    pose proof (pois_mono_le k0 (S k) B ltac:(unfold B; lra) ltac:(unfold k; lia)). lra. }
  assert (1 < c * d ^ 2 * m) as A1.
  { apply Rmult_lt_reg_l with (1 / (c * d ^ 2)); [assumption|].
    replace (1 / (c * d ^ 2) * (c * d ^ 2 * m)) with m by (field; lra). unfold B in HBm. lra. }
  assert (1 < d ^ 2 * eps * m) as A2.
  { apply Rmult_lt_reg_l with (1 / (d ^ 2 * eps)); [assumption|].
    replace (1 / (d ^ 2 * eps) * (d ^ 2 * eps * m)) with m by (field; lra). unfold B in HBm. lra. }
  assert (m - d * m <= INR k) as A3.
  { destruct (Rle_or_lt (m - d * m) (INR k)) as [L|L]; [exact L|exfalso].
    assert (0 < d * m) by (apply Rmult_lt_0_compat; lra).
    pose proof (cheb_lower m k ltac:(lra)) as Q. rewrite E in Q.
    assert ((d * m) ^ 2 <= (m - INR k) ^ 2) by (apply pow_incr; lra).
    assert (c * (d * m) ^ 2 <= m) by nra.
    assert (m * 1 < m * (c * d ^ 2 * m)) by (apply Rmult_lt_compat_l; lra). nra. }
  assert (d * m <= INR (S k) - rho * m) as A4.
  { rewrite S_INR. replace rho with (1 - 2 * d) by (unfold d; field). lra. }
  assert (0 < d * m) as A5 by (apply Rmult_lt_0_compat; lra).
  assert (0 <= rho * m) as A6 by (apply Rmult_le_pos; lra).
  pose proof (cheb_upper (rho * m) (S k) ltac:(lra)) as Q.
  assert ((d * m) ^ 2 <= (INR (S k) - rho * m) ^ 2) as A7 by (apply pow_incr; lra).
  pose proof (pois_le_1 (S k) (rho * m) A6) as A8.
  assert ((1 - pois (S k) (rho * m)) * (d * m) ^ 2 <= m) as A9.
  { apply Rle_trans with ((1 - pois (S k) (rho * m)) * (INR (S k) - rho * m) ^ 2); [apply Rmult_le_compat_l; lra|]. nra. }
  destruct (Rlt_or_le (1 - pois (S k) (rho * m)) eps) as [L|L]; [exact L|exfalso].
  assert (eps * (d * m) ^ 2 <= m) as A10.
  { apply Rle_trans with ((1 - pois (S k) (rho * m)) * (d * m) ^ 2); [|assumption]. apply Rmult_le_compat_r; [apply pow2_ge_0|assumption]. }
  assert (m * 1 < m * (d ^ 2 * eps * m)) by (apply Rmult_lt_compat_l; lra). nra.
Qed.

(** * The loop *)
Lemma rtd_loop_found dur risk pr fuel f k : (1 <= fuel)%nat -> (2 * k + 1 <= f + fuel)%nat ->
  rtd_loop fuel dur risk pr f (Some k) = Some (dur (k - 1)%nat).
Proof.
  revert f. induction fuel as [|fuel IH]; intros f H1 H2; [lia|]. cbn [rtd_loop].
  destruct (Rltb ((INR k - 1) * (3 / 2)) (INR f)) eqn:E; [reflexivity|].
  apply Rltb_false in E. assert (f < 2 * k)%nat as L.
  { apply INR_lt. rewrite mult_INR. change (INR 2) with 2. pose proof (pos_INR k). lra. }
  apply IH; lia.
Qed.

Lemma rtd_loop_spec dur risk pr k fuel f : olt (risk k) pr = true ->
  (forall j, (j < k)%nat -> olt (risk j) pr = false) -> INR k <= 10000000000 ->
  (f <= k)%nat -> (2 * k + 1 <= f + fuel)%nat ->
  rtd_loop fuel dur risk pr f None = Some (dur (k - 1)%nat).
Proof.
  intros H1 H2 H3. revert f. induction fuel as [|fuel IH]; intros f Hf Hfuel; [lia|].
  destruct (Nat.eq_dec f k) as [->|Hne].
  - transitivity (rtd_loop (S fuel) dur risk pr k (Some k)).
    + cbn [rtd_loop]. rewrite H1. reflexivity.
    + apply rtd_loop_found; lia.
  - cbn [rtd_loop]. rewrite (H2 f) by lia.
    assert (Rltb 10000000000 (INR f) = false) as ->.
    { apply Rltb_false. apply Rle_trans with (INR k); [apply le_INR; lia|exact H3]. }
    apply IH; lia.
Qed.

(** * The risks *)
Section Duration.
  Variables Mr Md cr pr : R.
  Variables os tt : bool.
  Hypothesis HM : 0 < Mr.
  Hypothesis HMd : Mr < Md.
  Hypothesis Hcr : 0 < cr <= 1 / 2.
  Hypothesis Hpr : 0 < pr <= 1 / 2.

  (** with k failures and duration T: risks of consumer and producer *)
  Definition crisk (T : R) (k : nat) : R := sides os * pois (half_dof k tt) (T / Mr).
  Definition prisk (T : R) (k : nat) : R := 1 - sides os * pois (half_dof k tt) (T / Md).

  Lemma rtd_at k : (0 < half_dof k tt)%nat -> exists T, 0 < T /\ crisk T k = cr /\
    rtd_duration Mr cr os tt k = Some T /\ rtd_risk Mr Md cr os tt k = Some (prisk T k).
  Proof.
    intros Hk. destruct (planned_duration_ex Mr k (1 - cr) os tt HM ltac:(lra) Hk) as (T & HT & HP).
    exists T. split; [exact HT|]. split; [unfold planned in HP; unfold crisk; lra|].
    pose proof (proj1 (planner_duration 0 T Mr k (1 - cr) os tt HT HM ltac:(lra) Hk) HP) as E1.
    assert (rtd_duration Mr cr os tt k = Some T) as ED by (unfold rtd_duration; now rewrite E1).
    split; [exact ED|]. unfold rtd_risk. rewrite ED.
    assert (planned T Md k (prisk T k) os tt) as HP2 by (unfold planned, prisk; ring).
    apply (planner_CI 0) in HP2; [|lra|lra|assumption]. now rewrite HP2.
  Qed.

  Lemma rtd_exists : exists k, olt (rtd_risk Mr Md cr os tt k) pr = true.
  Proof.
    pose proof (sides_pos os) as Hs.
    destruct (risk_small (cr / sides os) (Mr / Md) (pr / sides os) 0) as (k & _ & Hk).
    - split; [apply Rdiv_lt_0_compat; lra|]. destruct os; simpl; lra.
    - split; [apply Rdiv_lt_0_compat; lra|]. apply Rmult_lt_reg_r with Md; [lra|]. unfold Rdiv. rewrite Rmult_assoc, Rinv_l by lra. lra.
    - apply Rdiv_lt_0_compat; lra.
    - exists (if tt then k else S k). set (n := if tt then k else S k).
      assert (half_dof n tt = S k) as En by (unfold n; now destruct tt).
      destruct (rtd_at n ltac:(lia)) as (T & HT & E & _ & ->). cbn [olt]. apply Rltb_true. unfold prisk, crisk in *.
      rewrite En in *. specialize (Hk (T / Mr) ltac:(apply Rdiv_lt_0_compat; lra)).
      replace (Mr / Md * (T / Mr)) with (T / Md) in Hk by (field; lra).
      assert (1 - pois (S k) (T / Md) < pr / sides os) as L by (apply Hk; rewrite <- E; field; lra).
      assert (pois (S k) (T / Md) <= 1) by (apply pois_le_1; left; apply Rdiv_lt_0_compat; lra).
      destruct os; simpl in *; lra.
  Qed.

  Lemma rtd_full : exists k, olt (rtd_risk Mr Md cr os tt k) pr = true /\
    (forall j, (j < k)%nat -> olt (rtd_risk Mr Md cr os tt j) pr = false) /\
    (INR k <= 10000000000 -> forall fuel, (2 * k + 1 <= fuel)%nat ->
       reliability_test_duration fuel Mr Md cr pr os tt = Some (Ok (rtd_duration Mr cr os tt (k - 1)))).
  Proof.
    destruct (least_true _ rtd_exists) as (k & H1 & H2). exists k. split; [exact H1|]. split; [exact H2|].
    intros H3 fuel Hf. unfold reliability_test_duration.
    rewrite (proj2 (Rleb_false cr 0)), (proj2 (Rltb_false (1 / 2) cr)) by lra.
    rewrite (proj2 (Rleb_false pr 0)), (proj2 (Rltb_false (1 / 2) pr)) by lra.
    rewrite (proj2 (Rleb_false Md Mr)) by lra. cbn [orb].
    rewrite (rtd_loop_spec _ _ pr k fuel 0 H1 H2 H3) by lia. reflexivity.
  Qed.
End Duration.

Lemma rtd_time Mr Md cr pr os : 0 < Mr < Md -> 0 < cr <= 1 / 2 -> 0 < pr <= 1 / 2 ->
  exists k (T : nat -> R),
    (forall j, 0 < T j /\ sides os * pois (S j) (T j / Mr) = cr) /\
    1 - sides os * pois (S k) (T k / Md) < pr /\
    (forall j, (j < k)%nat -> pr <= 1 - sides os * pois (S j) (T j / Md)) /\
    (INR k <= 10000000000 -> forall fuel, (2 * k + 1 <= fuel)%nat ->
       reliability_test_duration fuel Mr Md cr pr os true = Some (Ok (Some (T (k - 1)%nat)))).
Proof.
  intros HM Hcr Hpr. destruct (rtd_full Mr Md cr pr os true ltac:(lra) ltac:(lra) Hcr Hpr) as (k & H1 & H2 & H3).
  set (T := fun j => match rtd_duration Mr cr os true j with Some t => t | None => 0 end).
  assert (forall j, 0 < T j /\ sides os * pois (S j) (T j / Mr) = cr /\ rtd_duration Mr cr os true j = Some (T j) /\
    rtd_risk Mr Md cr os true j = Some (1 - sides os * pois (S j) (T j / Md))) as HT.
  { intros j. destruct (rtd_at Mr Md cr os true ltac:(lra) ltac:(lra) Hcr j) as (t & Ht & E & ED & ER); [simpl; lia|].
    unfold T. rewrite ED. repeat split; auto. }
  exists k, T. split; [|split; [|split]].
  - intros j. destruct (HT j) as (A & B & _). auto.
  - destruct (HT k) as (_ & _ & _ & E). rewrite E in H1. cbn [olt] in H1. now apply Rltb_true in H1.
  - intros j Hj. destruct (HT j) as (_ & _ & _ & E). specialize (H2 j Hj). rewrite E in H2. cbn [olt] in H2. now apply Rltb_false in H2.
  - intros Hk fuel Hf. rewrite H3 by assumption. destruct (HT (k - 1)%nat) as (_ & _ & -> & _). reflexivity.
Qed.

Lemma rtd_fail Mr Md cr pr os : 0 < Mr < Md -> 0 < cr <= 1 / 2 -> 0 < pr <= 1 / 2 ->
  exists k (T : nat -> R), (1 <= k)%nat /\
    (forall j, (1 <= j)%nat -> 0 < T j /\ sides os * pois j (T j / Mr) = cr) /\
    1 - sides os * pois k (T k / Md) < pr /\
    (forall j, (1 <= j < k)%nat -> pr <= 1 - sides os * pois j (T j / Md)) /\
    (INR k <= 10000000000 -> forall fuel, (2 * k + 1 <= fuel)%nat ->
       reliability_test_duration fuel Mr Md cr pr os false =
       Some (Ok (if (k =? 1)%nat then None else Some (T (k - 1)%nat)))).
Proof.
  intros HM Hcr Hpr. destruct (rtd_full Mr Md cr pr os false ltac:(lra) ltac:(lra) Hcr Hpr) as (k & H1 & H2 & H3).
  set (T := fun j => match rtd_duration Mr cr os false j with Some t => t | None => 0 end).
  assert (rtd_duration Mr cr os false 0 = None) as D0.
  { unfold rtd_duration, reliability_test_planner. rewrite CI_check by lra. reflexivity. }
  assert (rtd_risk Mr Md cr os false 0 = None) as R0.
  { unfold rtd_risk. rewrite D0. unfold reliability_test_planner. destruct (Req_EM_T Md 0); [reflexivity|]. cbn. now destruct os. }
  assert (forall j, (1 <= j)%nat -> 0 < T j /\ sides os * pois j (T j / Mr) = cr /\ rtd_duration Mr cr os false j = Some (T j) /\
    rtd_risk Mr Md cr os false j = Some (1 - sides os * pois j (T j / Md))) as HT.
  { intros j Hj. destruct (rtd_at Mr Md cr os false ltac:(lra) ltac:(lra) Hcr j) as (t & Ht & E & ED & ER); [simpl; lia|].
    unfold T. rewrite ED. repeat split; auto. }
  assert (1 <= k)%nat as Hk1. { destruct k; [rewrite R0 in H1; discriminate|lia]. }
  exists k, T. split; [exact Hk1|]. split; [|split; [|split]].
  - intros j Hj. destruct (HT j Hj) as (A & B & _). auto.
  - destruct (HT k Hk1) as (_ & _ & _ & E). rewrite E in H1. cbn [olt] in H1. now apply Rltb_true in H1.
  - intros j Hj. destruct (HT j ltac:(lia)) as (_ & _ & _ & E). specialize (H2 j ltac:(lia)). rewrite E in H2. cbn [olt] in H2. now apply Rltb_false in H2.
  - intros Hk fuel Hf. rewrite H3 by assumption. destruct (Nat.eqb_spec k 1) as [->|Hne]; [exact (f_equal (fun x => Some (Ok x)) D0)|].
    destruct (HT (k - 1)%nat ltac:(lia)) as (_ & _ & -> & _). reflexivity.
Qed.

(** A failure terminated test whose answer is nan. *)
Lemma rtd_refuted : exists Mr Md cr pr fuel, 0 < Mr < Md /\ 0 < cr <= 1 / 2 /\ 0 < pr <= 1 / 2 /\
  reliability_test_duration fuel Mr Md cr pr true false = Some (Ok None).
Proof.
  destruct (rtd_fail 1 2 (1 / 2) (1 / 2) true) as (k & T & Hk & HT & H1 & H2 & H3); try lra.
  destruct (HT 1%nat ltac:(lia)) as [HT1 E1]. rewrite pois_1 in E1. cbn [sides] in E1.
  assert (k = 1%nat) as ->.
  { destruct (Nat.eq_dec k 1) as [E|E]; [exact E|exfalso]. specialize (H2 1%nat ltac:(lia)). rewrite pois_1 in H2. cbn [sides] in H2.
    assert (exp (- (T 1%nat / 1)) < exp (- (T 1%nat / 2))) by (apply exp_increasing; lra). lra. }
  exists 1, 2, (1 / 2), (1 / 2), 3%nat. repeat (split; [lra|]). apply H3; [simpl; lra|lia].
Qed.
