(** Test planner and test duration. *)
From Coquelicot Require Import Coquelicot.
From Coq Require Import List Arith ZArith Reals Bool Lra Lia.
From Verif Require Import Base RealFacts Gauss NonparModel NonparProofs RList RepairModel RepairProofs RepairProofs2 Binom TestingModel TestingSpec TestingProofs.
Import ListNotations.
Open Scope R_scope.

Lemma sides_pos os : 0 < sides os. Proof. destruct os; simpl; lra. Qed.
Lemma CI_adj_sides CI os : 1 - CI_adj CI os = (1 - CI) / sides os.
Proof. destruct os; simpl; lra. Qed.
Lemma CI_adj_range CI os : 1 / 2 <= CI < 1 -> 0 < CI_adj CI os < 1.
Proof. destruct os; simpl; lra. Qed.

Definition planned (T M : R) (k : nat) (CI : R) (os tt : bool) : Prop :=
  sides os * pois (half_dof k tt) (T / M) = 1 - CI.

Lemma CI_check CI : 1 / 2 <= CI < 1 -> Rltb CI (1 / 2) || Rleb 1 CI = false.
Proof. intros H. apply orb_false_iff. split; [apply Rltb_false|apply Rleb_false]; lra. Qed.

Lemma planned_q T M k CI os tt : 0 < T -> 0 < M -> 1 / 2 <= CI < 1 -> (0 < half_dof k tt)%nat ->
  (planned T M k CI os tt <-> chi2_ppf (CI_adj CI os) (half_dof k tt) = Some (2 * (T / M))).
Proof.
  intros HT HM HC Hk. pose proof (CI_adj_range CI os HC) as HA. pose proof (sides_pos os) as Hs. unfold planned.
  pose proof (CI_adj_sides CI os) as EA.
  assert (0 < T / M) as HTM by now apply Rdiv_lt_0_compat.
  destruct (half_dof k tt) as [|h]; [lia|].
  destruct (chi2_ppf_spec h (CI_adj CI os) HA) as (m & Hm & Em & ->). split; intros H.
  - do 2 f_equal. apply (pois_inj h); try lra. rewrite Em, EA, <- H. field. lra.
  - injection H as H. assert (T / M = m) as -> by lra. rewrite Em, EA. field. lra.
Qed.

Lemma planner_MTBF fuel T M k CI os tt : 0 < T -> 0 < M -> 1 / 2 <= CI < 1 -> (0 < half_dof k tt)%nat ->
  (planned T M k CI os tt <->
   reliability_test_planner fuel None (Some k) (Some CI) (Some (Some T)) os tt = Some (Ok (mkPlan (Some T) (Some M) k (Some CI)))).
Proof.
  intros HT HM HC Hk. rewrite planned_q by assumption. unfold reliability_test_planner. rewrite CI_check by assumption.
  pose proof (CI_adj_range CI os HC) as HA. destruct (half_dof k tt) as [|h]; [lia|].
  destruct (chi2_ppf_spec h (CI_adj CI os) HA) as (m & Hm & Em & ->). cbn [odiv option_map]. split; intros H.
  - injection H as H. do 4 f_equal. rewrite <- (Rmult_eq_reg_l 2 (T / M) m) by lra. field. lra.
  - injection H as H. do 2 f_equal. rewrite <- H. field. lra.
Qed.

Lemma planner_duration fuel T M k CI os tt : 0 < T -> 0 < M -> 1 / 2 <= CI < 1 -> (0 < half_dof k tt)%nat ->
  (planned T M k CI os tt <->
   reliability_test_planner fuel (Some M) (Some k) (Some CI) None os tt = Some (Ok (mkPlan (Some T) (Some M) k (Some CI)))).
Proof.
  intros HT HM HC Hk. rewrite planned_q by assumption. unfold reliability_test_planner. rewrite CI_check by assumption.
  pose proof (CI_adj_range CI os HC) as HA. destruct (half_dof k tt) as [|h]; [lia|].
  destruct (chi2_ppf_spec h (CI_adj CI os) HA) as (m & Hm & Em & ->). cbn [option_map]. split; intros H.
  - injection H as H. do 4 f_equal. rewrite <- (Rmult_eq_reg_l 2 (T / M) m) by lra. field. lra.
  - injection H as H. do 2 f_equal. rewrite <- H. field. lra.
Qed.

Lemma planner_CI fuel T M k CI os tt : 0 < T -> 0 < M -> (0 < half_dof k tt)%nat ->
  (planned T M k CI os tt <->
   reliability_test_planner fuel (Some M) (Some k) None (Some (Some T)) os tt = Some (Ok (mkPlan (Some T) (Some M) k (Some CI)))).
Proof.
  intros HT HM Hk. unfold planned, reliability_test_planner. destruct (Req_EM_T M 0); [lra|].
  assert (0 < T / M) as HTM by now apply Rdiv_lt_0_compat.
  destruct (half_dof k tt) as [|h]; [lia|]. cbn [option_map chi2_cdf].
  replace (T / (M * (1 / 2))) with (2 * (T / M)) by (field; lra). rewrite chi2_cdf_pois by lra.
  replace (2 * (T / M) / 2) with (T / M) by (field; lra). destruct os; cbn [sides]; split; intros H.
  - do 4 f_equal. lra.
  - injection H as H. lra.
  - do 4 f_equal. lra.
  - injection H as H. lra.
Qed.

(** Forms 1 and 2 always find a value. *)
Lemma planned_MTBF_ex T k CI os tt : 0 < T -> 1 / 2 <= CI < 1 -> (0 < half_dof k tt)%nat ->
  exists M, 0 < M /\ planned T M k CI os tt.
Proof.
  intros HT HC Hk. pose proof (sides_pos os) as Hs. unfold planned. destruct (half_dof k tt) as [|h]; [lia|].
  destruct (pois_solve h ((1 - CI) / sides os)) as (m & Hm & E).
  { split; [apply Rdiv_lt_0_compat; lra|]. destruct os; simpl; lra. }
  exists (T / m). split; [now apply Rdiv_lt_0_compat|]. replace (T / (T / m)) with m by (field; lra). rewrite E. field. lra.
Qed.
Lemma planned_duration_ex M k CI os tt : 0 < M -> 1 / 2 <= CI < 1 -> (0 < half_dof k tt)%nat ->
  exists T, 0 < T /\ planned T M k CI os tt.
Proof.
  intros HM HC Hk. pose proof (sides_pos os) as Hs. unfold planned. destruct (half_dof k tt) as [|h]; [lia|].
  destruct (pois_solve h ((1 - CI) / sides os)) as (m & Hm & E).
  { split; [apply Rdiv_lt_0_compat; lra|]. destruct os; simpl; lra. }
  exists (m * M). split; [now apply Rmult_lt_0_compat|]. replace (m * M / M) with m by (field; lra). rewrite E. field. lra.
Qed.

(** * Number of failures *)
Lemma too_many_spec T M CI os tt k : 0 < T -> 0 < M -> 1 / 2 <= CI < 1 ->
  too_many T M (CI_adj CI os) tt k = true <->
  (0 < half_dof k tt)%nat /\ (1 - CI) / sides os < pois (half_dof k tt) (T / M).
Proof.
  intros HT HM HC. unfold too_many. pose proof (CI_adj_range CI os HC) as HA. pose proof (sides_pos os) as Hs.
  pose proof (CI_adj_sides CI os) as EA.
  assert (0 < T / M) as HTM by now apply Rdiv_lt_0_compat.
  destruct (half_dof k tt) as [|h]; [cbn; split; [discriminate|intros [? _]; lia]|].
  destruct (chi2_ppf_spec h (CI_adj CI os) HA) as (m & Hm & Em & ->). cbn [odiv option_map]. rewrite Rltb_true.
  rewrite <- EA, <- Em, pois_lt_iff by lra. replace (2 * T / (2 * m)) with (T / m) by (field; lra).
  assert (T = m * (T / m)) as E1 by (field; lra). assert (T = M * (T / M)) as E2 by (field; lra).
  set (a := T / m) in *. set (b := T / M) in *.
  assert (0 < a) by (unfold a; apply Rdiv_lt_0_compat; lra). split.
  - intros HH. split; [lia|]. nra.
  - intros [_ HH]. nra.
Qed.

Lemma too_many_mono T M CI os tt j k : 0 < T -> 0 < M -> 1 / 2 <= CI < 1 -> (j <= k)%nat ->
  too_many T M (CI_adj CI os) tt j = true -> too_many T M (CI_adj CI os) tt k = true.
Proof.
  intros HT HM HC Hjk. rewrite !too_many_spec by assumption. intros [H1 H2].
  assert (0 < T / M) as HTM by now apply Rdiv_lt_0_compat.
  assert (half_dof j tt <= half_dof k tt)%nat as L by (destruct tt; simpl; lia).
  split; [lia|]. pose proof (pois_mono_le _ _ (T / M) ltac:(lra) L). lra.
Qed.

Lemma too_many_ex T M CI os tt : 0 < T -> 0 < M -> 1 / 2 <= CI < 1 ->
  exists k, too_many T M (CI_adj CI os) tt k = true.
Proof.
  intros HT HM HC. assert (0 < T / M) as HTM by now apply Rdiv_lt_0_compat.
  destruct (pois_large (T / M) ((1 - CI) / sides os)) as [k Hk]; [lra| |].
  { destruct os; simpl; lra. }
  exists (S k). apply too_many_spec; try assumption.
  assert (k <= half_dof (S k) tt)%nat by (destruct tt; simpl; lia).
  split; [destruct tt; simpl; lia|]. pose proof (pois_mono_le k (half_dof (S k) tt) (T / M) ltac:(lra) ltac:(lia)). lra.
Qed.

(** Generic: a least-index search. *)
Lemma least_true (P : nat -> bool) : (exists k, P k = true) -> exists k, P k = true /\ forall j, (j < k)%nat -> P j = false.
Proof.
  intros [k Hk]. induction k as [k IH] using lt_wf_ind.
  destruct (existsb P (seq 0 k)) eqn:E.
  - apply existsb_exists in E. destruct E as (j & Hj & Hp). apply in_seq in Hj. apply (IH j); [lia|exact Hp].
  - exists k. split; [exact Hk|]. intros j Hj. destruct (P j) eqn:Ej; [|reflexivity].
    assert (existsb P (seq 0 k) = true); [|congruence]. apply existsb_exists. exists j. split; [apply in_seq; lia|exact Ej].
Qed.

Lemma failures_search_spec T M c tt fuel f k :
  too_many T M c tt k = true -> (forall j, (j < k)%nat -> too_many T M c tt j = false) ->
  (f <= k)%nat -> failures_search fuel T M c tt f = if (k - f <? fuel)%nat then Some k else None.
Proof.
  intros H1 H2. revert f. induction fuel as [|fuel IH]; intros f Hf; [cbn; now destruct (k - f)%nat|].
  cbn [failures_search]. destruct (Nat.eq_dec f k) as [->|Hne].
  - rewrite H1, Nat.sub_diag. reflexivity.
  - rewrite (H2 f) by lia. rewrite IH by lia. replace (k - f)%nat with (S (k - S f)) by lia.
    destruct (Nat.ltb_spec (k - S f) fuel); destruct (Nat.ltb_spec (S (k - S f)) (S fuel)); try reflexivity; lia.
Qed.

Lemma planner_failures T M CI os tt : 0 < T -> 0 < M -> 1 / 2 <= CI < 1 ->
  exists k, too_many T M (CI_adj CI os) tt k = true /\ (forall j, (j < k)%nat -> too_many T M (CI_adj CI os) tt j = false) /\
  forall fuel, reliability_test_planner fuel (Some M) None (Some CI) (Some (Some T)) os tt =
    if (k <? fuel)%nat then
      Some (if (k =? 0)%nat then Err ValueError else Ok (mkPlan (Some T) (Some M) (k - 1) (Some CI)))
    else None.
Proof.
  intros HT HM HC. destruct (least_true _ (too_many_ex T M CI os tt HT HM HC)) as (k & H1 & H2).
  exists k. split; [exact H1|]. split; [exact H2|]. intros fuel. unfold reliability_test_planner.
  rewrite CI_check by assumption. rewrite (failures_search_spec _ _ _ _ fuel 0 k H1 H2) by lia. rewrite Nat.sub_0_r.
  destruct (k <? fuel)%nat; [|reflexivity]. destruct k as [|k]; [now rewrite H1|]. rewrite (H2 0%nat) by lia. reflexivity.
Qed.

(** Demonstrated MTBF, through the planner itself. *)
Definition demonstrated (T : R) (k : nat) (CI : R) (os tt : bool) : option R :=
  match reliability_test_planner 0 None (Some k) (Some CI) (Some (Some T)) os tt with
  | Some (Ok p) => pl_MTBF p
  | _ => None
  end.
Lemma demonstrated_too_many T M CI os tt k m : 1 / 2 <= CI < 1 -> demonstrated T k CI os tt = Some m ->
  (too_many T M (CI_adj CI os) tt k = true <-> m < M).
Proof.
  intros HC. unfold demonstrated, reliability_test_planner, too_many. rewrite CI_check by assumption. cbn [pl_MTBF].
  intros ->. rewrite Rltb_true. lra.
Qed.
Lemma demonstrated_ex T CI os tt k : 0 < T -> 1 / 2 <= CI < 1 -> (0 < half_dof k tt)%nat ->
  exists m, 0 < m /\ demonstrated T k CI os tt = Some m /\ planned T m k CI os tt.
Proof.
  intros HT HC Hk. destruct (planned_MTBF_ex T k CI os tt HT HC Hk) as (M & HM & HP). exists M. repeat split; auto.
  unfold demonstrated. apply (planner_MTBF 0) in HP; try assumption. now rewrite HP.
Qed.

Lemma planner_failures_time T M CI os : 0 < T -> 0 < M -> 1 / 2 <= CI < 1 ->
  exists fuel0 r, (forall fuel, (fuel0 <= fuel)%nat ->
     reliability_test_planner fuel (Some M) None (Some CI) (Some (Some T)) os true = Some r) /\
  (forall fuel, (fuel < fuel0)%nat ->
     reliability_test_planner fuel (Some M) None (Some CI) (Some (Some T)) os true = None) /\
  match r with
  | Err e => e = ValueError /\ exists m0, demonstrated T 0 CI os true = Some m0 /\ m0 < M
  | Ok p => forall j, exists m, demonstrated T j CI os true = Some m /\ (M <= m <-> (j <= pl_failures p)%nat)
  end.
Proof.
  intros HT HM HC. destruct (planner_failures T M CI os true HT HM HC) as (k & H1 & H2 & H3).
  exists (S k), (if (k =? 0)%nat then Err ValueError else Ok (mkPlan (Some T) (Some M) (k - 1) (Some CI))).
  split; [|split].
  - intros fuel Hf. rewrite H3. destruct (Nat.ltb_spec k fuel); [reflexivity|lia].
  - intros fuel Hf. rewrite H3. destruct (Nat.ltb_spec k fuel); [lia|reflexivity].
  - destruct (Nat.eqb_spec k 0) as [->|Hk].
    + split; [reflexivity|]. destruct (demonstrated_ex T CI os true 0 HT HC) as (m & _ & Em & _); [simpl; lia|].
      exists m. split; [exact Em|]. now apply (demonstrated_too_many T M CI os true 0 m HC Em).
    + intros j. cbn [pl_failures]. destruct (demonstrated_ex T CI os true j HT HC) as (m & _ & Em & _); [simpl; lia|].
      exists m. split; [exact Em|]. pose proof (demonstrated_too_many T M CI os true j m HC Em) as HD. split; intros H.
      * destruct (Nat.le_gt_cases j (k - 1)) as [L|L]; [exact L|exfalso].
        assert (too_many T M (CI_adj CI os) true j = true) as A by (apply (too_many_mono T M CI os true k j); auto; lia).
        apply HD in A. lra.
      * destruct (Rle_or_lt M m) as [L|L]; [exact L|exfalso]. apply HD in L. rewrite H2 in L by lia. discriminate.
Qed.

Lemma planner_failures_fail T M CI os : 0 < T -> 0 < M -> 1 / 2 <= CI < 1 ->
  exists fuel0 p, (forall fuel, (fuel0 <= fuel)%nat ->
     reliability_test_planner fuel (Some M) None (Some CI) (Some (Some T)) os false = Some (Ok p)) /\
  forall j, (0 < j)%nat -> exists m, demonstrated T j CI os false = Some m /\ (M <= m <-> (j <= pl_failures p)%nat).
Proof.
  intros HT HM HC. destruct (planner_failures T M CI os false HT HM HC) as (k & H1 & H2 & H3).
  assert (k <> 0)%nat as Hk. { intros ->. apply too_many_spec in H1; auto. destruct H1 as [H1 _]. simpl in H1. lia. }
  exists (S k), (mkPlan (Some T) (Some M) (k - 1) (Some CI)). split.
  - intros fuel Hf. rewrite H3. destruct (Nat.ltb_spec k fuel); [|lia]. destruct (Nat.eqb_spec k 0); [lia|reflexivity].
  - intros j Hj. cbn [pl_failures]. destruct (demonstrated_ex T CI os false j HT HC) as (m & _ & Em & _); [simpl; lia|].
    exists m. split; [exact Em|]. pose proof (demonstrated_too_many T M CI os false j m HC Em) as HD. split; intros H.
    + destruct (Nat.le_gt_cases j (k - 1)) as [L|L]; [exact L|exfalso].
      assert (too_many T M (CI_adj CI os) false j = true) as A by (apply (too_many_mono T M CI os false k j); auto; lia).
      apply HD in A. lra.
    + destruct (Rle_or_lt M m) as [L|L]; [exact L|exfalso]. apply HD in L. rewrite H2 in L by lia. discriminate.
Qed.

Lemma pois_1 m : pois 1 m = exp (- m).
Proof. unfold pois, bsum. cbn. field. Qed.

Lemma planner_failures_refuted : exists T M CI, 0 < T /\ 0 < M /\ 1 / 2 <= CI < 1 /\
  exists fuel p, reliability_test_planner fuel (Some M) None (Some CI) (Some (Some T)) true false = Some (Ok p) /\
  pl_failures p = 0%nat /\ demonstrated T 0 CI true false = None /\
  exists m1, demonstrated T 1 CI true false = Some m1 /\ m1 < M.
Proof.
  exists 1, 4, (1 / 2). repeat (split; [lra|]).
  destruct (planner_failures_fail 1 4 (1 / 2) true) as (fuel0 & p & H1 & H2); try lra.
  destruct (H2 1%nat ltac:(lia)) as (m1 & E1 & Hi).
  assert (m1 < 4) as Hm.
  { destruct (demonstrated_ex 1 (1 / 2) true false 1) as (m & Hm & Em & HP); try lra; [simpl; lia|].
    rewrite E1 in Em. injection Em as ->. unfold planned in HP. cbn [half_dof sides] in HP. rewrite pois_1 in HP.
    destruct (Rlt_or_le m 4) as [L|L]; [exact L|exfalso].
    assert (1 / m <= 1 / 4) as A. { apply Rmult_le_reg_r with m; [lra|]. replace (1 / m * m) with 1 by (field; lra). lra. }
    pose proof (exp_ineq1_le (- (1 / m))). lra. }
  exists fuel0, p. split; [apply H1; lia|]. split.
  - destruct (pl_failures p) as [|q]; [reflexivity|exfalso]. assert (4 <= m1) by (apply Hi; lia). lra.
  - split; [|exists m1; auto]. unfold demonstrated, reliability_test_planner. rewrite CI_check by lra. reflexivity.
Qed.
