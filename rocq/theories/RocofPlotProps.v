(** C156: the power law estimates of ROCOF and its plot. *)
From Coquelicot Require Import Coquelicot.
From Coq Require Import List Arith Reals Lra Lia Bool Permutation Sorted.
From Verif Require Import Base RealFacts RList NonparModel RepairModel Gauss RepairProofs RepairProofs3 MCFProofs MCFProps GrowthProofs RepairSpec RocofPlotModel RocofPlotSpec RocofPlotProofs.
Import ListNotations.
Open Scope R_scope.

(** The estimates are the only parameters of the largest likelihood of the failures among all power law processes. *)
Theorem C156_maximum_likelihood : forall tbf ft CI test_end r b l,
  ROCOF tbf ft CI test_end = Ok r -> r_Beta r = Some b -> r_Lambda r = Some l ->
  let ages := failure_ages tbf ft in let T := observed_until ages test_end in
  0 < b /\ 0 < l /\
  forall lam bet, 0 < lam -> 0 < bet ->
    plp_loglik lam bet ages T <= plp_loglik l b ages T /\
    (lam <> l \/ bet <> b -> plp_loglik lam bet ages T < plp_loglik l b ages T).
Proof.
  intros tbf ft CI te r b l H EB EL. cbv zeta.
  pose proof (ROCOF_inv _ _ _ _ _ H) as (HF & Hne & HT & _ & _ & _ & _ & _ & HB). cbv zeta in *.
  set (ages := failure_ages tbf ft) in *. set (T := observed_until ages te) in *.
  destruct HB as [(_ & E & _)|(_ & [(_ & E & _)|(N & E1 & E2)])]; try congruence.
  rewrite EB in E1. rewrite EL in E2. injection E1 as ->. injection E2 as ->.
  assert (0 < T) as PT.
  { destruct ages as [|t rest]; [congruence|]. inversion HF; subst. specialize (HT t ltac:(now left)). lra. }
  pose proof (spread_nonneg ages T HF HT) as [[P|Z] _]; [|now symmetry in Z].
  exact (plp_max ages T HF Hne PT P).
Qed.
Print Assumptions C156_maximum_likelihood.

(** They are given together, unless the trend is constant or all failures come at the end of the observation. *)
Theorem C156_given : forall tbf ft CI test_end r, ROCOF tbf ft CI test_end = Ok r ->
  let ages := failure_ages tbf ft in let T := observed_until ages test_end in
  (r_Beta r = None <-> r_Lambda r = None) /\
  (r_Beta r = None <-> r_trend r = Constant \/ Forall (fun t => t = T) ages).
Proof.
  intros tbf ft CI te r H. cbv zeta.
  pose proof (ROCOF_inv _ _ _ _ _ H) as (HF & Hne & HT & _ & _ & _ & _ & _ & HB). cbv zeta in *.
  set (ages := failure_ages tbf ft) in *. set (T := observed_until ages te) in *.
  pose proof (spread_nonneg ages T HF HT) as [_ Z].
  destruct HB as [(C & E & E')|(C & [(Q & E & E')|(Q & E & E')])]; rewrite E, E'; (split; [split; intros; try reflexivity; discriminate|]); split; intros X; try discriminate; try reflexivity.
  - now left.
  - right. now apply Z.
  - destruct X as [X|X]; [congruence|]. exfalso. now apply Q, Z.
Qed.
Print Assumptions C156_given.

(** The points of the plot: the i-th is the time between failure i - 1 and failure i. *)
Theorem C156_points : forall tbf ft CI test_end c s, rocof_plot tbf ft CI test_end = Ok c ->
  in_order s (failure_ages tbf ft) ->
  length (rc_points c) = length s /\
  forall i, (i < length s)%nat -> nth_error (rc_points c) i = Some (INR (i + 1), since_last s i).
Proof.
  intros tbf ft CI te c s H Hs. unfold rocof_plot in H.
  destruct (rocof_input tbf ft) as [ti|] eqn:EI; [|discriminate]. cbn [bind] in H.
  destruct (rocof ti CI te) as [r|] eqn:ER; [|discriminate]. cbn [bind] in H. apply ok_inj in H. subst c. cbn [rc_points].
  pose proof (in_order_unique _ _ _ Hs (input_ages _ _ _ EI)) as ->. rewrite cumsum_length. split.
  - rewrite combine_length, numbers_length. lia.
  - intros i Hi. apply nth_error_combine; [rewrite numbers_nth by assumption; do 2 f_equal; lia|].
    rewrite (nth_error_nth' _ 0) by assumption. f_equal. rewrite (nth_cumsum_gap ti 0 i Hi). unfold since_last. destruct i; [ring|reflexivity].
Qed.
Print Assumptions C156_points.

(** The line of the plot: with a constant trend the reciprocal of the rate reported at every failure, else the reciprocal of the
    intensity of the estimated process at each failure but the one that ends the observation. *)
Theorem C156_line : forall tbf ft CI test_end c r s, rocof_plot tbf ft CI test_end = Ok c -> ROCOF tbf ft CI test_end = Ok r ->
  in_order s (failure_ages tbf ft) ->
  (r_trend r = Constant -> exists v, r_ROCOF r = Some v /\ rc_line c = Some (map (fun i => (INR i, 1 / v)) (seq 1 (length s)))) /\
  (forall b l, r_Beta r = Some b -> r_Lambda r = Some l ->
     rc_line c = Some (map (fun i => (INR (i + 1), 1 / (l * b * Rpower (nth i s 0) (b - 1))))
                         (seq 0 (match test_end with Some _ => length s | None => length s - 1 end)))).
Proof.
  intros tbf ft CI te c r s H HR Hs. unfold rocof_plot in H. unfold ROCOF in HR.
  destruct (rocof_input tbf ft) as [ti|] eqn:EI; [|discriminate]. cbn [bind] in H, HR. rewrite HR in H. cbn [bind] in H. apply ok_inj in H. subst c. cbn [rc_line].
  pose proof (in_order_unique _ _ _ Hs (input_ages _ _ _ EI)) as ->. rewrite cumsum_length. split.
  - intros C. rewrite C. pose proof (rocof_inv _ _ _ _ HR) as (_ & _ & _ & _ & _ & _ & _ & _ & Q). rewrite (Q C). eexists. split; [reflexivity|]. unfold numbers. rewrite map_map. reflexivity.
  - intros b l EB EL. rewrite EB, EL.
    assert (r_trend r <> Constant) as NC.
    { intros C. unfold rocof in HR. destruct (Rleb CI 0 || Rleb 1 CI); [discriminate|]. destruct (match te with None => false | Some e => Rltb e (rsum ti) end); [discriminate|].
      destruct (Nat.eqb _ 0); [discriminate|]. cbv zeta in HR. destruct (Rlt_dec _ _); [|destruct (Rlt_dec _ _)]; apply ok_inj in HR; subst r; cbn in *; discriminate. }
    assert (forall (xs : list R) m n, (n <= length ti)%nat -> length xs = n -> (forall i, (i < n)%nat -> nth_error xs i = Some (INR (i + 1))) -> m = firstn n ti ->
      combine xs (map (fun t => 1 / (l * b * Rpower t (b - 1))) (cumsum 0 m)) = map (fun i => (INR (i + 1), 1 / (l * b * Rpower (nth i (cumsum 0 ti) 0) (b - 1)))) (seq 0 n)) as K.
    { intros xs m n Hn Lx Hx ->. rewrite cumsum_firstn. apply nth_error_same. intros i. destruct (lt_dec i n) as [L|L].
      - erewrite nth_error_combine; [|now apply Hx|].
        + rewrite nth_error_map, (nth_error_nth' _ 0%nat) by (rewrite seq_length; lia). cbn [option_map]. now rewrite seq_nth by lia.
        + rewrite nth_error_map. rewrite (nth_error_nth' _ 0) by (rewrite firstn_length, cumsum_length; lia). cbn [option_map]. assert (nth i (firstn n (cumsum 0 ti)) 0 = nth i (cumsum 0 ti) 0) as ->; [|reflexivity].
          rewrite <- (firstn_skipn n (cumsum 0 ti)) at 2. symmetry. apply app_nth1. rewrite firstn_length, cumsum_length. lia.
      - rewrite !(proj2 (nth_error_None _ _)); [reflexivity|rewrite map_length, seq_length; lia|rewrite combine_length; lia]. }
    destruct (r_trend r) eqn:ET; [| congruence|]; f_equal; destruct te as [e|]; apply K; try lia; try reflexivity; try apply numbers_length; try (intros i Hi; rewrite numbers_nth by assumption; do 2 f_equal; lia).
    + rewrite removelast_len, numbers_length. reflexivity.
    + intros i Hi. rewrite nth_error_removelast by (rewrite numbers_length; lia). rewrite numbers_nth by lia. do 2 f_equal. lia.
    + rewrite removelast_len, numbers_length. reflexivity.
    + intros i Hi. rewrite nth_error_removelast by (rewrite numbers_length; lia). rewrite numbers_nth by lia. do 2 f_equal. lia.
Qed.
Print Assumptions C156_line.

(** The whole property would say that the estimated failure intensity falls when the trend is "improving" and
    rises when it is "worsening". It does not, at any level. *)
Theorem C156_trend_refuted : forall CI, 0 < CI < 1 ->
  (exists ft e r b, ROCOF None (Some ft) CI (Some e) = Ok r /\ r_trend r = Improving /\ r_Beta r = Some b /\ 1 < b) /\
  (exists ft e r b, ROCOF None (Some ft) CI (Some e) = Ok r /\ r_trend r = Worsening /\ r_Beta r = Some b /\ b < 1).
Proof. intros CI H. split; [now apply improving_rising|now apply worsening_falling]. Qed.
Print Assumptions C156_trend_refuted.

(** It does not rise if the mean age at the failures is at most 1 / e of the time observed. *)
Theorem C156_trend_partial : forall tbf ft CI test_end r b,
  ROCOF tbf ft CI test_end = Ok r -> r_Beta r = Some b ->
  let ages := failure_ages tbf ft in
  mean_age ages <= observed_until ages test_end / exp 1 ->
  b <= 1 /\ forall l t u, r_Lambda r = Some l -> 0 < t <= u -> l * b * Rpower u (b - 1) <= l * b * Rpower t (b - 1).
Proof.
  intros tbf ft CI te r b H EB. cbv zeta. intros HM.
  pose proof (ROCOF_inv _ _ _ _ _ H) as (HF & Hne & HT & _ & _ & _ & _ & _ & HB). cbv zeta in *.
  set (ages := failure_ages tbf ft) in *. set (T := observed_until ages te) in *.
  destruct HB as [(_ & E & _)|(_ & [(_ & E & _)|(N & E1 & E2)])]; try congruence.
  rewrite EB in E1. injection E1 as Eb.
  assert (0 < T) as PT.
  { destruct ages as [|t rest]; [congruence|]. inversion HF; subst. specialize (HT t ltac:(now left)). lra. }
  pose proof (spread_jensen ages T HF Hne PT HM) as J.
  assert (0 < INR (length ages)) as Hn by (apply lt_0_INR; destruct ages; [congruence|simpl; lia]).
  assert (0 < b) as Pb by (rewrite Eb; apply Rdiv_lt_0_compat; lra).
  assert (b <= 1) as B1.
  { rewrite Eb. apply Rmult_le_reg_r with (spread ages T); [lra|]. replace (INR (length ages) / spread ages T * spread ages T) with (INR (length ages)) by (field; lra). lra. }
  split; [exact B1|]. intros l t u EL Htu. rewrite EL in E2. injection E2 as E2.
  assert (0 < l) as Pl by (rewrite E2; apply Rdiv_lt_0_compat; [assumption|apply exp_pos]).
  apply Rmult_le_compat_l; [nra|]. unfold Rpower. destruct (Rle_lt_or_eq_dec t u (proj2 Htu)) as [L| ->]; [|lra].
  pose proof (ln_increasing t u (proj1 Htu) L) as Q. set (x := (b - 1) * ln u). set (y := (b - 1) * ln t). assert (x <= y) as [Q'|Q'] by (unfold x, y; nra).
  - left. now apply exp_increasing.
  - rewrite Q'. lra.
Qed.
Print Assumptions C156_trend_partial.

(** ROCOF and its plot return for every list of positive failure times and an end of the test not before the last. *)
Theorem C156_runs : forall ft CI e, 0 < CI < 1 -> Forall (fun t => 0 < t <= e) ft -> ft <> [] ->
  (exists r, ROCOF None (Some ft) CI (Some e) = Ok r) /\ exists c, rocof_plot None (Some ft) CI (Some e) = Ok c.
Proof.
  intros ft CI e HCI HF Hne. destruct (ROCOF_ok ft CI e HCI HF Hne) as [r Hr]. split; [now exists r|].
  unfold rocof_plot. unfold ROCOF in Hr. destruct (rocof_input None (Some ft)) as [ti|]; [|discriminate]. cbn [bind] in *. rewrite Hr. cbn [bind]. eauto.
Qed.
Print Assumptions C156_runs.

(** Nine failures early in a test of length 100: the trend is not constant at level 1 - 2 Phi(-1), the estimates exist and the mean age is small. *)
Example C156_example : exists r b l, ROCOF None (Some (repeat 1 9)) (1 - 2 * Phi (- (1))) (Some 100) = Ok r /\ r_trend r = Improving /\ r_Beta r = Some b /\ r_Lambda r = Some l /\
  mean_age (failure_ages None (Some (repeat 1 9))) <= observed_until (failure_ages None (Some (repeat 1 9))) (Some 100) / exp 1 /\
  in_order (repeat 1 9) (failure_ages None (Some (repeat 1 9))).
Proof.
  assert (0 < 1 - 2 * Phi (- (1)) < 1) as HCI.
  { pose proof (Phi_gt_0 (- (1))). assert (Phi (- (1)) < 1 / 2); [|lra]. rewrite <- Phi_0. apply Phi_increasing. lra. }
  destruct (ROCOF_ok (repeat 1 9) _ 100 HCI) as [r Hr]; [apply Forall_repeat; lra|discriminate|].
  pose proof (ROCOF_inv _ _ _ _ _ Hr) as (_ & _ & _ & _ & EZ & I & _ & EU & HB). cbn [failure_ages observed_until] in *.
  specialize (EU 100 eq_refl).
  replace ((1 - (1 - 2 * Phi (- (1)))) / 2) with (Phi (- (1))) in EZ by lra. rewrite norm_ppf_Phi in EZ.
  rewrite (statistic_scale (repeat 1 9) 100 (- (49 / 100))) in EU; [|lra|discriminate|unfold mean_age; rewrite rsum_repeat, repeat_length; simpl; lra].
  assert (r_trend r = Improving) as TI.
  { apply I. rewrite EU, EZ, repeat_length. assert (1 / 11 < sqrt (1 / (12 * INR 9)) < 1 / 10) as Q.
    { simpl. split; [rewrite <- (sqrt_pow2 (1 / 11)) by lra|rewrite <- (sqrt_pow2 (1 / 10)) by lra]; apply sqrt_lt_1_alt; lra. }
    set (q := sqrt _) in *. replace (- (49 / 100) / q) with (- (49 / 100 / q)) by (field; lra). apply Ropp_lt_contravar. apply Rmult_lt_reg_r with q; [lra|]. replace (49 / 100 / q * q) with (49 / 100) by (field; lra). lra. }
  destruct HB as [(C & _)|(_ & [(Z & _)|(_ & E1 & E2)])]; [congruence| |].
  - exfalso. unfold spread in Z. rewrite map_repeat', rsum_repeat in Z. assert (0 < ln (100 / 1)) by (rewrite <- ln_1; apply ln_increasing; lra). simpl in Z. lra.
  - exists r. do 2 eexists. split; [exact Hr|]. split; [exact TI|]. split; [exact E1|]. split; [exact E2|]. split.
    + unfold mean_age. rewrite rsum_repeat, repeat_length. replace (INR 9 * 1 / INR 9) with 1 by (simpl; field). pose proof exp_le_3. pose proof (exp_pos 1). apply Rmult_le_reg_r with (exp 1); [assumption|]. replace (100 / exp 1 * exp 1) with 100 by (field; lra). lra.
    + split; [reflexivity|apply repeat_sorted].
Qed.
