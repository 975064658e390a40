(** Properties C29-C38: reliability testing. *)
From Coquelicot Require Import Coquelicot.
From Coq Require Import List Arith ZArith Reals Bool Lra Lia.
From Verif Require Import Base RealFacts Gauss NonparModel NonparProofs RList RepairModel RepairProofs RepairProofs2 Binom
  TestingModel TestingSpec TestingProofs TestingProofs2 TestingProofs3 TestingProofs4.
Import ListNotations.
Open Scope R_scope.

(** ** C29 *)
Theorem C29_one_sample_proportion : forall trials successes CI lower upper,
  0 < CI < 1 -> (0 < trials)%nat ->
  one_sample_proportion trials successes CI = Ok (lower, upper) ->
  let phat := INR successes / INR trials in
  let tail := if (successes =? 0)%nat || (successes =? trials)%nat then 1 - CI else (1 - CI) / 2 in
  (0 <= lower <= phat /\ phat <= upper <= 1) /\
  ((0 < successes)%nat -> 0 < lower /\ prob_at_least trials lower successes = tail) /\
  ((successes < trials)%nat -> upper < 1 /\ prob_at_most trials upper successes = tail) /\
  (successes = 0%nat -> lower = 0) /\ (successes = trials -> upper = 1).
Proof.
  intros t s CI lo up HC Ht H. destruct (osp_spec t s CI lo up HC H) as (L & H0 & H1 & H2 & H3). cbv zeta.
  split; [exact (osp_order t s CI lo up HC Ht H)|]. split; [|split; [|split; assumption]].
  - intros Hs. rewrite at_least_spec by lia. destruct (H2 Hs) as [? ->]. split; [lra|reflexivity].
  - intros Hs. rewrite at_most_spec. destruct (H3 Hs) as [? ->]. split; [lra|reflexivity].
Qed.
Print Assumptions C29_one_sample_proportion.

(** The function returns limits whenever the successes do not exceed the trials, and
    ValueError otherwise. *)
Theorem C29_one_sample_proportion_total : forall trials successes CI,
  ((successes <= trials)%nat -> exists r, one_sample_proportion trials successes CI = Ok r) /\
  ((trials < successes)%nat -> one_sample_proportion trials successes CI = Err ValueError).
Proof.
  intros. unfold one_sample_proportion. destruct (Nat.ltb_spec trials successes); split; intros; try lia; eauto.
Qed.
Print Assumptions C29_one_sample_proportion_total.

(** The limits are the only solutions of the two equations. *)
Theorem C29_limits_unique : forall trials k p q, (1 <= k <= trials)%nat -> 0 <= p <= 1 -> 0 <= q <= 1 ->
  prob_at_least trials p k = prob_at_least trials q k -> p = q.
Proof.
  intros t k p q Hk Hp Hq. rewrite !at_least_spec by lia. intros E.
  destruct (Rtotal_order p q) as [L|[L|L]]; [|exact L|].
  - pose proof (bge_increasing t k p q Hk ltac:(lra) L ltac:(lra)). lra.
  - pose proof (bge_increasing t k q p Hk ltac:(lra) L ltac:(lra)). lra.
Qed.
Print Assumptions C29_limits_unique.

Example C29_case : exists r, one_sample_proportion 30 29 (95 / 100) = Ok r.
Proof. apply C29_one_sample_proportion_total. lia. Qed.

(** ** C30 *)
Theorem C30_two_proportion_symmetric : forall t1 s1 t2 s2 CI lower upper significant,
  two_proportion_test t1 s1 t2 s2 CI = Ok (lower, upper, significant) ->
  two_proportion_test t2 s2 t1 s1 CI = Ok (- upper, - lower, significant) /\
  (significant = false <-> lower < 0 < upper) /\
  lower <= INR s1 / INR t1 - INR s2 / INR t2 <= upper.
Proof. exact two_prop_swap. Qed.
Print Assumptions C30_two_proportion_symmetric.

Example C30_case : exists r, two_proportion_test 500 490 800 770 (95 / 100) = Ok r.
Proof. apply two_prop_ok; lra || lia. Qed.

(** ** C31: false when nobody or everybody succeeds, true otherwise. *)
Theorem C31_same_proportion_refuted : exists t1 t2 lower upper,
  two_proportion_test t1 0 t2 0 (95 / 100) = Ok (lower, upper, true).
Proof. exact two_prop_same_refuted. Qed.
Print Assumptions C31_same_proportion_refuted.

Theorem C31_same_proportion_partial : forall t1 s1 t2 s2 CI lower upper significant,
  (s1 * t2 = s2 * t1)%nat -> (0 < s1 < t1)%nat ->
  two_proportion_test t1 s1 t2 s2 CI = Ok (lower, upper, significant) -> significant = false.
Proof. exact two_prop_same. Qed.
Print Assumptions C31_same_proportion_partial.

Example C31_case : exists r, two_proportion_test 10 5 20 10 (95 / 100) = Ok r.
Proof. apply two_prop_ok; try lia. lra. Qed.

(** ** C32 *)
Theorem C32_sample_size_least : forall reliability CI lifetimes shape n,
  sample_size_no_failures reliability CI lifetimes shape = Ok n ->
  (1 <= n)%Z /\
  forall m : nat, CI <= 1 - Rpower reliability (INR m * Rpower lifetimes shape) <-> (n <= Z.of_nat m)%Z.
Proof. exact sample_size_least. Qed.
Print Assumptions C32_sample_size_least.

Theorem C32_sample_size_total : forall reliability CI lifetimes shape,
  1 / 2 <= CI < 1 -> 0 < reliability < 1 -> 0 <= shape -> 0 < lifetimes ->
  exists n, sample_size_no_failures reliability CI lifetimes shape = Ok n.
Proof.
  intros r CI L s H1 H2 H3 H4. unfold sample_size_no_failures.
  rewrite (proj2 (Rltb_false CI (1 / 2))), (proj2 (Rleb_false 1 CI)), (proj2 (Rleb_false r 0)), (proj2 (Rleb_false 1 r)),
    (proj2 (Rltb_false s 0)), (proj2 (Rleb_false L 0)) by lra. cbn [orb]. eauto.
Qed.
Print Assumptions C32_sample_size_total.

Example C32_case : exists n, sample_size_no_failures (999 / 1000) (95 / 100) 1 1 = Ok n.
Proof. apply C32_sample_size_total; lra. Qed.

(** ** C33 *)
Section C33.
  Variables (p1 p2 alpha beta : R) (max_samples : nat) (rows : list (nat * option Z * option Z)).
  Hypothesis Hp : p1 < p2.
  Hypothesis Hab : alpha + beta < 1.
  Hypothesis Hrows : sequential_sampling_chart p1 p2 alpha beta max_samples = Ok rows.

  Local Lemma chart_inv : (0 < alpha < 1 /\ 0 < beta < 1 /\ 0 < p1 < 1 /\ 0 < p2 < 1) /\
    rows = map (sequential_row p1 p2 alpha beta) (seq 0 (max_samples + 1)).
  Proof.
    unfold sequential_sampling_chart, outside01 in Hrows.
    destruct (Rleb alpha 0) eqn:A1; [discriminate|]. destruct (Rleb 1 alpha) eqn:A2; [discriminate|].
    destruct (Rleb beta 0) eqn:A3; [discriminate|]. destruct (Rleb 1 beta) eqn:A4; [discriminate|].
    destruct (Rleb p1 0) eqn:A5; [discriminate|]. destruct (Rleb 1 p1) eqn:A6; [discriminate|].
    destruct (Rleb p2 0) eqn:A7; [discriminate|]. destruct (Rleb 1 p2) eqn:A8; [discriminate|].
    cbn [orb] in Hrows. apply Rleb_false in A1, A2, A3, A4, A5, A6, A7, A8. injection Hrows as <-.
    repeat split; lra.
  Qed.
  Local Lemma chart_nth n a r : nth_error rows n = Some (n, a, r) <->
    (n <= max_samples)%nat /\ sequential_row p1 p2 alpha beta n = (n, a, r).
  Proof.
    destruct chart_inv as [_ ->]. rewrite nth_error_map. split.
    - intros H. destruct (nth_error (seq 0 (max_samples + 1)) n) as [m|] eqn:E; [|discriminate].
      assert (n < max_samples + 1)%nat as L. { rewrite <- (seq_length (max_samples + 1) 0). apply nth_error_Some. congruence. }
      apply nth_error_nth with (d := 0%nat) in E. rewrite seq_nth in E by exact L. cbn in E. subst m.
      split; [lia|]. cbn [option_map] in H. congruence.
    - intros [L E]. rewrite (nth_error_nth' _ 0%nat) by (rewrite seq_length; lia). rewrite seq_nth by lia. cbn [option_map plus]. change (Some (sequential_row p1 p2 alpha beta n) = Some (n, a, r)). now rewrite E.
  Qed.

  (** One row for each number of samples, and for each row: k failures in n samples are at
      or below the acceptance number iff the sequential probability ratio has reached the
      lower Wald threshold, and at or above the rejection number iff it has reached the
      upper one; "x" (None) means no k does. *)
  Lemma C33_body :
    length rows = (max_samples + 1)%nat /\
    (forall n, (n <= max_samples)%nat -> exists accept reject, nth_error rows n = Some (n, accept, reject) /\
      (forall k, (k <= n)%nat ->
        ((exists a, accept = Some a /\ (Z.of_nat k <= a)%Z) <-> log_likelihood_ratio p1 p2 n k <= ln (beta / (1 - alpha))) /\
        ((exists r, reject = Some r /\ (r <= Z.of_nat k)%Z) <-> ln ((1 - beta) / alpha) <= log_likelihood_ratio p1 p2 n k)) /\
      (forall a r, accept = Some a -> reject = Some r -> (0 <= a < r)%Z /\ (r <= Z.of_nat n)%Z)) /\
    (forall n n' a a' r r', (n <= n')%nat -> nth_error rows n = Some (n, a, r) -> nth_error rows n' = Some (n', a', r') ->
      (forall x, a = Some x -> exists x', a' = Some x' /\ (x <= x')%Z) /\
      (forall x, r = Some x -> exists x', r' = Some x' /\ (x <= x')%Z)).
  Proof.
    destruct chart_inv as [(Ha & Hb & H1 & H2) Er]. split; [rewrite Er, map_length, seq_length; reflexivity|]. split.
    - intros n Hn. destruct (sequential_row p1 p2 alpha beta n) as [[m a] r] eqn:E.
      assert (m = n) as -> by (unfold sequential_row in E; congruence).
      exists a, r. split; [now apply chart_nth|]. split.
      + intros k Hk. pose proof (sequential_accept p1 p2 alpha beta ltac:(lra) Hp ltac:(lra) ltac:(lra) ltac:(lra) ltac:(lra) n k Hk) as A.
        pose proof (sequential_reject p1 p2 alpha beta ltac:(lra) Hp ltac:(lra) ltac:(lra) ltac:(lra) ltac:(lra) n k Hk) as B.
        rewrite E in A, B. cbn [fst snd] in A, B. split; assumption.
      + intros x y Ex Ey. apply (sequential_order p1 p2 alpha beta ltac:(lra) Hp ltac:(lra) ltac:(lra) ltac:(lra) ltac:(lra) n x y); rewrite E; cbn [fst snd]; assumption.
    - intros n n' a a' r r' Hn E E'. apply chart_nth in E, E'. destruct E as [_ E]. destruct E' as [_ E']. split; intros x Hx.
      + destruct (sequential_accept_mono p1 p2 alpha beta ltac:(lra) Hp ltac:(lra) ltac:(lra) ltac:(lra) ltac:(lra) n n' x Hn) as (y & Hy & L);
        [rewrite E; exact Hx|]. rewrite E' in Hy. cbn [fst snd] in Hy. eauto.
      + destruct (sequential_reject_mono p1 p2 alpha beta ltac:(lra) Hp ltac:(lra) ltac:(lra) ltac:(lra) ltac:(lra) n n' x Hn) as (y & Hy & L);
        [rewrite E; exact Hx|]. rewrite E' in Hy. cbn [snd] in Hy. eauto.
  Qed.
End C33.

Theorem C33_sequential_sampling : forall p1 p2 alpha beta max_samples rows,
  p1 < p2 -> alpha + beta < 1 ->
  sequential_sampling_chart p1 p2 alpha beta max_samples = Ok rows ->
  length rows = (max_samples + 1)%nat /\
  (forall n, (n <= max_samples)%nat -> exists accept reject, nth_error rows n = Some (n, accept, reject) /\
    (forall k, (k <= n)%nat ->
      ((exists a, accept = Some a /\ (Z.of_nat k <= a)%Z) <->
       log_likelihood_ratio p1 p2 n k <= ln (beta / (1 - alpha))) /\
      ((exists r, reject = Some r /\ (r <= Z.of_nat k)%Z) <->
       ln ((1 - beta) / alpha) <= log_likelihood_ratio p1 p2 n k)) /\
    (forall a r, accept = Some a -> reject = Some r -> (0 <= a < r)%Z /\ (r <= Z.of_nat n)%Z)) /\
  (forall n n' a a' r r', (n <= n')%nat ->
    nth_error rows n = Some (n, a, r) -> nth_error rows n' = Some (n', a', r') ->
    (forall x, a = Some x -> exists x', a' = Some x' /\ (x <= x')%Z) /\
    (forall x, r = Some x -> exists x', r' = Some x' /\ (x <= x')%Z)).
Proof. intros p1 p2 alpha beta ms rows Hp Hab H. exact (C33_body p1 p2 alpha beta ms rows Hp Hab H). Qed.
Print Assumptions C33_sequential_sampling.

Example C33_case : exists rows, sequential_sampling_chart (1 / 100) (1 / 10) (5 / 100) (1 / 10) 100 = Ok rows.
Proof.
  unfold sequential_sampling_chart, outside01.
  repeat rewrite (proj2 (Rleb_false _ _)) by lra. cbn [orb]. eauto.
Qed.

(** ** C34 *)
(** The three ways of calling the planner all describe the same relation: MTBF M,
    duration T, k failures and confidence CI go together iff fewer than k' events of a
    Poisson process with mean T/M have probability (1 - CI)/sides, where k' is k+1 for
    time terminated and k for failure terminated tests. *)
Theorem C34_planner_relation : forall fuel T M k CI one_sided time_terminated,
  0 < T -> 0 < M -> 1 / 2 <= CI < 1 -> (time_terminated = true \/ (0 < k)%nat) ->
  let k' := if time_terminated then S k else k in
  let answer := Some (Ok (mkPlan (Some T) (Some M) k (Some CI))) in
  let related := sides one_sided * poisson_fewer k' (T / M) = 1 - CI in
  (reliability_test_planner fuel None (Some k) (Some CI) (Some (Some T)) one_sided time_terminated = answer <-> related) /\
  (reliability_test_planner fuel (Some M) (Some k) (Some CI) None one_sided time_terminated = answer <-> related) /\
  (reliability_test_planner fuel (Some M) (Some k) None (Some (Some T)) one_sided time_terminated = answer <-> related).
Proof.
  intros fuel T M k CI os tt HT HM HC Hk. cbv zeta. rewrite pois_spec.
  assert (0 < half_dof k tt)%nat as Hd by (destruct tt; simpl; destruct Hk; try discriminate; lia).
  pose proof (planner_MTBF fuel T M k CI os tt HT HM HC Hd) as A.
  pose proof (planner_duration fuel T M k CI os tt HT HM HC Hd) as B.
  pose proof (planner_CI fuel T M k CI os tt HT HM Hd) as D.
  unfold planned, half_dof in *. split; [symmetry; exact A|]. split; symmetry; assumption.
Qed.
Print Assumptions C34_planner_relation.

(** ... and a value is always found when MTBF or duration is sought, so that feeding the
    result back returns the original value. *)
Theorem C34_planner_round_trip : forall fuel T M k CI one_sided time_terminated,
  0 < T -> 0 < M -> 1 / 2 <= CI < 1 -> (time_terminated = true \/ (0 < k)%nat) ->
  (exists M', 0 < M' /\
     reliability_test_planner fuel None (Some k) (Some CI) (Some (Some T)) one_sided time_terminated
       = Some (Ok (mkPlan (Some T) (Some M') k (Some CI))) /\
     reliability_test_planner fuel (Some M') (Some k) (Some CI) None one_sided time_terminated
       = Some (Ok (mkPlan (Some T) (Some M') k (Some CI))) /\
     reliability_test_planner fuel (Some M') (Some k) None (Some (Some T)) one_sided time_terminated
       = Some (Ok (mkPlan (Some T) (Some M') k (Some CI)))) /\
  (exists T', 0 < T' /\
     reliability_test_planner fuel (Some M) (Some k) (Some CI) None one_sided time_terminated
       = Some (Ok (mkPlan (Some T') (Some M) k (Some CI))) /\
     reliability_test_planner fuel None (Some k) (Some CI) (Some (Some T')) one_sided time_terminated
       = Some (Ok (mkPlan (Some T') (Some M) k (Some CI))) /\
     reliability_test_planner fuel (Some M) (Some k) None (Some (Some T')) one_sided time_terminated
       = Some (Ok (mkPlan (Some T') (Some M) k (Some CI)))).
Proof.
  intros fuel T M k CI os tt HT HM HC Hk.
  assert (0 < half_dof k tt)%nat as Hd by (destruct tt; simpl; destruct Hk; try discriminate; lia). split.
  - destruct (planned_MTBF_ex T k CI os tt HT HC Hd) as (M' & HM' & HP). exists M'. split; [exact HM'|].
    split; [now apply planner_MTBF|]. split; [now apply planner_duration|now apply planner_CI].
  - destruct (planned_duration_ex M k CI os tt HM HC Hd) as (T' & HT' & HP). exists T'. split; [exact HT'|].
    split; [now apply planner_duration|]. split; [now apply planner_MTBF|now apply planner_CI].
Qed.
Print Assumptions C34_planner_round_trip.

(** ... and starting from MTBF, failures and duration: the confidence found recovers
    them, provided it is one the planner accepts. *)
Theorem C34_planner_round_trip_CI : forall fuel T M k one_sided time_terminated,
  0 < T -> 0 < M -> (time_terminated = true \/ (0 < k)%nat) ->
  exists CI, CI <= 1 /\
    reliability_test_planner fuel (Some M) (Some k) None (Some (Some T)) one_sided time_terminated
      = Some (Ok (mkPlan (Some T) (Some M) k (Some CI))) /\
    (1 / 2 <= CI < 1 ->
     reliability_test_planner fuel None (Some k) (Some CI) (Some (Some T)) one_sided time_terminated
       = Some (Ok (mkPlan (Some T) (Some M) k (Some CI))) /\
     reliability_test_planner fuel (Some M) (Some k) (Some CI) None one_sided time_terminated
       = Some (Ok (mkPlan (Some T) (Some M) k (Some CI)))).
Proof.
  intros fuel T M k os tt HT HM Hk.
  assert (0 < half_dof k tt)%nat as Hd by (destruct tt; simpl; destruct Hk; try discriminate; lia).
  exists (1 - sides os * pois (half_dof k tt) (T / M)).
  assert (planned T M k (1 - sides os * pois (half_dof k tt) (T / M)) os tt) as HP by (unfold planned; ring).
  split; [|split; [now apply planner_CI|]].
  - pose proof (pois_nonneg (half_dof k tt) (T / M) ltac:(left; now apply Rdiv_lt_0_compat)). pose proof (sides_pos os). nra.
  - intros HC. split; [now apply planner_MTBF|now apply planner_duration].
Qed.
Print Assumptions C34_planner_round_trip_CI.

Example C34_case : exists M', 0 < M' /\
  reliability_test_planner 0 None (Some 7%nat) (Some (8 / 10)) (Some (Some 10000)) true true =
  Some (Ok (mkPlan (Some 10000) (Some M') 7 (Some (8 / 10)))).
Proof.
  destruct (C34_planner_round_trip 0 10000 1 7 (8 / 10) true true ltac:(lra) ltac:(lra) ltac:(lra) (or_introl eq_refl)) as [(M & H1 & H2 & _) _].
  exists M. auto.
Qed.

(** ** C35: true for time terminated tests.  [demonstrated T j CI os tt] is the MTBF that
    the planner itself reports for j failures (None is nan).  For every M, T > 0 the
    search ends, with ValueError iff zero failures do not demonstrate M, and otherwise
    with the largest sufficient number of failures. *)
Theorem C35_planner_failures_time_terminated : forall T M CI one_sided, 0 < T -> 0 < M -> 1 / 2 <= CI < 1 ->
  exists fuel0 r,
    (forall fuel, (fuel0 <= fuel)%nat ->
       reliability_test_planner fuel (Some M) None (Some CI) (Some (Some T)) one_sided true = Some r) /\
    (forall fuel, (fuel < fuel0)%nat ->
       reliability_test_planner fuel (Some M) None (Some CI) (Some (Some T)) one_sided true = None) /\
    match r with
    | Err e => e = ValueError /\ exists m0, demonstrated T 0 CI one_sided true = Some m0 /\ m0 < M
    | Ok p => forall j, exists m, demonstrated T j CI one_sided true = Some m /\ (M <= m <-> (j <= pl_failures p)%nat)
    end.
Proof. exact planner_failures_time. Qed.
Print Assumptions C35_planner_failures_time_terminated.

(** For failure terminated tests no ValueError is ever raised: the answer can be 0
    failures although the MTBF demonstrated by 0 failures is nan and the one demonstrated
    by 1 failure is too small. *)
Theorem C35_planner_failures_refuted : exists T M CI, 0 < T /\ 0 < M /\ 1 / 2 <= CI < 1 /\
  exists fuel p, reliability_test_planner fuel (Some M) None (Some CI) (Some (Some T)) true false = Some (Ok p) /\
  pl_failures p = 0%nat /\ demonstrated T 0 CI true false = None /\
  exists m1, demonstrated T 1 CI true false = Some m1 /\ m1 < M.
Proof. exact planner_failures_refuted. Qed.
Print Assumptions C35_planner_failures_refuted.

(** What remains true for failure terminated tests: among the numbers of failures for
    which the test makes sense (at least one), the answer is the largest sufficient one,
    0 standing for none. *)
Theorem C35_planner_failures_partial : forall T M CI one_sided, 0 < T -> 0 < M -> 1 / 2 <= CI < 1 ->
  exists fuel0 p,
    (forall fuel, (fuel0 <= fuel)%nat ->
       reliability_test_planner fuel (Some M) None (Some CI) (Some (Some T)) one_sided false = Some (Ok p)) /\
    forall j, (0 < j)%nat -> exists m, demonstrated T j CI one_sided false = Some m /\ (M <= m <-> (j <= pl_failures p)%nat).
Proof. exact planner_failures_fail. Qed.
Print Assumptions C35_planner_failures_partial.

Example C35_case : 0 < 19520 /\ 0 < 500 /\ 1 / 2 <= 8 / 10 < 1.
Proof. lra. Qed.

(** ** C36: time terminated tests.  T j is the duration which, with j failures, has the
    specified consumer's risk; k is the first number of failures whose duration gives a
    producer's risk below the specified one.  Such a k always exists, and the function
    returns the duration for k-1 failures (k = 0: for 0), provided k is within the
    function's limit of 10^10 failures. *)
Theorem C36_test_duration_time_terminated : forall MTBF_required MTBF_design consumer_risk producer_risk one_sided,
  0 < MTBF_required < MTBF_design -> 0 < consumer_risk <= 1 / 2 -> 0 < producer_risk <= 1 / 2 ->
  exists k (T : nat -> R),
    (forall j, 0 < T j /\ sides one_sided * poisson_fewer (S j) (T j / MTBF_required) = consumer_risk) /\
    1 - sides one_sided * poisson_fewer (S k) (T k / MTBF_design) < producer_risk /\
    (forall j, (j < k)%nat -> producer_risk <= 1 - sides one_sided * poisson_fewer (S j) (T j / MTBF_design)) /\
    (INR k <= 10000000000 -> forall fuel, (2 * k + 1 <= fuel)%nat ->
       reliability_test_duration fuel MTBF_required MTBF_design consumer_risk producer_risk one_sided true
         = Some (Ok (Some (T (k - 1)%nat)))).
Proof.
  intros Mr Md cr pr os H1 H2 H3. destruct (rtd_time Mr Md cr pr os H1 H2 H3) as (k & T & A & B & D & E).
  exists k, T. split; [intros j; rewrite pois_spec; apply A|]. split; [rewrite pois_spec; exact B|].
  split; [intros j Hj; rewrite pois_spec; now apply D|exact E].
Qed.
Print Assumptions C36_test_duration_time_terminated.

(** Failure terminated tests can get nan. *)
Theorem C36_test_duration_refuted : exists MTBF_required MTBF_design consumer_risk producer_risk fuel,
  0 < MTBF_required < MTBF_design /\ 0 < consumer_risk <= 1 / 2 /\ 0 < producer_risk <= 1 / 2 /\
  reliability_test_duration fuel MTBF_required MTBF_design consumer_risk producer_risk true false = Some (Ok None).
Proof. exact rtd_refuted. Qed.
Print Assumptions C36_test_duration_refuted.

(** They do exactly when the first number of failures with a small enough producer's risk
    is 1; otherwise the same as for time terminated tests holds. *)
Theorem C36_test_duration_partial : forall MTBF_required MTBF_design consumer_risk producer_risk one_sided,
  0 < MTBF_required < MTBF_design -> 0 < consumer_risk <= 1 / 2 -> 0 < producer_risk <= 1 / 2 ->
  exists k (T : nat -> R), (1 <= k)%nat /\
    (forall j, (1 <= j)%nat -> 0 < T j /\ sides one_sided * poisson_fewer j (T j / MTBF_required) = consumer_risk) /\
    1 - sides one_sided * poisson_fewer k (T k / MTBF_design) < producer_risk /\
    (forall j, (1 <= j < k)%nat -> producer_risk <= 1 - sides one_sided * poisson_fewer j (T j / MTBF_design)) /\
    (INR k <= 10000000000 -> forall fuel, (2 * k + 1 <= fuel)%nat ->
       reliability_test_duration fuel MTBF_required MTBF_design consumer_risk producer_risk one_sided false
         = Some (Ok (if (k =? 1)%nat then None else Some (T (k - 1)%nat)))).
Proof.
  intros Mr Md cr pr os H1 H2 H3. destruct (rtd_fail Mr Md cr pr os H1 H2 H3) as (k & T & Hk & A & B & D & E).
  exists k, T. split; [exact Hk|]. split; [intros j Hj; rewrite pois_spec; now apply A|]. split; [rewrite pois_spec; exact B|].
  split; [intros j Hj; rewrite pois_spec; now apply D|exact E].
Qed.
Print Assumptions C36_test_duration_partial.

Theorem C36_test_duration_errors : forall fuel Mr Md cr pr os tt,
  cr <= 0 \/ 1 / 2 < cr \/ pr <= 0 \/ 1 / 2 < pr \/ Md <= Mr ->
  reliability_test_duration fuel Mr Md cr pr os tt = Some (Err ValueError).
Proof.
  intros fuel Mr Md cr pr os tt H. unfold reliability_test_duration.
  destruct (Rleb cr 0) eqn:E1; [reflexivity|]. destruct (Rltb (1 / 2) cr) eqn:E2; [reflexivity|].
  destruct (Rleb pr 0) eqn:E3; [reflexivity|]. destruct (Rltb (1 / 2) pr) eqn:E4; [reflexivity|].
  destruct (Rleb Md Mr) eqn:E5; [reflexivity|]. apply Rleb_false in E1, E3, E5. apply Rltb_false in E2, E4. lra.
Qed.
Print Assumptions C36_test_duration_errors.

Example C36_case : 0 < 2500 < 3000 /\ 0 < 2 / 10 <= 1 / 2 /\ 0 < 2 / 10 <= 1 / 2.
Proof. lra. Qed.

(** ** C37 *)
Theorem C37_ks_statistic : forall F critical negative_ok data significance KS accept,
  ks_test F critical negative_ok data significance = Ok (KS, accept) ->
  data <> [] /\ 0 < significance <= 1 / 2 /\ (accept = true <-> KS < critical) /\
  ((forall x y, x <= y -> F x <= F y) -> (forall x, 0 <= F x <= 1) -> continuity F ->
   is_lub (fun d => exists x, d = Rabs (ecdf data x - F x)) KS).
Proof. exact ks_test_spec. Qed.
Print Assumptions C37_ks_statistic.

Definition uniform_cdf (x : R) : R := Rmin 1 (Rmax 0 x).
Example C37_case : (forall x y, x <= y -> uniform_cdf x <= uniform_cdf y) /\ (forall x, 0 <= uniform_cdf x <= 1) /\
  continuity uniform_cdf /\ exists r, ks_test uniform_cdf (1 / 2) false [1 / 2; 1 / 4; 1 / 2] (5 / 100) = Ok r.
Proof.
  assert (forall x y, x <= y -> uniform_cdf x <= uniform_cdf y <= uniform_cdf x + (y - x)) as Hl.
  { intros x y H. unfold uniform_cdf, Rmin, Rmax. destruct (Rle_dec 0 x), (Rle_dec 0 y);
    repeat match goal with |- context [Rle_dec ?a ?b] => destruct (Rle_dec a b) end; lra. }
  split; [|split; [|split]].
  - intros x y H. apply Hl, H.
  - intros x. unfold uniform_cdf, Rmin, Rmax. destruct (Rle_dec 0 x);
    repeat match goal with |- context [Rle_dec ?a ?b] => destruct (Rle_dec a b) end; lra.
  - intros x eps He. exists eps. split; [exact He|]. intros y [_ Hy]. simpl in *. unfold R_dist in *.
    destruct (Rle_or_lt x y) as [L|L].
    + pose proof (Hl x y L). rewrite Rabs_pos_eq in * by lra. lra.
    + pose proof (Hl y x ltac:(lra)). rewrite Rabs_left1 in * by lra. lra.
  - unfold ks_test. cbn [existsb]. repeat rewrite (proj2 (Rltb_false _ 0)) by lra.
    rewrite (proj2 (Rleb_false _ _)), (proj2 (Rltb_false _ _)) by lra. cbn [orb andb]. eauto.
Qed.

(** ** C38 *)
Theorem C38_chi2_test : forall cdf k critical negative_ok data significance bins auto r,
  (forall x y, x <= y -> cdf x <= cdf y) ->
  chi2_test cdf k critical negative_ok data significance bins auto = Ok r ->
  (list_sum (c_observed r) = length data <-> Forall (in_range (c_edges r)) data) /\
  rsum (c_expected r) = INR (length data) /\
  Forall (fun x => 0 < x) (c_expected r) /\
  0 <= c_statistic r /\ (c_statistic r = 0 <-> map INR (c_observed r) = c_expected r) /\
  (c_accept r = true <-> c_statistic r < critical (length (c_observed r) - k - 1)%nat).
Proof. exact chi2_full. Qed.
Print Assumptions C38_chi2_test.

(** If the automatic bins cover the data, so do the bins of the result, whatever bins were
    given. *)
Theorem C38_chi2_covered : forall cdf k critical negative_ok data significance bins auto r,
  chi2_test cdf k critical negative_ok data significance bins auto = Ok r -> Forall (in_range auto) data ->
  list_sum (c_observed r) = length data.
Proof. exact chi2_covered. Qed.
Print Assumptions C38_chi2_covered.

Example C38_case : exists r, chi2_test (fun x => x) 0 (fun _ => 1) false [1; 3] (5 / 100) (Some [0; 2; 4]) [0; 2; 4] = Ok r.
Proof.
  unfold chi2_test. cbn [existsb forallb]. repeat rewrite (proj2 (Rltb_false _ _)) by lra.
  rewrite (proj2 (Rleb_false (5 / 100) 0)) by lra. cbn [orb andb].
  assert (increasing_edges [0; 2; 4] = true) as Ei.
  { cbn [increasing_edges]. rewrite !(proj2 (Rleb_true _ _)) by lra. reflexivity. }
  assert (histogram [0; 2; 4] [1; 3] = [1; 1]%nat) as Eh.
  { cbn [histogram filter].
    rewrite (proj2 (Rleb_true 0 1)), (proj2 (Rltb_true 1 2)), (proj2 (Rleb_true 0 3)), (proj2 (Rltb_false 3 2)),
      (proj2 (Rleb_false 2 1)), (proj2 (Rleb_true 2 3)), (proj2 (Rleb_true 3 4)) by lra. reflexivity. }
  unfold np_histogram. rewrite Ei, Eh. cbn [bind list_sum fold_right length Nat.add Nat.eqb].
  cbn [map np_diff rsum fold_right].
  destruct (Req_EM_T (2 - 0 + (4 - 2 + 0)) 0) as [E|E]; [lra|]. cbn [existsb Nat.leb Nat.add].
  destruct (Req_EM_T _ 0) as [E1|E1]; [exfalso|].
  { revert E1. cbn [INR]. replace (2 - 0 + (4 - 2 + 0)) with 4 by ring. lra. }
  destruct (Req_EM_T _ 0) as [E2|E2]; [exfalso|].
  { revert E2. cbn [INR]. replace (2 - 0 + (4 - 2 + 0)) with 4 by ring. lra. }
  match goal with |- context [if ?b then Err TypeError else _] => assert (b = false) as -> end; [cbn [forallb]; rewrite (proj2 (Rltb_false 0 0)) by lra; reflexivity|]. cbn [orb]. eauto.
Qed.
