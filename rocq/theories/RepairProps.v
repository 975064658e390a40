(** Properties C19-C28 and C77: repairable systems.  The vocabulary is in RepairSpec.v. *)
From Coquelicot Require Import Coquelicot.
From Coq Require Import List Arith Reals Bool Permutation Sorted Lra Lia.
From Verif Require Import Base Gauss NonparModel NonparProofs RList RepairModel RepairSpec RepairProofs RepairProofs2 RepairProofs3.
Import ListNotations.
Open Scope R_scope.

(** ** C19 Nonparametric MCF is the Nelson mean cumulative function *)
(** The reported times are all recorded times except the last one of each system, in order;
    the k-th MCF value is the sum of 1/(systems observed) over the repairs up to the k-th. *)
Theorem C19_mcf_nelson : forall data CI res data', Forall (fun s => s <> []) data ->
  mcf_nonparametric data CI = (Ok res, data') ->
  Permutation (mcf_time res ++ map rmax data) (concat data) /\
  StronglySorted Rle (mcf_time res) /\
  length (mcf_MCF res) = length (mcf_time res) /\
  forall k, (k < length (mcf_time res))%nat ->
    nth k (mcf_MCF res) 0 =
    rsum (map (fun t => 1 / INR (systems_observed data t)) (firstn (S k) (mcf_time res))).
Proof. intros data CI res data' HF H. exact (mcf_C19 data CI HF res data' H). Qed.
Print Assumptions C19_mcf_nelson.

(** The call succeeds as soon as there is a repair (a system with two times). *)
Theorem C19_mcf_succeeds : forall data CI, Forall (fun s => s <> []) data ->
  (exists s, In s data /\ (2 <= length s)%nat) -> 0 <= CI <= 1 ->
  exists res data', mcf_nonparametric data CI = (Ok res, data').
Proof. exact mcf_succeeds. Qed.
Print Assumptions C19_mcf_succeeds.

Example C19_example : exists res data', mcf_nonparametric [[1; 2]; [2]] (95 / 100) = (Ok res, data').
Proof. apply (mcf_data_ok (95 / 100)). lra. Qed.

(** ** C20 MCF is a cumulative function with ordered limits *)
(** Proved for 1/2 <= CI < 1; below 1/2 the limits are swapped, see the refutation. *)
Theorem C20_mcf_limits_partial : forall data CI res data', Forall (fun s => s <> []) data ->
  mcf_nonparametric data CI = (Ok res, data') ->
  StronglySorted Rlt (mcf_MCF res) /\
  (exists t, hd_error (mcf_time res) = Some t /\ (0 < systems_observed data t)%nat /\
     hd_error (mcf_MCF res) = Some (1 / INR (systems_observed data t))) /\
  (1 / 2 <= CI < 1 ->
   length (mcf_lower res) = length (mcf_MCF res) /\ length (mcf_upper res) = length (mcf_MCF res) /\
   forall k, (k < length (mcf_MCF res))%nat ->
     0 < nth k (mcf_lower res) 0 <= nth k (mcf_MCF res) 0 /\
     nth k (mcf_MCF res) 0 <= nth k (mcf_upper res) 0).
Proof. intros data CI res data' HF H. exact (mcf_C20 data CI HF res data' H). Qed.
Print Assumptions C20_mcf_limits_partial.

Theorem C20_mcf_limits_refuted : exists data CI res data',
  Forall (fun s => s <> []) data /\ 0 < CI < 1 /\
  mcf_nonparametric data CI = (Ok res, data') /\ nth 0 (mcf_MCF res) 0 < nth 0 (mcf_lower res) 0.
Proof. exact c20_refuted. Qed.
Print Assumptions C20_mcf_limits_refuted.

Example C20_example : exists res data', mcf_nonparametric [[1; 2]; [2]] (95 / 100) = (Ok res, data').
Proof. apply (mcf_data_ok (95 / 100)). lra. Qed.

(** ** C21 MCF_nonparametric does not modify the caller's data *)
(** True only of systems already in order: otherwise each list comes back sorted. *)
Theorem C21_mcf_keeps_data_partial : forall data CI, Forall (fun s => s <> []) data ->
  let data' := snd (mcf_nonparametric data CI) in
  Forall2 (fun s s' => Permutation s s' /\ StronglySorted Rle s') data data' /\
  (Forall (StronglySorted Rle) data -> data' = data).
Proof.
  intros data CI HF data'. destruct (mcf_C21 data CI HF) as [E1 E2]. split; [|exact E2].
  unfold data'. rewrite E1. clear. induction data as [|s l IH]; constructor; [|exact IH].
  split; [apply isort_perm|apply isort_R_sorted].
Qed.
Print Assumptions C21_mcf_keeps_data_partial.

Theorem C21_mcf_keeps_data_refuted : exists data CI res data',
  Forall (fun s => s <> []) data /\ 0 < CI < 1 /\
  mcf_nonparametric data CI = (Ok res, data') /\ data' <> data.
Proof. exact c21_refuted. Qed.
Print Assumptions C21_mcf_keeps_data_refuted.

Example C21_example : Forall (fun s : list R => s <> []) [[1; 2]; [2]] /\ Forall (StronglySorted Rle) [[1; 2]; [2]].
Proof. split; [repeat constructor; discriminate|repeat constructor; lra]. Qed.

(** ** C22 ROCOF trend test is scale free *)
Theorem C22_rocof_scale : forall tbf ft CI test_end c, 0 < c ->
  match ROCOF tbf ft CI test_end,
        ROCOF (option_map (map (Rmult c)) tbf) (option_map (map (Rmult c)) ft) CI
              (option_map (Rmult c) test_end) with
  | Ok a, Ok b => r_U b = r_U a /\ r_trend b = r_trend a /\ r_Beta b = r_Beta a /\
                  r_ROCOF b = option_map (fun x => x / c) (r_ROCOF a)
  | Err e1, Err e2 => e1 = e2
  | _, _ => False
  end.
Proof. exact ROCOF_scale. Qed.
Print Assumptions C22_rocof_scale.

Example C22_example : exists r, ROCOF (Some [1; 2; 3]) None (95 / 100) None = Ok r.
Proof.
  unfold ROCOF, rocof_input. cbn [existsb].
  rewrite !(proj2 (Rleb_false _ 0)) by lra. cbn [orb bind]. apply rocof_ok; [lra|exact I|simpl; lia].
Qed.

(** ** C23 ROCOF constant-trend rate *)
(** Proved without test_end only. *)
Theorem C23_rocof_rate_partial : forall ti CI r,
  ROCOF (Some ti) None CI None = Ok r -> r_trend r = Constant ->
  r_ROCOF r = Some (INR (length ti) / rsum ti).
Proof.
  intros ti CI r H. unfold ROCOF, rocof_input in H. destruct (existsb _ ti); [discriminate|].
  exact (c23_partial ti CI r H).
Qed.
Print Assumptions C23_rocof_rate_partial.

Theorem C23_rocof_rate_refuted : exists ti test_end r, Forall (fun t => 0 < t) ti /\
  rocof ti (95 / 100) (Some test_end) = Ok r /\ r_trend r = Constant /\
  r_ROCOF r <> Some (INR (length ti) / test_end).
Proof. exact c23_refuted. Qed.
Print Assumptions C23_rocof_rate_refuted.

(** ** C24 ROCOF trend *)
(** The statistic is the Laplace statistic of the arrival times; the trend is improving,
    constant or worsening exactly as it lies below z_crit, between z_crit and -z_crit, or
    above; z_crit is the negative (1-CI)/2 normal quantile. *)
Theorem C24_rocof_trend : forall ti CI test_end r, rocof ti CI test_end = Ok r ->
  r_U r = laplace_statistic (arrivals (gaps ti test_end)) (rsum (gaps ti test_end)) /\
  r_z_crit r < 0 /\ Phi (r_z_crit r) = (1 - CI) / 2 /\
  (r_trend r = Improving <-> r_U r < r_z_crit r) /\
  (r_trend r = Worsening <-> - r_z_crit r < r_U r) /\
  (r_trend r = Constant <-> r_z_crit r <= r_U r <= - r_z_crit r).
Proof.
  intros ti CI te r H. apply rocof_inv in H as (HCI & _ & HL & EU & EZ & I & Wo & C & _).
  split; [|split; [|split; [|split; [|split]]]]; try assumption.
  - rewrite EU. apply laplace_is_statistic. intros E. rewrite E in HL. simpl in HL. lia.
  - rewrite EZ. now apply zcrit_neg.
  - rewrite EZ. apply Phi_norm_ppf. lra.
Qed.
Print Assumptions C24_rocof_trend.

(** Reversing the order of all gaps (the last one runs to the end of the test) negates the
    statistic and mirrors the trend. *)
Theorem C24_rocof_reverse : forall ti test_end ti' test_end' CI a b,
  0 < rsum (gaps ti test_end) -> gaps ti' test_end' = rev (gaps ti test_end) ->
  rocof ti CI test_end = Ok a -> rocof ti' CI test_end' = Ok b ->
  r_U b = - r_U a /\ r_trend b = mirror (r_trend a).
Proof. exact rocof_reverse. Qed.
Print Assumptions C24_rocof_reverse.

Theorem C24_rocof_growing_gaps : forall ti test_end CI a,
  0 < rsum (gaps ti test_end) -> StronglySorted Rle (gaps ti test_end) ->
  rocof ti CI test_end = Ok a -> r_trend a <> Worsening.
Proof. exact rocof_sorted. Qed.
Print Assumptions C24_rocof_growing_gaps.

Example C24_example : 0 < rsum (gaps [1; 2; 3] None) /\ StronglySorted Rle (gaps [1; 2; 3] None) /\
  (exists a, rocof [1; 2; 3] (95 / 100) None = Ok a) /\
  exists b, rocof [3; 2; 1] (95 / 100) None = Ok b.
Proof.
  split; [cbn; lra|]. split; [repeat constructor; lra|].
  split; apply rocof_ok; try lra; try exact I; simpl; lia.
Qed.

(** ** C25 Crow-AMSAA estimates maximise the likelihood *)
Theorem C25_crow_amsaa_mle : forall times c, crow_amsaa times = Ok (Some c) ->
  0 < Beta c /\ 0 < Lambda c /\
  forall lam bet, 0 < lam -> 0 < bet ->
    plp_loglik lam bet times (rmax times) <= plp_loglik (Lambda c) (Beta c) times (rmax times) /\
    (lam <> Lambda c \/ bet <> Beta c ->
     plp_loglik lam bet times (rmax times) < plp_loglik (Lambda c) (Beta c) times (rmax times)).
Proof. exact crow_mle. Qed.
Print Assumptions C25_crow_amsaa_mle.

(** Estimates exist for all positive times that are not all equal. *)
Theorem C25_crow_amsaa_exists : forall times, Forall (fun t => 0 < t) times -> times <> [] ->
  (exists t, In t times /\ t <> rmax times) -> exists c, crow_amsaa times = Ok (Some c).
Proof. exact crow_ok. Qed.
Print Assumptions C25_crow_amsaa_exists.

Example C25_example : exists c, crow_amsaa [1; 2] = Ok (Some c).
Proof.
  apply crow_ok; [repeat constructor; lra|discriminate|]. exists 1. split; [now left|]. rewrite rmax_two. lra.
Qed.

(** ** C26 Reliability growth time to target *)
(** With plp_mean the expected number of failures by t, the cumulative MTBF is t/plp_mean;
    at the end of the test it is the reported DMTBF_C, at the time to target the target. *)
Theorem C26_crow_time_to_target : forall times c, crow_amsaa times = Ok (Some c) ->
  let M t := t / plp_mean (Lambda c) (Beta c) t in
  plp_mean (Lambda c) (Beta c) (rmax times) = INR (length times) /\ DMTBF_C c = M (rmax times) /\
  (forall target, 0 < target -> Beta c <> 1 ->
   0 < crow_time_to_target c target /\ M (crow_time_to_target c target) = target).
Proof. exact crow_full. Qed.
Print Assumptions C26_crow_time_to_target.

(** Duane: the cumulative MTBF is the fitted line z1 + z0 ln t on the log scale. *)
Theorem C26_duane_time_to_target : forall max_time z0 z1 target, 0 < target -> z0 <> 0 ->
  let d := duane_model max_time z0 z1 in
  let M t := exp (z1 + z0 * ln t) in
  0 < duane_time_to_target d target /\ M (duane_time_to_target d target) = target /\
  d_DMTBF_C d = M max_time.
Proof. exact duane_full. Qed.
Print Assumptions C26_duane_time_to_target.

(** ** C27 Optimal replacement time, as good as old *)
Theorem C27_replacement_as_good_as_old : forall PM CM alpha beta ORT cost,
  0 < PM -> 0 < alpha -> 1 < beta ->
  optimal_replacement_time PM CM alpha beta 1 = Ok (ORT, cost) ->
  0 < ORT /\ cost = (PM * Rpower (ORT / alpha) beta + CM) / ORT /\
  forall t, 0 < t -> t <> ORT -> cost < (PM * Rpower (t / alpha) beta + CM) / t.
Proof. exact ort_one. Qed.
Print Assumptions C27_replacement_as_good_as_old.

Example C27_example : exists r, optimal_replacement_time 1 5 1000 (5 / 2) 1 = Ok r.
Proof. unfold optimal_replacement_time. rewrite (proj2 (NonparProofs.Rltb_false 5 1)) by lra. eauto. Qed.

(** ** C28 Optimal replacement time, as good as new *)
(** The times evaluated are 10000 equally spaced points from 1 to 3 alpha; the cost of each
    is the expected cycle cost over the expected cycle length. *)
Theorem C28_replacement_as_good_as_new : forall PM CM alpha beta ORT cost,
  optimal_replacement_time PM CM alpha beta 0 = Ok (ORT, cost) ->
  on_grid 1 (3 * alpha) 10000%N ORT /\
  cost = renewal_cost PM CM (weibull_reliability alpha beta) ORT /\
  forall t, on_grid 1 (3 * alpha) 10000%N t ->
    cost <= renewal_cost PM CM (weibull_reliability alpha beta) t.
Proof. exact ort_new_full. Qed.
Print Assumptions C28_replacement_as_good_as_new.

Example C28_example : exists ORT cost, optimal_replacement_time 1 5 1000 (5 / 2) 0 = Ok (ORT, cost).
Proof. apply ort_zero_ok. lra. Qed.

(** ** C77 The as-good-as-old optimum is that of the minimal repair policy *)
(** It holds when the two costs are equal; otherwise the two costs are swapped. *)
Theorem C77_minimal_repair_partial : forall C alpha beta ORT cost t,
  0 < C -> 0 < alpha -> 1 < beta -> 0 < t ->
  optimal_replacement_time C C alpha beta 1 = Ok (ORT, cost) ->
  cost = minimal_repair_cost C C alpha beta ORT /\
  minimal_repair_cost C C alpha beta ORT <= minimal_repair_cost C C alpha beta t.
Proof. exact ort_true_partial. Qed.
Print Assumptions C77_minimal_repair_partial.

Theorem C77_minimal_repair_refuted : exists PM CM alpha beta ORT cost t,
  0 < PM /\ PM <= CM /\ 0 < alpha /\ 1 < beta /\ 0 < t /\
  optimal_replacement_time PM CM alpha beta 1 = Ok (ORT, cost) /\
  minimal_repair_cost PM CM alpha beta t < minimal_repair_cost PM CM alpha beta ORT.
Proof. exact ort_true_refuted. Qed.
Print Assumptions C77_minimal_repair_refuted.
