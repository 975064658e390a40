(** Remaining lemmas, witnesses and examples for repairable systems. *)
From Coquelicot Require Import Coquelicot.
From Coq Require Import List Arith Reals Bool Permutation Sorted Lra Lia.
From Verif Require Import Base RealFacts Gauss NonparModel NonparProofs NonparProofs2 RList RepairModel RepairSpec RepairProofs RepairProofs2.
Import ListNotations.
Open Scope R_scope.

(** * MCF witnesses *)
Lemma rmax_two : rmax [1; 2] = 2.
Proof. simpl. unfold Rmax. destruct (Rle_dec 2 1); lra. Qed.

Definition mcf_data : list (list R) := [[1; 2]; [2]].
Lemma mcf_data_ne : Forall (fun s => s <> []) mcf_data.
Proof. repeat constructor; discriminate. Qed.

Lemma mcf_data_ok CI : 0 <= CI <= 1 -> exists res data', mcf_nonparametric mcf_data CI = (Ok res, data').
Proof.
  intros H. apply mcf_succeeds; [apply mcf_data_ne| |exact H].
  exists [1; 2]. split; [now left|simpl; lia].
Qed.

Lemma mcf_data_values CI res data' : mcf_nonparametric mcf_data CI = (Ok res, data') ->
  mcf_time res = [1] /\ mcf_MCF res = [1 / 2] /\
  mcf_lower res = [1 / 2 / exp (- norm_ppf (1 - CI) * sqrt (1 / 8) / (1 / 2))].
Proof.
  intros H. destruct (mcf_structure _ _ mcf_data_ne _ _ H) as (P & _ & _ & _ & _ & EM & EV & EL & _).
  assert (mcf_time res = [1]) as ET.
  { cbn [mcf_data map concat app] in P. rewrite rmax_two in P. simpl (rmax [2]) in P.
    apply (Permutation_app_inv_r [2; 2] (mcf_time res) [1]) in P.
    symmetry in P. now apply Permutation_length_1_inv in P. }
  assert (systems_observed mcf_data 1 = 2%nat) as ER.
  { unfold systems_observed. cbn [mcf_data map]. rewrite rmax_two. simpl (rmax [2]). cbn [filter].
    rewrite (proj2 (Rleb_true 1 2)) by lra. reflexivity. }
  rewrite ET in EM, EV. cbn [map cumsum] in EM, EV. rewrite ER in EM, EV.
  assert (INR 2 = 2) as E2 by (simpl; lra).
  assert (0 + 1 / INR 2 = 1 / 2) as Ea by (rewrite E2; lra).
  assert (0 + var_term 2 = 1 / 8) as Eb by (unfold var_term; rewrite E2; field).
  rewrite Ea in EM. rewrite Eb in EV.
  split; [exact ET|]. split; [exact EM|]. rewrite EL, EM, EV. reflexivity.
Qed.

Lemma c20_refuted : exists data CI res data', Forall (fun s => s <> []) data /\ 0 < CI < 1 /\
  mcf_nonparametric data CI = (Ok res, data') /\ nth 0 (mcf_MCF res) 0 < nth 0 (mcf_lower res) 0.
Proof.
  destruct (mcf_data_ok (1 / 4) ltac:(lra)) as (res & data' & H).
  exists mcf_data, (1 / 4), res, data'. split; [apply mcf_data_ne|]. split; [lra|]. split; [exact H|].
  destruct (mcf_data_values _ _ _ H) as (_ & -> & ->). cbn [nth].
  assert (0 < norm_ppf (1 - 1 / 4)) as HZ.
  { destruct (Rle_or_lt (norm_ppf (1 - 1 / 4)) 0) as [Hn|Hn]; [|exact Hn]. exfalso.
    pose proof (Phi_norm_ppf (1 - 1 / 4) ltac:(lra)) as E.
    assert (Phi (norm_ppf (1 - 1 / 4)) <= Phi 0).
    { destruct Hn as [Hn|Hn]; [left; now apply Phi_increasing|rewrite Hn; apply Rle_refl]. }
    rewrite Phi_0 in *. lra. }
  set (z := norm_ppf (1 - 1 / 4)) in *.
  assert (0 < sqrt (1 / 8)) as Hs by (apply sqrt_lt_R0; lra).
  assert (- z * sqrt (1 / 8) / (1 / 2) < 0) as Hx.
  { assert (0 < z * sqrt (1 / 8)) by now apply Rmult_lt_0_compat. lra. }
  assert (exp (- z * sqrt (1 / 8) / (1 / 2)) < 1) as He by (pose proof (exp_increasing _ _ Hx) as He; rewrite exp_0 in He; exact He).
  pose proof (exp_pos (- z * sqrt (1 / 8) / (1 / 2))) as Hp.
  set (e := exp (- z * sqrt (1 / 8) / (1 / 2))) in *. clearbody e.
  assert (1 < / e) by (rewrite <- Rinv_1; apply Rinv_lt_contravar; lra). unfold Rdiv in *. lra.
Qed.

Lemma isort_21 : isort Rleb [2; 1] = [1; 2].
Proof.
  cbn. rewrite (proj2 (Rleb_false 2 1)) by lra. reflexivity.
Qed.

Lemma c21_refuted : exists data CI res data', Forall (fun s => s <> []) data /\ 0 < CI < 1 /\
  mcf_nonparametric data CI = (Ok res, data') /\ data' <> data.
Proof.
  assert (Forall (fun s : list R => s <> []) [[2; 1]]) as HF by (repeat constructor; discriminate).
  destruct (mcf_succeeds [[2; 1]] (1 / 2) HF) as (res & data' & H); [exists [2; 1]; split; [now left|simpl; lia]|lra|].
  exists [[2; 1]], (1 / 2), res, data'. split; [exact HF|]. split; [lra|]. split; [exact H|].
  destruct (mcf_C21 [[2; 1]] (1 / 2) HF) as [E _]. rewrite H in E. cbn [snd map] in E.
  rewrite isort_21 in E. rewrite E. intros C. injection C as C _. lra.
Qed.

(** * ROCOF *)
Lemma cumsum_prefix l : forall a, cumsum a l = map (fun k => a + rsum (firstn k l)) (seq 1 (length l)).
Proof.
  induction l as [|x l IH]; intros a; [reflexivity|]. cbn [cumsum length seq map]. f_equal.
  - cbn. ring.
  - rewrite IH, <- (seq_shift (length l) 1), map_map. apply map_ext. intros k. cbn [firstn]. rewrite rsum_cons. ring.
Qed.

Lemma arrivals_cumsum g : arrivals g = cumsum 0 (removelast g).
Proof.
  rewrite cumsum_prefix. unfold arrivals. rewrite <- firstn_removelast, firstn_length.
  replace (Nat.min (length g - 1) (length g)) with (length g - 1)%nat by lia.
  apply map_ext_in. intros k Hk. apply in_seq in Hk. rewrite firstn_firstn.
  replace (Nat.min k (length g - 1)) with k by lia. ring.
Qed.

Lemma laplace_is_statistic g : g <> [] -> laplace g = laplace_statistic (arrivals g) (rsum g).
Proof.
  intros Hg. unfold laplace, laplace_statistic. rewrite arrivals_cumsum, cumsum_length.
  rewrite removelast_length. cbv zeta. fold (W (removelast g)). now rewrite W_removelast.
Qed.

Lemma diffs_map c l : forall a, diffs (c * a) (map (Rmult c) l) = map (Rmult c) (diffs a l).
Proof. induction l as [|x l IH]; intros a; [reflexivity|]. cbn [map diffs]. rewrite IH. f_equal. ring. Qed.

Lemma cumsum_diffs l : forall a, cumsum a (diffs a l) = l.
Proof. induction l as [|x l IH]; intros a; [reflexivity|]. cbn [diffs cumsum]. replace (a + (x - a)) with x by ring. now rewrite IH. Qed.

Lemma Rleb_scale c x y : 0 < c -> Rleb (c * x) (c * y) = Rleb x y.
Proof.
  intros Hc. destruct (Rleb x y) eqn:E.
  - apply Rleb_true in E. apply Rleb_true. nra.
  - apply Rleb_false in E. apply Rleb_false. nra.
Qed.

Lemma insert_map {A B} (f : A -> B) (la : A -> A -> bool) (lb : B -> B -> bool) x l :
  (forall a b, lb (f a) (f b) = la a b) -> insert lb (f x) (map f l) = map f (insert la x l).
Proof.
  intros H. induction l as [|y l IH]; [reflexivity|]. cbn. rewrite H. destruct (la x y); [reflexivity|]. cbn. now rewrite IH.
Qed.

Lemma isort_map {A B} (f : A -> B) (la : A -> A -> bool) (lb : B -> B -> bool) l :
  (forall a b, lb (f a) (f b) = la a b) -> isort lb (map f l) = map f (isort la l).
Proof.
  intros H. induction l as [|y l IH]; [reflexivity|]. cbn [map isort]. rewrite IH. now apply insert_map.
Qed.

Lemma existsb_nonpos l : existsb (fun t => Rleb t 0) l = false <-> Forall (fun t => 0 < t) l.
Proof.
  induction l as [|t l IH]; simpl; [split; auto|].
  rewrite orb_false_iff, Rleb_false, IH. split; [intros [? ?]; now constructor|intros H; inversion H; auto].
Qed.

Lemma existsb_nonpos_scale c l : 0 < c -> existsb (fun t => Rleb t 0) (map (Rmult c) l) = existsb (fun t => Rleb t 0) l.
Proof.
  intros Hc. induction l as [|x l IH]; [reflexivity|]. cbn [map existsb]. rewrite IH. f_equal.
  rewrite <- (Rmult_0_r c) at 1. now apply Rleb_scale.
Qed.

Lemma rocof_input_scale tbf ft c : 0 < c ->
  rocof_input (option_map (map (Rmult c)) tbf) (option_map (map (Rmult c)) ft)
  = match rocof_input tbf ft with Ok ti => Ok (map (Rmult c) ti) | Err e => Err e end.
Proof.
  intros Hc. unfold rocof_input. destruct tbf as [ti|], ft as [f|]; cbn [option_map]; try reflexivity.
  - rewrite existsb_nonpos_scale by assumption. now destruct (existsb _ ti).
  - rewrite existsb_nonpos_scale by assumption. destruct (existsb _ f); [reflexivity|].
    rewrite (isort_map (Rmult c) Rleb Rleb) by (intros; now apply Rleb_scale).
    rewrite <- diffs_map. now rewrite Rmult_0_r.
Qed.

Lemma rocof_input_pos tbf ft ti : rocof_input tbf ft = Ok ti -> Forall (fun t => 0 < t) (cumsum 0 ti).
Proof.
  unfold rocof_input. destruct tbf as [l|], ft as [f|]; try discriminate.
  - destruct (existsb _ l) eqn:E; [discriminate|]. intros H. injection H as <-. apply existsb_nonpos in E.
    apply cumsum_pos; [lra|assumption].
  - destruct (existsb _ f) eqn:E; [discriminate|]. intros H. injection H as <-. apply existsb_nonpos in E.
    rewrite cumsum_diffs. rewrite Forall_forall in *. intros x Hx. apply E.
    apply (Permutation_in _ (Permutation_sym (isort_perm Rleb f))). exact Hx.
Qed.

Lemma ROCOF_scale tbf ft CI te c : 0 < c ->
  match ROCOF tbf ft CI te,
        ROCOF (option_map (map (Rmult c)) tbf) (option_map (map (Rmult c)) ft) CI (option_map (Rmult c) te) with
  | Ok a, Ok b => r_U b = r_U a /\ r_trend b = r_trend a /\ r_Beta b = r_Beta a /\
                  r_ROCOF b = option_map (fun x => x / c) (r_ROCOF a)
  | Err e1, Err e2 => e1 = e2
  | _, _ => False
  end.
Proof.
  intros Hc. unfold ROCOF. rewrite rocof_input_scale by assumption.
  destruct (rocof_input tbf ft) as [ti|e] eqn:E; cbn [bind]; [|reflexivity].
  apply rocof_scale; [|assumption]. exact (rocof_input_pos _ _ _ E).
Qed.

Lemma gaps_total ti te : rsum (gaps ti te) = match te with None => rsum ti | Some e => e end.
Proof. destruct te as [e|]; simpl; [|reflexivity]. rewrite rsum_app. simpl. ring. Qed.

Lemma rocof_reverse ti te ti' te' CI a b : 0 < rsum (gaps ti te) ->
  gaps ti' te' = rev (gaps ti te) ->
  rocof ti CI te = Ok a -> rocof ti' CI te' = Ok b ->
  r_U b = - r_U a /\ r_trend b = mirror (r_trend a).
Proof.
  intros Hp E Ha Hb. apply rocof_inv in Ha as (HCI & _ & HL & EU & EZ & I & Wo & C & _).
  apply rocof_inv in Hb as (_ & _ & _ & EU' & EZ' & I' & Wo' & C' & _).
  assert (r_U b = - r_U a) as EU2.
  { rewrite EU', EU, E. apply laplace_rev; [exact HL|lra]. }
  split; [exact EU2|]. rewrite EZ' in *. rewrite <- EZ in *. rewrite EU2 in *.
  destruct (r_trend a); cbn [mirror].
  - apply Wo'. pose proof (proj1 I eq_refl). lra.
  - apply C'. pose proof (proj1 C eq_refl). lra.
  - apply I'. pose proof (proj1 Wo eq_refl). lra.
Qed.

Lemma zcrit_neg CI : 0 < CI < 1 -> norm_ppf ((1 - CI) / 2) < 0.
Proof. intros H. apply norm_ppf_neg. lra. Qed.

Lemma rocof_sorted ti te CI a : 0 < rsum (gaps ti te) -> StronglySorted Rle (gaps ti te) ->
  rocof ti CI te = Ok a -> r_trend a <> Worsening.
Proof.
  intros Hp HS Ha. apply rocof_inv in Ha as (HCI & _ & HL & EU & EZ & _ & Wo & _).
  intros C. apply Wo in C. pose proof (laplace_sorted _ HL Hp HS) as HU. pose proof (zcrit_neg CI HCI). lra.
Qed.

Lemma rocof_ok ti CI te : 0 < CI < 1 -> te_ok ti te -> (2 <= length (gaps ti te))%nat ->
  exists r, rocof ti CI te = Ok r.
Proof.
  intros HCI Ht HL. unfold rocof.
  rewrite (proj2 (Rleb_false CI 0)), (proj2 (Rleb_false 1 CI)) by lra. cbn [orb].
  assert (match te with None => false | Some e => Rltb e (rsum ti) end = false) as ->.
  { destruct te as [e|]; [|reflexivity]. apply Rltb_false. exact Ht. }
  destruct (Nat.eqb_spec (match te with None => (length ti - 1)%nat | Some _ => length ti end) 0) as [E|E].
  - exfalso. destruct te as [e|]; unfold gaps in HL; [rewrite app_length in HL; simpl in HL|]; lia.
  - destruct (Rlt_dec _ _); [|destruct (Rlt_dec _ _)]; eauto.
Qed.

Lemma c23_refuted : exists ti test_end r, Forall (fun t => 0 < t) ti /\
  rocof ti (95 / 100) (Some test_end) = Ok r /\ r_trend r = Constant /\
  r_ROCOF r <> Some (INR (length ti) / test_end).
Proof.
  destruct (rocof_ok [1; 1; 1] (95 / 100) (Some 4)) as [r Hr]; [lra|simpl; lra|simpl; lia|].
  exists [1; 1; 1], 4, r. split; [repeat constructor; lra|]. split; [exact Hr|].
  apply rocof_inv in Hr as (HCI & _ & _ & EU & EZ & _ & _ & C & HR).
  pose proof (zcrit_neg _ HCI) as Hz. rewrite <- EZ in Hz.
  assert (r_U r = 0) as E0.
  { rewrite EU. unfold laplace, W. cbn [gaps app cumsum rsum fold_right length Nat.sub].
    unfold rsum. cbn [fold_right]. set (q := sqrt _).
    match goal with |- ?a / ?b = 0 => replace a with 0 by (simpl; field) end. unfold Rdiv. ring. }
  assert (r_trend r = Constant) as EC by (apply C; rewrite E0; lra).
  split; [exact EC|]. rewrite (HR EC). intros E. injection E as E.
  unfold gaps, rsum in E. cbn [app length fold_right] in E. simpl in E. lra.
Qed.

Lemma c23_partial ti CI r : rocof ti CI None = Ok r -> r_trend r = Constant ->
  r_ROCOF r = Some (INR (length ti) / rsum ti).
Proof.
  intros H HC. apply rocof_inv in H as (_ & _ & _ & _ & _ & _ & _ & _ & HR). exact (HR HC).
Qed.

(** * Growth *)
Lemma crow_full times c : crow_amsaa times = Ok (Some c) ->
  let M t := t / plp_mean (Lambda c) (Beta c) t in
  plp_mean (Lambda c) (Beta c) (rmax times) = INR (length times) /\ DMTBF_C c = M (rmax times) /\
  (forall target, 0 < target -> Beta c <> 1 ->
   0 < crow_time_to_target c target /\ M (crow_time_to_target c target) = target).
Proof.
  intros H M. pose proof (crow_mle _ _ H) as (Hb & Hl & _).
  assert (forall t, 0 < t -> M t = 1 / Lambda c * Rpower t (1 - Beta c)) as EM.
  { intros t Ht. unfold M, plp_mean. unfold Rminus. rewrite Rpower_plus, Rpower_1, Rpower_Ropp by assumption.
    field. split; [apply Rgt_not_eq, exp_pos|lra]. }
  pose proof H as H'. apply crow_inv in H' as (HF & Hne & [[_ E]|(Hd & c' & E & HB & HL & _ & _ & _ & HC & _)]); [discriminate|].
  injection E as <-.
  assert (0 < rmax times) as HT. { rewrite Forall_forall in HF. apply HF. now apply rmax_in. }
  split; [|split].
  - unfold plp_mean. rewrite <- HB in HL. rewrite HL. field. apply Rgt_not_eq, exp_pos.
  - rewrite EM by assumption. exact HC.
  - intros target Ht HB1. destruct (crow_target _ _ _ H Ht HB1) as [H1 H2]. split; [exact H1|]. rewrite EM by exact H1. exact H2.
Qed.

Lemma duane_full max_time z0 z1 target : 0 < target -> z0 <> 0 ->
  let d := duane_model max_time z0 z1 in
  let M t := exp (z1 + z0 * ln t) in
  0 < duane_time_to_target d target /\ M (duane_time_to_target d target) = target /\
  d_DMTBF_C d = M max_time.
Proof.
  intros Ht Hz d M. destruct (duane_target max_time z0 z1 target Ht Hz) as [H1 H2]. fold d in H1, H2.
  assert (forall t, M t = exp z1 * Rpower t z0) as EM by (intros t; unfold M; rewrite exp_plus; reflexivity).
  split; [exact H1|]. split.
  - rewrite EM. cbn [d duane_model A Alpha] in H2. rewrite <- H2 at 2. unfold d, duane_model. cbn [A Alpha].
    pose proof (exp_pos z1). f_equal. field. lra.
  - rewrite EM. reflexivity.
Qed.

(** * Replacement *)
Lemma ort_one PM CM alpha beta ORT cost : 0 < PM -> 0 < alpha -> 1 < beta ->
  optimal_replacement_time PM CM alpha beta 1 = Ok (ORT, cost) ->
  0 < ORT /\ cost = (PM * Rpower (ORT / alpha) beta + CM) / ORT /\
  forall t, 0 < t -> t <> ORT -> cost < (PM * Rpower (t / alpha) beta + CM) / t.
Proof.
  intros HP Ha Hb H. unfold optimal_replacement_time in H. destruct (Rltb CM PM) eqn:E; [discriminate|].
  apply Rltb_false in E. injection H as <- <-.
  destruct (ort_old_optimal PM CM alpha beta 1 HP ltac:(lra) Ha Hb ltac:(lra)) as [H1 _].
  split; [exact H1|]. split; [reflexivity|]. intros t Ht Hn.
  destruct (ort_old_optimal PM CM alpha beta t HP ltac:(lra) Ha Hb Ht) as (_ & _ & H3). exact (H3 Hn).
Qed.

Lemma Rpower_2 x : 0 < x -> Rpower x 2 = x * x.
Proof. intros H. replace 2 with (1 + 1) by ring. rewrite Rpower_plus, Rpower_1 by assumption. reflexivity. Qed.

Lemma ort_true_refuted : exists PM CM alpha beta ORT cost t,
  0 < PM /\ PM <= CM /\ 0 < alpha /\ 1 < beta /\ 0 < t /\
  optimal_replacement_time PM CM alpha beta 1 = Ok (ORT, cost) /\
  minimal_repair_cost PM CM alpha beta t < minimal_repair_cost PM CM alpha beta ORT.
Proof.
  assert (ort_old 1 4 1 2 = 2) as EO.
  { unfold ort_old. replace (4 / (1 * (2 - 1))) with (2 * 2) by field.
    rewrite <- (Rpower_2 2) by lra. rewrite Rpower_mult. replace (2 * (1 / 2)) with 1 by field. rewrite Rpower_1; lra. }
  exists 1, 4, 1, 2, 2, (cput_old 1 4 1 2 2), (1 / 2). repeat split; try lra.
  - unfold optimal_replacement_time. rewrite (proj2 (Rltb_false 4 1)) by lra. now rewrite EO.
  - unfold minimal_repair_cost. rewrite !Rpower_2 by lra. lra.
Qed.

Lemma ort_true_partial C alpha beta ORT cost t : 0 < C -> 0 < alpha -> 1 < beta -> 0 < t ->
  optimal_replacement_time C C alpha beta 1 = Ok (ORT, cost) ->
  cost = minimal_repair_cost C C alpha beta ORT /\
  minimal_repair_cost C C alpha beta ORT <= minimal_repair_cost C C alpha beta t.
Proof.
  intros HC Ha Hb Ht H. destruct (ort_one _ _ _ _ _ _ HC Ha Hb H) as (H1 & H2 & H3).
  assert (forall u, minimal_repair_cost C C alpha beta u = (C * Rpower (u / alpha) beta + C) / u) as E
    by (intros u; unfold minimal_repair_cost; now rewrite Rplus_comm).
  rewrite !E, <- H2. split; [reflexivity|]. destruct (Req_EM_T t ORT) as [->|N]; [rewrite H2; lra|]. left. now apply H3.
Qed.

Lemma argmin_ok l : l <> [] -> exists i, argmin l = Ok i.
Proof. destruct l; [congruence|]. simpl. eauto. Qed.

Lemma ort_zero_ok PM CM alpha beta : PM <= CM ->
  exists ORT cost, optimal_replacement_time PM CM alpha beta 0 = Ok (ORT, cost).
Proof.
  intros H. unfold optimal_replacement_time. rewrite (proj2 (Rltb_false CM PM)) by lra.
  set (grid := linspace 1 (alpha * 3) (N.to_nat 10000)).
  assert (grid <> []) as Hg.
  { unfold grid, linspace. intros E. apply (f_equal (@length R)) in E. rewrite map_length, seq_length in E. simpl length in E. lia. }
  clearbody grid. destruct (argmin_ok (map (cput_new PM CM alpha beta) grid)) as [i Hi].
  - intros E. apply Hg. destruct grid; [reflexivity|discriminate].
  - rewrite Hi. cbn [bind]. eauto.
Qed.

Lemma crow_ok times : Forall (fun t => 0 < t) times -> times <> [] ->
  (exists t, In t times /\ t <> rmax times) -> exists c, crow_amsaa times = Ok (Some c).
Proof.
  intros HF Hne (t & Ht & Hn). unfold crow_amsaa. rewrite (proj2 (existsb_pos times) HF).
  destruct times as [|x l]; [congruence|]. set (ts := x :: l) in *. clearbody ts.
  destruct (Req_EM_T _ 0) as [E|_]; [|eauto]. exfalso. apply Hn.
  destruct (crow_d_nonneg ts HF) as [_ I]. now apply I.
Qed.

Lemma linspace_grid a b n t : (1 <= n)%N -> In t (linspace a b (N.to_nat n)) <-> on_grid a b n t.
Proof.
  intros Hn. unfold linspace, on_grid. rewrite in_map_iff.
  assert (INR (N.to_nat n - 1) = IZR (Z.of_N n) - 1) as E.
  { rewrite INR_IZR_INZ, Nat2Z.inj_sub, N_nat_Z, minus_IZR; [reflexivity|lia]. }
  rewrite E. split.
  - intros (i & <- & Hi). apply in_seq in Hi. exists i. split; [lia|reflexivity].
  - intros (i & Hi & ->). exists i. split; [reflexivity|]. apply in_seq. lia.
Qed.

Lemma ort_new_full PM CM alpha beta ORT cost :
  optimal_replacement_time PM CM alpha beta 0 = Ok (ORT, cost) ->
  on_grid 1 (3 * alpha) 10000%N ORT /\
  cost = renewal_cost PM CM (weibull_reliability alpha beta) ORT /\
  forall t, on_grid 1 (3 * alpha) 10000 t ->
    cost <= renewal_cost PM CM (weibull_reliability alpha beta) t.
Proof.
  intros H. apply ort_new_optimal in H as (H1 & H2 & H3). rewrite (Rmult_comm 3 alpha).
  split; [apply linspace_grid; [lia|exact H1]|]. split; [exact H2|]. intros t Ht. rewrite H2.
  apply linspace_grid in Ht; [|lia]. exact (H3 t Ht).
Qed.
