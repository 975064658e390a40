(** Properties C39-C45 and C78-C92: physics of failure. *)
From Coquelicot Require Import Coquelicot.
From Coq Require Import List Arith Reals Lra Lia ZArith.
From Verif Require Import Base RealFacts Ext RList Linear NonparProofs PoFModel PoFSpec PoFProofs PoFProofs2 PoFProofs3.
Import ListNotations.
Open Scope R_scope.

(** ** C39 *)
(** Each of the three calls returns values that satisfy the Arrhenius equation, and the
    quantity computed by one call, fed back, gives the others. *)
Theorem C39_acceleration_factor : forall Tu Ta Ea pr, 0 < Tu + 273.15 -> 0 < Ta + 273.15 ->
  acceleration_factor None (Some Tu) (Some Ta) (Some Ea) pr =
  Ok (Some {| af_AF := arrhenius Ea Tu Ta; af_T_use := Tu; af_T_acc := Ta; af_Ea := Ea |}).
Proof. exact af_AF_of. Qed.
Print Assumptions C39_acceleration_factor.

Theorem C39_activation_energy : forall Tu Ta AF pr, 0 < Tu + 273.15 -> 0 < Ta + 273.15 -> Tu <> Ta -> 0 < AF ->
  exists Ea, acceleration_factor (Some AF) (Some Tu) (Some Ta) None pr =
    Ok (Some {| af_AF := AF; af_T_use := Tu; af_T_acc := Ta; af_Ea := Ea |}) /\ arrhenius Ea Tu Ta = AF.
Proof. exact af_Ea_of. Qed.
Print Assumptions C39_activation_energy.

Theorem C39_accelerated_temperature : forall Tu Ea AF pr, 0 < Tu + 273.15 -> Ea <> 0 -> 0 < AF ->
  0 < 1 / (Tu + 273.15) - ln AF * boltzmann / Ea ->
  exists Ta, acceleration_factor (Some AF) (Some Tu) None (Some Ea) pr =
    Ok (Some {| af_AF := AF; af_T_use := Tu; af_T_acc := Ta; af_Ea := Ea |}) /\
    0 < Ta + 273.15 /\ arrhenius Ea Tu Ta = AF.
Proof. exact af_Tacc_of. Qed.
Print Assumptions C39_accelerated_temperature.

Theorem C39_roundtrip : forall Tu Ta Ea pr, 0 < Tu + 273.15 -> 0 < Ta + 273.15 -> Tu <> Ta -> Ea <> 0 ->
  exists o, acceleration_factor None (Some Tu) (Some Ta) (Some Ea) pr = Ok (Some o) /\
    acceleration_factor (Some (af_AF o)) (Some Tu) (Some Ta) None pr = Ok (Some o) /\
    acceleration_factor (Some (af_AF o)) (Some Tu) None (Some Ea) pr = Ok (Some o).
Proof. exact af_roundtrip. Qed.
Print Assumptions C39_roundtrip.

Example C39_case : exists o, acceleration_factor None (Some 20) (Some 100) (Some 0.86) false = Ok (Some o) /\
    acceleration_factor (Some (af_AF o)) (Some 20) None (Some 0.86) false = Ok (Some o).
Proof. destruct (C39_roundtrip 20 100 0.86 false) as (o & H1 & H2 & H3); try lra. exists o. tauto. Qed.

(** ** C40 *)
Theorem C40_creep_failure_time : forall C tl th t, 0 < tl + 459.67 -> 0 < th + 459.67 -> 0 < t ->
  exists t', creep_failure_time tl th t C = Ok t' /\ 0 < t' /\
    larson_miller C th t' = larson_miller C tl t /\ creep_failure_time th tl t' C = Ok t.
Proof. exact creep_spec. Qed.
Print Assumptions C40_creep_failure_time.

Theorem C40_hotter_fails_sooner : forall C tl th t t', 0 < tl + 459.67 -> tl < th -> 0 < t -> 0 < C + log10 t ->
  creep_failure_time tl th t C = Ok t' -> t' < t.
Proof. exact creep_shorter. Qed.
Print Assumptions C40_hotter_fails_sooner.

Example C40_case : exists t', creep_failure_time 900 1100 9000 20 = Ok t' /\ 0 < t' < 9000.
Proof.
  destruct (C40_creep_failure_time 20 900 1100 9000) as (t' & H & P & _); try lra. exists t'. split; [exact H|].
  split; [exact P|]. apply (C40_hotter_fails_sooner 20 900 1100 9000 t'); try lra; try exact H.
  unfold log10. assert (0 < ln 10) by (rewrite <- ln_1; apply ln_increasing; lra).
  assert (0 < ln 9000) by (rewrite <- ln_1; apply ln_increasing; lra).
  assert (0 < ln 9000 / ln 10) by (apply Rdiv_lt_0_compat; assumption). lra.
Qed.

(** ** C41 *)
Theorem C41_palmgren_miner : forall rated time stress,
  length rated = length time -> length rated = length stress ->
  Forall (fun r => 0 < r) rated -> Forall (fun t => 0 < t) time -> time <> [] ->
  exists o, palmgren_miner rated time stress = Ok o /\
    (forall x, damage x (combine time rated) = 1 <-> x = pm_service_life o) /\
    pm_consumed o = damage 1 (combine time rated) /\
    rsum (pm_damage o) = 1 /\
    Forall2 (fun p f => f = damage (pm_service_life o) [p]) (combine time rated) (pm_damage o).
Proof. exact palmgren_spec. Qed.
Print Assumptions C41_palmgren_miner.

Theorem C41_palmgren_errors : forall rated time stress,
  length rated <> length time \/ length rated <> length stress -> palmgren_miner rated time stress = Err ValueError.
Proof. exact palmgren_errors. Qed.
Print Assumptions C41_palmgren_errors.

Example C41_case : exists o, palmgren_miner [50000; 6500; 1000] [40; 20; 5] [1; 2; 4] = Ok o.
Proof.
  destruct (C41_palmgren_miner [50000; 6500; 1000] [40; 20; 5] [1; 2; 4]) as (o & H & _);
    try reflexivity; repeat constructor; try lra; [discriminate|]. eauto.
Qed.

(** ** C42 *)
(** The cycle counts are the integrals of the Paris law over the two stages, the crack
    stops at the smaller of the requested and the critical length, and at the critical
    length the stress intensity equals the fracture toughness. [notch], [cg_stress] and
    [cg_trans] are notch depth, net section stress in MPa and transition length. *)
Theorem C42_crack_growth : forall Kc C m P W t Kt a0 D afin ct,
  let d := notch D in let S0 := cg_stress P W t d in let f := f_g_fixed ct in
  0 < Kc -> 0 < C -> 0 < P -> 0 < t -> 0 <= d -> 0 < W - 2 * d -> m <> 2 -> 0 < a0 ->
  1 < (1.12 * Kt / f) ^ 2 -> (forall x, afin = Some x -> 0 < x) ->
  exists o acrit, crack_growth_simplified Kc C m P W t Kt a0 D afin ct = Ok o /\
    f * S0 * sqrt (PI * acrit) = Kc /\ 0 < acrit /\
    cg_final o = match afin with Some x => Rmin x (acrit * 1000) | None => acrit * 1000 end /\
    cg_transition o = cg_trans Kt d ct /\
    cg_Nf_tot o = cg_Nf_1 o + cg_Nf_2 o /\
    (a0 < cg_transition o ->
       is_RInt (paris C m S0 f) (a0 / 1000) (cg_transition o / 1000) (cg_Nf_1 o) /\
       is_RInt (paris C m S0 f) ((cg_transition o + d) / 1000) ((cg_final o + d) / 1000) (cg_Nf_2 o)) /\
    (cg_transition o <= a0 ->
       cg_Nf_1 o = 0 /\ is_RInt (paris C m S0 f) (a0 / 1000) ((cg_final o + d) / 1000) (cg_Nf_2 o)).
Proof. exact crack_growth_spec. Qed.
Print Assumptions C42_crack_growth.

Example C42_case : exists o, crack_growth_simplified 66 (6.91 / 10 ^ 12) 3 0.15 100 5 2.41 1 (Some 10) None Edge = Ok o.
Proof.
  destruct (C42_crack_growth 66 (6.91 / 10 ^ 12) 3 0.15 100 5 2.41 1 (Some 10) None Edge) as (o & ac & H & _);
    unfold notch, f_g_fixed in *; try lra; eauto. intros x; discriminate.
Qed.

(** ** C43 *)
(** With the documented default arguments every call fails. *)
Theorem C43_default_arguments_refuted : forall Kc C m P W t, 0 < Kc -> 0 < P -> 0 < W -> 0 < t -> m <> 2 ->
  crack_growth_defaults Kc C m P W t = Err ZeroDivisionError.
Proof. exact crack_growth_default_fails. Qed.
Print Assumptions C43_default_arguments_refuted.

(** It succeeds for every other valid argument: stress concentration above f_g / 1.12. *)
Theorem C43_arguments_partial : forall Kc C m P W t Kt a0 D afin ct,
  0 < Kc -> 0 < C -> 0 < P -> 0 < t -> 0 <= notch D -> 0 < W - 2 * notch D -> m <> 2 -> 0 < a0 ->
  1 < (1.12 * Kt / f_g_fixed ct) ^ 2 -> (forall x, afin = Some x -> 0 < x) ->
  exists o, crack_growth_simplified Kc C m P W t Kt a0 D afin ct = Ok o.
Proof.
  intros Kc C m P W t Kt a0 D afin ct H1 H2 H3 H4 H5 H6 H7 H8 H9 H10.
  destruct (crack_growth_spec Kc C m P W t Kt a0 D afin ct H1 H2 H3 H4 H5 H6 H7 H8 H9 H10) as (o & ac & H & _). eauto.
Qed.
Print Assumptions C43_arguments_partial.

Example C43_case : crack_growth_defaults 66 (6.91 / 10 ^ 12) 3 0.15 100 5 = Err ZeroDivisionError.
Proof. apply C43_default_arguments_refuted; lra. Qed.

(** ** C44 *)
(** Without traces, the documented default, every call raises ValueError. *)
Theorem C44_creep_rupture_refuted : forall temps stress ttf,
  creep_rupture_curves temps stress ttf None None = Err ValueError.
Proof. exact creep_default_fails. Qed.
Print Assumptions C44_creep_rupture_refuted.

(** With a trace, and data grouped by temperature, the reported time lies on the least
    squares line through that temperature's data, at the requested stress. *)
Theorem C44_creep_trace_partial : forall temps stress ttf y T, grouped temps ->
  length stress = length temps -> length ttf = length temps -> (2 <= length temps)%nat -> In T temps ->
  let pts := map (fun p => (log10 (snd p), fst p)) (at_temp T temps (combine stress ttf)) in
  Sxx pts <> 0 -> lsq_slope pts <> 0 ->
  exists x, creep_rupture_curves temps stress ttf (Some y) (Some T) = Ok (Some x) /\ 0 < x /\
    lsq_slope pts * log10 x + lsq_intercept pts = y.
Proof. exact creep_trace. Qed.
Print Assumptions C44_creep_trace_partial.

Lemma ln10_pos : 0 < ln 10. Proof. rewrite <- ln_1. apply ln_increasing; lra. Qed.

Example C44_case : exists x, creep_rupture_curves [900; 900] [90; 80] [1; 10] (Some 85) (Some 900) = Ok (Some x) /\ 0 < x.
Proof.
  assert (log10 1 = 0) as L1 by (unfold log10; rewrite ln_1; field; pose proof ln10_pos; lra).
  assert (log10 10 = 1) as L10 by (unfold log10; field; pose proof ln10_pos; lra).
  assert (at_temp 900 [900; 900] (combine [90; 80] [1; 10]) = [(90, 1); (80, 10)]) as E.
  { cbn [at_temp combine]. destruct (Req_EM_T 900 900); [reflexivity|congruence]. }
  destruct (C44_creep_trace_partial [900; 900] [90; 80] [1; 10] 85 900) as (x & H & P & _); try reflexivity; try (cbn; lia).
  - exists [(900, 1%nat)]. split; [repeat constructor; intros []|reflexivity].
  - left; reflexivity.
  - rewrite E. cbn [map fst snd]. rewrite L1, L10. unfold Sxx, mean. cbn [map fst snd rsum fold_right length INR]. lra.
  - rewrite E. cbn [map fst snd]. rewrite L1, L10. unfold lsq_slope, Sxx, Sxy, mean. cbn [map fst snd rsum fold_right length INR].
    replace ((0 - (0 + (1 + 0)) / (1 + 1)) * (90 - (90 + (80 + 0)) / (1 + 1)) + ((1 - (0 + (1 + 0)) / (1 + 1)) * (80 - (90 + (80 + 0)) / (1 + 1)) + 0)) with (-5) by lra.
    match goal with |- _ / ?d <> 0 => replace d with (/ 2) by lra end. lra.
  - exists x. tauto.
Qed.

(** ** C45 *)
Theorem C45_sn_traces_inverse : forall stress cycles runout show method CI tinv o,
  SN_diagram stress cycles runout show method CI tinv = Ok o -> sn_m o <> 0 ->
  (forall N, 0 < N -> sn_life o (sn_strength o N) = N) /\
  (forall s, sn_strength o (sn_life o s) = s /\ 0 < sn_life o s).
Proof. exact sn_inverse. Qed.
Print Assumptions C45_sn_traces_inverse.

Lemma sn_example_pts : combine (map log10 [1; 10; 100]) [90; 80; 70] = [(0, 90); (1, 80); (2, 70)].
Proof.
  assert (log10 1 = 0) as L1 by (unfold log10; rewrite ln_1; field; pose proof ln10_pos; lra).
  assert (log10 10 = 1) as L10 by (unfold log10; field; pose proof ln10_pos; lra).
  assert (log10 100 = 2) as L100.
  { unfold log10. replace 100 with (10 * 10) by ring. rewrite ln_mult by lra. field. pose proof ln10_pos; lra. }
  cbn [map combine]. rewrite L1, L10, L100. reflexivity.
Qed.
Lemma sn_example_Sxx : Sxx (combine (map log10 [1; 10; 100]) [90; 80; 70]) <> 0.
Proof. rewrite sn_example_pts. unfold Sxx, mean. cbn [map fst snd rsum fold_right length INR]. lra. Qed.

Example C45_case : forall tinv, exists o, SN_diagram [90; 80; 70] [1; 10; 100] (Some [60]) None Statistical 0.95 tinv = Ok o /\ sn_m o <> 0.
Proof.
  intros tinv. destruct (sn_exists [90; 80; 70] [1; 10; 100] (Some [60]) None Statistical 0.95 tinv) as [o Ho];
    [reflexivity|lra|exact sn_example_Sxx|discriminate|].
  exists o. split; [exact Ho|]. intros Hm.
  pose proof (sn_least_squares _ _ _ _ _ _ _ _ Ho (-10) 90) as H. revert H. rewrite sn_example_pts.
  unfold sse. cbn [map fst snd rsum fold_right]. rewrite Hm. intros H.
  pose proof (pow2_ge_0 (sn_c o - 80)). nra.
Qed.

(** ** C78 *)
(** Calls that give all of AF, T_acc and Ea are accepted, and either fail when printing or
    leave an object without any value. *)
Theorem C78_all_given_refuted : forall AF Tu Ta Ea,
  acceleration_factor (Some AF) (Some Tu) (Some Ta) (Some Ea) true = Err AttributeError /\
  acceleration_factor (Some AF) (Some Tu) (Some Ta) (Some Ea) false = Ok None.
Proof. split; reflexivity. Qed.
Print Assumptions C78_all_given_refuted.

(** With exactly one of the three missing an accepted call always reports the three given
    values unchanged; with two or more missing, or without T_use, ValueError is raised. *)
Theorem C78_reports_partial : forall AF Tu Ta Ea pr,
  match Tu, AF, Ta, Ea with
  | Some tu, None, Some ta, Some ea => forall r, acceleration_factor AF Tu Ta Ea pr = Ok r ->
      exists o, r = Some o /\ af_T_use o = tu /\ af_T_acc o = ta /\ af_Ea o = ea
  | Some tu, Some af, None, Some ea => forall r, acceleration_factor AF Tu Ta Ea pr = Ok r ->
      exists o, r = Some o /\ af_T_use o = tu /\ af_AF o = af /\ af_Ea o = ea
  | Some tu, Some af, Some ta, None => forall r, acceleration_factor AF Tu Ta Ea pr = Ok r ->
      exists o, r = Some o /\ af_T_use o = tu /\ af_AF o = af /\ af_T_acc o = ta
  | Some _, Some _, Some _, Some _ => True
  | _, _, _, _ => acceleration_factor AF Tu Ta Ea pr = Err ValueError
  end.
Proof.
  intros [AF|] [Tu|] [Ta|] [Ea|] pr; try exact I; try reflexivity; intros r;
    unfold acceleration_factor, pdiv;
    repeat (destruct (Req_EM_T _ 0); cbn [bind]; try discriminate); intros [= <-]; eexists; repeat split.
Qed.
Print Assumptions C78_reports_partial.

(** ** C79 *)
Theorem C79_sn_least_squares : forall stress cycles runout show method CI tinv o,
  SN_diagram stress cycles runout show method CI tinv = Ok o ->
  forall m c, sse (combine (map log10 cycles) stress) (sn_m o) (sn_c o) <= sse (combine (map log10 cycles) stress) m c.
Proof. exact sn_least_squares. Qed.
Print Assumptions C79_sn_least_squares.

(** The call succeeds on valid data; see [C45_case]. *)
Theorem C79_sn_total : forall stress cycles runout show method CI tinv,
  length cycles = length stress -> 0 < CI < 1 -> Sxx (combine (map log10 cycles) stress) <> 0 ->
  (method = Residual -> sn_limit runout show <> None) ->
  exists o, SN_diagram stress cycles runout show method CI tinv = Ok o.
Proof. exact sn_exists. Qed.
Print Assumptions C79_sn_total.

(** ** C80 *)
(** Residual bounds: without an endurance limit every call fails, and with one a failure
    can lie below the lower bound. *)
Theorem C80_residual_no_runout_refuted : forall stress cycles show CI tinv,
  length cycles = length stress -> 0 < CI < 1 -> Sxx (combine (map log10 cycles) stress) <> 0 ->
  SN_diagram stress cycles None show Residual CI tinv = Err NameError.
Proof. exact sn_residual_no_runout. Qed.
Print Assumptions C80_residual_no_runout_refuted.

Theorem C80_residual_bounds_refuted : exists stress cycles runout CI, forall tinv, exists o lo up,
  SN_diagram stress cycles (Some runout) None Residual CI tinv = Ok o /\ sn_bounds o = Some (lo, up) /\
  exists x y, In (x, y) (combine cycles stress) /\ y < lo x.
Proof. exact sn_bounds_miss. Qed.
Print Assumptions C80_residual_bounds_refuted.

(** Every failure is below the upper bound, and above the lower bound unless it lies more
    than the residual below the endurance limit. *)
Theorem C80_residual_bounds_partial : forall stress cycles runout show method CI tinv o,
  SN_diagram stress cycles runout show method CI tinv = Ok o ->
  forall lo up, sn_bounds o = Some (lo, up) -> method = Residual ->
  forall x y, In (x, y) (combine cycles stress) ->
  y <= up x /\ ((forall e, sn_limit runout show = Some e -> e - sn_residual o <= y) -> lo x <= y).
Proof. exact sn_residual_bounds. Qed.
Print Assumptions C80_residual_bounds_partial.

Example C80_case : forall tinv, exists o, SN_diagram [90; 80; 70] [1; 10; 100] (Some [60]) None Residual 0.95 tinv = Ok o.
Proof. intros tinv. apply sn_exists; [reflexivity|lra|exact sn_example_Sxx|intros _; discriminate]. Qed.

(** ** C81 *)
Theorem C81_statistical_band_refuted : exists stress cycles CI, forall tinv,
  0 < tinv ((CI + 1) / 2) 1%nat ->
  exists o lo up x, SN_diagram stress cycles None None Statistical CI tinv = Ok o /\ sn_bounds o = Some (lo, up) /\ 0 < x /\
    up x - sn_curve o x <>
    band_halfwidth (combine (map log10 cycles) stress) (sn_m o) (sn_c o) (tinv ((CI + 1) / 2) (length cycles - 2)%nat) (log10 x).
Proof. exact sn_stat_wrong. Qed.
Print Assumptions C81_statistical_band_refuted.

Theorem C81_statistical_band_partial : forall stress cycles runout show method CI tinv o,
  SN_diagram stress cycles runout show method CI tinv = Ok o ->
  forall lo up, sn_bounds o = Some (lo, up) -> method = Statistical -> (forall p k, 0 <= tinv p k) ->
  forall x, lo x <= sn_curve o x <= up x /\ up x - sn_curve o x = sn_curve o x - lo x.
Proof. exact sn_stat_symmetric. Qed.
Print Assumptions C81_statistical_band_partial.

(** ** C82 *)
Theorem C82_trace_on_curve_refuted : exists stress cycles runout CI, forall tinv, exists o x,
  SN_diagram stress cycles (Some runout) None NoBounds CI tinv = Ok o /\ 0 < x /\ sn_curve o x <> sn_strength o x.
Proof. exact sn_trace_wrong. Qed.
Print Assumptions C82_trace_on_curve_refuted.

Theorem C82_trace_on_curve_partial : forall stress cycles runout show method CI tinv o,
  SN_diagram stress cycles runout show method CI tinv = Ok o ->
  forall x, (forall e, sn_limit runout show = Some e -> e <= sn_strength o x) -> sn_curve o x = sn_strength o x.
Proof. exact sn_trace_on_curve. Qed.
Print Assumptions C82_trace_on_curve_partial.

(** ** C83 *)
Theorem C83_material_parameters : forall E K n strain stress, 0 < K -> n <> 0 -> on_RO E K n strain stress ->
  (exists s s', In s stress /\ In s' stress /\ s <> s') ->
  params_from_data strain stress E None = Some {| p_K := K; p_n := n; p_life := None |}.
Proof. exact params_K_n. Qed.
Print Assumptions C83_material_parameters.

Theorem C83_all_parameters : forall E K n sigma_f b epsilon_f c strain stress cycles,
  0 < E -> 0 < K -> n <> 0 -> 0 < sigma_f -> 0 < epsilon_f ->
  on_RO E K n strain stress -> on_life E K n sigma_f b epsilon_f c cycles stress ->
  (exists s s', In s stress /\ In s' stress /\ s <> s') -> (exists N N', In N cycles /\ In N' cycles /\ N <> N') ->
  params_from_data strain stress E (Some cycles) = Some {| p_K := K; p_n := n; p_life := Some (sigma_f, b, epsilon_f, c) |}.
Proof. exact params_all. Qed.
Print Assumptions C83_all_parameters.

(** A material with consistent parameters (n = b / c, K = sigma_f / epsilon_f ^ n). *)
Example C83_case : params_from_data [RO 10 1 0.5 1; RO 10 1 0.5 2] [1; 2] 10 (Some [1/2; 1/4]) =
  Some {| p_K := 1; p_n := 0.5; p_life := Some (1, -1, 1, -2) |}.
Proof.
  assert (forall x, 0 < x -> Rpower x 2 = x * x) as Rpower_2.
  { intros x Hx. replace 2 with (INR 2) by (cbn; lra). rewrite Rpower_pow by assumption. cbn. ring. }
  assert (Rpower 2 (1 / 0.5) = 4) as P4 by (replace (1 / 0.5) with 2 by lra; rewrite Rpower_2 by lra; ring).
  assert (forall z, Rpower 1 z = 1) as P1 by (intros z; unfold Rpower; rewrite ln_1, Rmult_0_r; apply exp_0).
  assert (Rpower (1 / 2) (-1) = 2) as Q1.
  { replace (-1) with (- (1)) by ring. rewrite Rpower_Ropp, Rpower_1 by lra. lra. }
  assert (Rpower (1 / 2) (-2) = 4) as Q2.
  { replace (-2) with (- (2)) by ring. rewrite Rpower_Ropp, Rpower_2 by lra. lra. }
  apply C83_all_parameters; try lra.
  - repeat constructor; lra.
  - unfold on_life. apply Forall2_cons; [|apply Forall2_cons; [|apply Forall2_nil]].
    + replace (2 * (1 / 2)) with 1 by lra. replace (1 / 1) with 1 by lra. rewrite !P1. repeat split; lra.
    + replace (2 * (1 / 4)) with (1 / 2) by lra. replace (2 / 1) with 2 by lra. rewrite Q1, Q2, P4. repeat split; lra.
  - exists 1, 2. cbn. repeat split; try tauto; lra.
  - exists (1/2), (1/4). cbn. repeat split; try tauto; lra.
Qed.

(** ** C84 *)
Theorem C84_hysteresis_closes : forall E K n, 0 < E -> 0 < K -> 0 < n ->
  forall emax emin dir s1 d2 d3, loop_run E K n emax emin dir s1 d2 d3 ->
  last (reversal3 dir (reversal2 dir s1 d2) d3) 0 = last s1 0.
Proof. exact hysteresis_closes. Qed.
Print Assumptions C84_hysteresis_closes.

Theorem C84_hysteresis_continuous : forall E K n, 0 < E -> 0 < K -> 0 < n ->
  forall emax emin dir s1 d2 d3, loop_run E K n emax emin dir s1 d2 d3 ->
  hd 0 (reversal2 dir s1 d2) = last s1 0 /\
  hd 0 (reversal3 dir (reversal2 dir s1 d2) d3) = last (reversal2 dir s1 d2) 0.
Proof. exact hysteresis_continuous. Qed.
Print Assumptions C84_hysteresis_continuous.

Theorem C84_hysteresis_symmetric : forall E K n, 0 < E -> 0 < K -> 0 < n ->
  forall emax emin dir s1 d2 d3, loop_run E K n emax emin dir s1 d2 d3 -> dir = Tension -> emin = - emax ->
  last (reversal2 dir s1 d2) 0 = - last s1 0.
Proof. exact hysteresis_symmetric. Qed.
Print Assumptions C84_hysteresis_symmetric.

(** Such runs exist for every material and every strain range in tension. *)
Lemma RO_root_exists : forall E K n e, 0 < E -> 0 < K -> 0 < n -> 0 <= e ->
  exists s, 0 <= s /\ root (ramberg_osgood E K n e) s.
Proof.
  intros E K n e HE HK Hn He.
  assert (0 < 1 / n) as Hn1 by (apply Rdiv_lt_0_compat; lra).
  destruct (Req_EM_T e 0) as [->|Ne].
  - exists 0. split; [lra|]. unfold root, ramberg_osgood, rpow. replace (0 / K) with 0 by (field; lra).
    destruct (Rlt_dec 0 0); [lra|]. destruct (Req_EM_T 0 0); [|congruence]. destruct (Rlt_dec 0 (1 / n)); [|lra].
    f_equal. field. lra.
  - destruct (sum_life_exists (/ E) (Rpower K (- (1 / n))) (-1) (- (1 / n)) e) as (x & Hx & Ex);
      [now apply Rinv_0_lt_compat|apply exp_pos|lra|lra|lra|].
    exists (/ x). pose proof (Rinv_0_lt_compat _ Hx). split; [lra|].
    unfold root, ramberg_osgood, rpow. assert (0 < / x / K) by now apply Rdiv_lt_0_compat.
    destruct (Rlt_dec 0 (/ x / K)); [|lra]. f_equal.
    replace (/ x / K) with (/ (K * x)) by (field; lra).
    assert (0 < K * x) by now apply Rmult_lt_0_compat.
    assert (Rpower (/ (K * x)) (1 / n) = Rpower (K * x) (- (1 / n))) as ->.
    { unfold Rpower. rewrite ln_Rinv by assumption. f_equal. ring. }
    rewrite <- Rpower_mult_distr by assumption.
    replace (-1) with (- (1)) in Ex by ring. rewrite (Rpower_Ropp x 1), Rpower_1 in Ex by assumption.
    rewrite <- Ex. unfold Rdiv. ring.
Qed.

Lemma RO_delta_of_root : forall E K n e s, 0 < K -> root (ramberg_osgood E K n e) s ->
  root (ramberg_osgood_delta E K n (2 * e)) (2 * s).
Proof.
  intros E K n e s HK. unfold root, ramberg_osgood, ramberg_osgood_delta.
  replace (2 * s / (2 * K)) with (s / K) by (field; lra).
  destruct (rpow (s / K) (1 / n)) as [p|]; [|discriminate]. intros H.
  assert (s / E + p - e = 0) as H' by congruence. f_equal.
  replace (2 * s / E) with (2 * (s / E)) by (unfold Rdiv; ring). lra.
Qed.

Lemma Forall2_choose : forall {A B} (P : A -> Prop) (R : A -> B -> Prop) (Q : B -> Prop) l,
  (forall a, P a -> exists b, Q b /\ R a b) -> Forall P l -> exists l', Forall2 R l l' /\ Forall Q l'.
Proof.
  intros A B P R Q l H. induction 1 as [|a l Ha _ IH]; [exists []; split; constructor|].
  destruct IH as (l' & H1 & H2), (H a Ha) as (b & Qb & Rb). exists (b :: l'). split; constructor; assumption.
Qed.

Lemma linspace1000_nonneg : forall b, 0 <= b -> Forall (fun e => 0 <= e) (linspace1000 0 b).
Proof.
  intros b Hb. apply Forall_forall. intros e He. unfold linspace1000 in He. apply in_map_iff in He as (i & <- & _).
  rewrite Rplus_0_l. apply Rmult_le_pos; [apply pos_INR|]. unfold Rdiv.
  apply Rmult_le_pos; [lra|]. destruct (Req_dec (INR (N.to_nat 1000 - 1)) 0) as [->|Hne]; [rewrite Rinv_0; lra|].
  left. apply Rinv_0_lt_compat. pose proof (pos_INR (N.to_nat 1000 - 1)). lra.
Qed.

Theorem C84_runs_exist : forall E K n emax emin, 0 < E -> 0 < K -> 0 < n -> 0 <= emax -> emin <= emax ->
  exists s1 d2 d3, loop_run E K n emax emin Tension s1 d2 d3.
Proof.
  intros E K n emax emin HE HK Hn H1 H2.
  destruct (Forall2_choose (fun e => 0 <= e) (fun e s => root (ramberg_osgood E K n e) s) (fun s => 0 <= s) (linspace1000 0 emax)) as (s1 & A1 & B1);
    [intros e He; now apply RO_root_exists|now apply linspace1000_nonneg|].
  destruct (Forall2_choose (fun e => 0 <= e) (fun e s => root (ramberg_osgood_delta E K n e) s) (fun s => 0 <= s) (linspace1000 0 (emax - emin))) as (d & A2 & B2).
  { intros e He. destruct (RO_root_exists E K n (e / 2)) as (s & Hs & Rs); try assumption; [lra|].
    exists (2 * s). split; [lra|]. replace e with (2 * (e / 2)) by field. now apply RO_delta_of_root. }
  { apply linspace1000_nonneg. lra. }
  exists s1, d, d. constructor; assumption.
Qed.
Print Assumptions C84_runs_exist.

(** ** C85 *)
(** In compression, when 1 / n is not an integer, the equation handed to the solver has no
    solution: the power of a negative stress is nan. *)
Theorem C85_compression_refuted : forall E K n e s, 0 < E -> 0 < K -> 0 < n -> e < 0 ->
  (forall z : Z, 1 / n <> IZR z) -> ~ root (ramberg_osgood E K n e) s.
Proof. exact compression_no_root. Qed.
Print Assumptions C85_compression_refuted.

(** When 1 / n is odd, compression is the mirror image of tension. *)
Theorem C85_compression_partial : forall E K n k e s, 0 < K -> 1 / n = IZR (Z.of_nat (2 * k + 1)) -> 0 < s ->
  root (ramberg_osgood E K n e) s <-> root (ramberg_osgood E K n (- e)) (- s).
Proof. exact compression_mirror. Qed.
Print Assumptions C85_compression_partial.

Example C85_case_refuted : forall z : Z, 1 / 0.4 <> IZR z.
Proof.
  intros z H. assert (IZR (2 * z) = IZR 5) as H5 by (rewrite mult_IZR; lra). apply eq_IZR in H5. lia.
Qed.
Example C85_case : root (ramberg_osgood 1 1 1 2) 1 /\ 1 / 1 = IZR (Z.of_nat (2 * 0 + 1)).
Proof.
  split; [|cbn; lra]. unfold root, ramberg_osgood, rpow. destruct (Rlt_dec 0 (1 / 1)); [|lra]. f_equal.
  replace (1 / 1) with 1 by lra. rewrite Rpower_1 by lra. lra.
Qed.

(** ** C86 *)
(** Whatever the mean stress correction, each total strain has exactly one life, larger
    strains have shorter lives, and at the reported transition life the elastic and
    plastic strain lines cross; the equation solved is that of the plotted lines. *)
Theorem C86_life_unique : forall meth E sigma_f epsilon_f mean smax b c eps,
  0 < E -> 0 < sigma_f -> 0 < epsilon_f -> mean < sigma_f -> 0 < smax -> b < 0 -> c < 0 -> 0 < eps ->
  exists x, 0 < x /\ life_equation meth E sigma_f epsilon_f mean smax b c eps x = 0 /\
    (forall y, 0 < y -> life_equation meth E sigma_f epsilon_f mean smax b c eps y = 0 -> y = x).
Proof. exact strain_life_unique. Qed.
Print Assumptions C86_life_unique.

Theorem C86_life_decreases : forall meth E sigma_f epsilon_f mean smax b c eps eps' x x',
  0 < E -> 0 < sigma_f -> 0 < epsilon_f -> mean < sigma_f -> 0 < smax -> b < 0 -> c < 0 -> 0 < x -> 0 < x' ->
  life_equation meth E sigma_f epsilon_f mean smax b c eps x = 0 ->
  life_equation meth E sigma_f epsilon_f mean smax b c eps' x' = 0 -> eps < eps' -> x' < x.
Proof. exact strain_life_decr. Qed.
Print Assumptions C86_life_decreases.

Theorem C86_transition : forall meth E sigma_f epsilon_f mean smax b c,
  0 < E -> 0 < sigma_f -> 0 < epsilon_f -> mean < sigma_f -> 0 < smax -> b <> c ->
  let x := cycles_2Nt meth E sigma_f epsilon_f mean b c in
  0 < x /\ elastic_line meth E sigma_f mean smax b x = plastic_line meth sigma_f epsilon_f mean smax b c x.
Proof. exact transition_life. Qed.
Print Assumptions C86_transition.

Theorem C86_equation_is_lines : forall meth E sigma_f epsilon_f mean smax b c eps x, 0 < smax -> 0 < E ->
  life_equation meth E sigma_f epsilon_f mean smax b c eps x =
  elastic_line meth E sigma_f mean smax b x + plastic_line meth sigma_f epsilon_f mean smax b c x - eps.
Proof. exact life_equation_split. Qed.
Print Assumptions C86_equation_is_lines.

(** With no mean stress both Morrow corrections leave the life as it is. *)
Theorem C86_no_mean_stress : forall meth E sigma_f epsilon_f smax b c eps x, 0 < sigma_f -> meth <> SWT ->
  life_equation (Some meth) E sigma_f epsilon_f 0 smax b c eps x = life_equation None E sigma_f epsilon_f 0 smax b c eps x.
Proof. exact no_mean_stress. Qed.
Print Assumptions C86_no_mean_stress.

Example C86_case : exists x, 0 < x /\ life_equation (Some ModifiedMorrow) 210000 1000 1.1 100 400 (-0.1) (-0.6) 0.02 x = 0.
Proof.
  destruct (C86_life_unique (Some ModifiedMorrow) 210000 1000 1.1 100 400 (-0.1) (-0.6) 0.02) as (x & H & H' & _); try lra. eauto.
Qed.

(** ** C87 *)
Theorem C87_strain_limits_refuted : exists E K n smax smin,
  0 < E /\ 0 < K /\ 0 < n /\ 0 < smax /\ smin < 0 /\
  exists emin1 emin2 emax, strain_limits_of_stress E K n smax (Some smin) = Some (emax, emin1) /\
    sl_limits_of_stress E K n smax (Some smin) = Some (smax, emax, smin, emin2) /\ emin1 < 0 /\ emin2 = 0.
Proof. exact limits_differ. Qed.
Print Assumptions C87_strain_limits_refuted.

Theorem C87_strain_limits_partial : forall E K n smax,
  match sl_limits_of_stress E K n smax None with Some (_, emax, _, emin) => Some (emax, emin) | None => None end
  = strain_limits_of_stress E K n smax None.
Proof. exact limits_agree_default. Qed.
Print Assumptions C87_strain_limits_partial.

Theorem C87_strain_limits_zero_partial : forall E K n smax, 0 < K -> 0 < n ->
  match sl_limits_of_stress E K n smax (Some 0) with Some (_, emax, _, emin) => Some (emax, emin) | None => None end
  = strain_limits_of_stress E K n smax (Some 0).
Proof. exact limits_agree_tension. Qed.
Print Assumptions C87_strain_limits_zero_partial.

(** ** C88 *)
(** Crack initiation is fully reversed: the stress range is twice the amplitude, mean
    stress and strain are zero, and the two Morrow corrections give the same life. *)
Theorem C88_initiation_range : forall P A Sy E K n b c sigma_f epsilon_f Kt q, 0 < E -> 0 < K -> 0 < n ->
  forall meth s ds N2, ci_run P A Sy E K n b c sigma_f epsilon_f Kt q meth s ds N2 -> ds = 2 * s.
Proof. exact init_range. Qed.
Print Assumptions C88_initiation_range.

Theorem C88_initiation_means : forall P A Sy E K n b c sigma_f epsilon_f Kt q, 0 < E -> 0 < K -> 0 < n ->
  forall meth s ds N2, ci_run P A Sy E K n b c sigma_f epsilon_f Kt q meth s ds N2 ->
  let o := ci_limits ((ci_Kf q Kt * ci_S_net P A) ^ 2 / E) ((ci_Kf q Kt * ci_S_net P A * 2) ^ 2 / E) s ds in
  ci_smean o = 0 /\ ci_emean o = 0 /\ ci_smin o = - ci_smax o /\ ci_emin o = - ci_emax o.
Proof. exact init_means. Qed.
Print Assumptions C88_initiation_means.

Theorem C88_corrections_agree : forall P A Sy E K n b c sigma_f epsilon_f Kt q, 0 < E -> 0 < K -> 0 < n ->
  forall s ds N2 s' ds' N2', 0 < sigma_f -> 0 < epsilon_f -> b < 0 -> c < 0 ->
  ci_run P A Sy E K n b c sigma_f epsilon_f Kt q Morrow s ds N2 ->
  ci_run P A Sy E K n b c sigma_f epsilon_f Kt q ModifiedMorrow s' ds' N2' -> N2 = N2'.
Proof. exact init_morrow_same. Qed.
Print Assumptions C88_corrections_agree.

(** Neuber's rule: notch stress times notch strain is the square of the nominal stress,
    raised by the fatigue notch factor 1 + q (Kt - 1), over E. *)
Theorem C88_notch_rule : forall P A Sy E K n b c sigma_f epsilon_f Kt q meth s ds N2, 0 < E ->
  ci_run P A Sy E K n b c sigma_f epsilon_f Kt q meth s ds N2 ->
  let nominal := 10 ^ 6 * P / A in let kf := 1 + q * (Kt - 1) in
  (Kt * nominal <= Sy -> s * (s / E) = (kf * nominal) ^ 2 / E /\ (0 <= kf * nominal -> s = kf * nominal)) /\
  (Sy < Kt * nominal -> s * (s / E + Rpower (s / K) (1 / n)) = (kf * nominal) ^ 2 / E).
Proof.
  intros P A Sy E K n b c sigma_f epsilon_f Kt q meth s ds N2 HE [Hs _ _ R _ _] nominal kf. change (ci_S_net P A) with nominal in R. change (ci_Kf q Kt) with kf in R. unfold ci_neuber in R. clearbody nominal kf. set (F := kf * nominal) in *. split.
  - intros L. specialize (R true (conj (fun _ => L) (fun _ => eq_refl))). cbv iota in R.
    assert (s * (s / E) = F ^ 2 / E) as Q by (replace (s / E) with (F ^ 2 / E / s) by lra; field; lra).
    split; [exact Q|]. intros P0. assert (s * s = F * F) as Q2 by (transitivity (s * (s / E) * E); [field; lra|rewrite Q; field; lra]). clear -Hs P0 Q2. clearbody F. nra.
  - intros L. assert (false = true <-> Kt * nominal <= Sy) as HE0 by (split; [discriminate|intros; lra]). specialize (R false HE0). cbv iota in R.
    replace (s / E + Rpower (s / K) (1 / n)) with (F ^ 2 / E / s) by lra. field. lra.
Qed.
Print Assumptions C88_notch_rule.

(** The reported life solves the strain-life equation of the method at the notch strain
    amplitude, whose mean stress is zero. *)
Theorem C88_life : forall P A Sy E K n b c sigma_f epsilon_f Kt q meth s ds N2, 0 < E -> 0 < K -> 0 < n -> 0 < sigma_f ->
  ci_run P A Sy E K n b c sigma_f epsilon_f Kt q meth s ds N2 ->
  let nominal := 10 ^ 6 * P / A in let amplitude := ((1 + q * (Kt - 1)) * nominal) ^ 2 / E / s in
  let plastic := if Rle_dec (Kt * nominal) Sy then 0 else 1 in
  match meth with
  | SWT => sigma_f ^ 2 / E * Rpower N2 (2 * b) + plastic * (sigma_f * epsilon_f * Rpower N2 (b + c)) = s * amplitude
  | _ => sigma_f / E * Rpower N2 b + plastic * (epsilon_f * Rpower N2 c) = amplitude
  end.
Proof.
  intros P A Sy E K n b c sigma_f epsilon_f Kt q meth s ds N2 HE HK Hn Hf HR nominal amplitude plastic.
  pose proof (init_range _ _ _ _ _ _ _ _ _ _ _ _ HE HK Hn _ _ _ _ HR) as ->. destruct (init_means _ _ _ _ _ _ _ _ _ _ _ _ HE HK Hn _ _ _ _ HR) as (M & _). cbv zeta in M.
  destruct HR as [Hs _ _ _ _ L]. rewrite M in L. change (ci_S_net P A) with nominal in L. change (ci_Kf q Kt) with (1 + q * (Kt - 1)) in L.
  assert ((((1 + q * (Kt - 1)) * nominal * 2) ^ 2 / E / (2 * s)) = 2 * amplitude) as EA by (unfold amplitude; field; lra). rewrite EA in L. unfold ci_life in L. clearbody amplitude.
  assert (Rpower ((sigma_f - 0) / sigma_f) (c / b) = 1) as E1. { replace ((sigma_f - 0) / sigma_f) with 1 by (field; lra). unfold Rpower. rewrite ln_1, Rmult_0_r. apply exp_0. }
  unfold plastic. destruct (Rle_dec (Kt * nominal) Sy) as [C|C].
  - specialize (L true (conj (fun _ => C) (fun _ => eq_refl))). destruct meth; cbv iota in L; try rewrite Rminus_0_r in L; lra.
  - assert (false = true <-> Kt * nominal <= Sy) as HE0 by (split; [discriminate|intros; lra]). specialize (L false HE0). destruct meth; cbv iota in L; rewrite ?E1 in L; try rewrite Rminus_0_r in L; lra.
Qed.
Print Assumptions C88_life.

(** A plastic case: notch stress 1 beyond the yield stress 1/2. *)
Example C88_case : forall meth, ci_run (sqrt 2 / 10 ^ 6) 1 (1 / 2) 1 1 0.5 (-0.1) (-0.6) 1 1 1 1 meth 1 2 1.
Proof.
  assert (forall z, Rpower 1 z = 1) as P1 by (intros z; unfold Rpower; rewrite ln_1, Rmult_0_r; apply exp_0).
  assert (ci_S_net (sqrt 2 / 10 ^ 6) 1 = sqrt 2) as ES by (unfold ci_S_net; field).
  assert (ci_Kf 1 1 = 1) as EK by (unfold ci_Kf; ring).
  assert (sqrt 2 * sqrt 2 = 2) as S2 by (apply sqrt_sqrt; lra).
  assert (1 < sqrt 2) as S1 by (pose proof (sqrt_pos 2); nra).
  assert (~ 1 * sqrt 2 <= 1 / 2) as Hpl by lra.
  assert ((1 * sqrt 2) ^ 2 / 1 = 2) as E1 by (cbn [pow]; lra).
  assert ((1 * sqrt 2 * 2) ^ 2 / 1 = 8) as E2 by (cbn [pow]; lra).
  intros meth. constructor; try lra; rewrite ES, EK, ?E1, ?E2; intros [|] [Hel _]; try (exfalso; now apply Hpl, Hel).
  - unfold ci_neuber. replace (1 / 1) with 1 by field. rewrite P1. lra.
  - unfold ci_massing. replace (2 / (2 * 1)) with 1 by field. rewrite P1. lra.
  - unfold ci_life, ci_limits. cbn [ci_smean].
    replace (1 - 2 + 2 * 0.5) with 0 by lra. replace ((1 - 0) / 1) with 1 by lra.
    destruct meth; rewrite !P1; lra.
Qed.

(** ** C89 *)
Theorem C89_creep_groups_refuted : exists temps data, length data = length temps /\
  exists T seg, In (T, seg) (creep_groups temps data) /\ seg <> at_temp T temps data.
Proof. exact creep_ungrouped. Qed.
Print Assumptions C89_creep_groups_refuted.

Theorem C89_creep_groups_partial : forall temps data, grouped temps -> length data = length temps ->
  (forall T, In T temps <-> In T (map fst (creep_groups temps data))) /\
  (forall T seg, In (T, seg) (creep_groups temps data) -> seg = at_temp T temps data) /\
  NoDup (map fst (creep_groups temps data)).
Proof. exact creep_groups_spec. Qed.
Print Assumptions C89_creep_groups_partial.

(** ** C90 *)
(** A centre crack for which no number of passes is enough. *)
Theorem C90_iterative_terminates_refuted : forall k,
  crack_growth_iterative 10 wC 4 (1 / 10 ^ 6) 3 (1 / 2) 1 1 None None Center k = Ok None.
Proof. exact iterative_diverges. Qed.
Print Assumptions C90_iterative_terminates_refuted.

Theorem C90_iterative_terminates_partial : forall Kc C m P W t Kt a0 D af ct,
  let d := notch D in 0 < C -> 0 <= m -> 0 < P -> 0 < W -> 0 < t -> 0 <= d -> 0 < a0 -> a0 <= af ->
  in_plate ct W d af -> (forall f, f_g_at ct W (a0 + d) = Some f -> (1.12 * Kt / f) ^ 2 - 1 <> 0) ->
  exists fuel o, crack_growth_iterative Kc C m P W t Kt a0 D (Some af) ct fuel = Ok (Some o).
Proof. exact iterative_terminates. Qed.
Print Assumptions C90_iterative_terminates_partial.

Example C90_case : exists fuel o,
  crack_growth_iterative 66 (6.91 / 10 ^ 12) 3 0.15 100 5 2.41 1 (Some 10) (Some 20) Edge fuel = Ok (Some o).
Proof.
  apply C90_iterative_terminates_partial; unfold notch, in_plate; try lra.
  unfold f_g_at. intros f [= <-].
  match goal with |- (_ / ?x) ^ 2 - 1 <> 0 => assert (1 < x < 2) as Hx by lra; set (y := x) in * end.
  assert (1.12 * 2.41 / y > 1). { apply Rmult_lt_reg_r with y; [lra|]. unfold Rdiv. rewrite Rmult_assoc, Rinv_l by lra. lra. }
  nra.
Qed.

(** ** C91 *)
(** The reported final length is the critical length, not the length reached. *)
Theorem C91_iterative_final_refuted : exists o,
  crack_growth_iterative 10 wC 4 (1 / 10 ^ 6) 3 (1 / 2) 1 1 None (Some 1) Center 1 = Ok (Some o) /\
  cgi_length o = Some 2 /\ cgi_final o = Some (50 / PI * 1000).
Proof. exact iterative_final_wrong. Qed.
Print Assumptions C91_iterative_final_refuted.

(** Without a requested length it is less than the length reached; the stages add up. *)
Theorem C91_iterative_final_partial : forall Kc C m P W t Kt a0 D ct fuel o,
  crack_growth_iterative Kc C m P W t Kt a0 D None ct fuel = Ok (Some o) ->
  exists final len, cgi_final o = Some final /\ cgi_length o = Some len /\ final < len.
Proof. exact iterative_final. Qed.
Print Assumptions C91_iterative_final_partial.

Theorem C91_iterative_stages_partial : forall Kc C m P W t Kt a0 D af ct fuel o,
  crack_growth_iterative Kc C m P W t Kt a0 D af ct fuel = Ok (Some o) ->
  (cgi_Nf_1 o + cgi_Nf_2 o)%nat = cgi_Nf_tot o.
Proof. exact iterative_stages. Qed.
Print Assumptions C91_iterative_stages_partial.

(** ** C92 *)
(** With a notch, growing the crack to the length it already has takes a positive number
    of cycles. *)
Theorem C92_no_growth_refuted : forall Kc C m P W t Kt a0 d ct,
  0 < Kc -> 0 < C -> 0 < P -> 0 < t -> 0 < d -> 0 < W - 2 * d -> m <> 2 -> 0 < a0 ->
  1 < (1.12 * Kt / f_g_fixed ct) ^ 2 -> cg_trans Kt d ct <= a0 ->
  (forall o, crack_growth_simplified Kc C m P W t Kt a0 (Some d) None ct = Ok o -> a0 < cg_final o) ->
  exists o, crack_growth_simplified Kc C m P W t Kt a0 (Some d) (Some a0) ct = Ok o /\ cg_final o = a0 /\ 0 < cg_Nf_tot o.
Proof. exact crack_no_growth_notch. Qed.
Print Assumptions C92_no_growth_refuted.

Theorem C92_no_growth_partial : forall Kc C m P W t Kt a0 ct,
  0 < Kc -> 0 < C -> 0 < P -> 0 < t -> 0 < W -> m <> 2 -> 0 < a0 ->
  1 < (1.12 * Kt / f_g_fixed ct) ^ 2 ->
  (forall o, crack_growth_simplified Kc C m P W t Kt a0 None None ct = Ok o -> a0 < cg_final o) ->
  exists o, crack_growth_simplified Kc C m P W t Kt a0 None (Some a0) ct = Ok o /\ cg_final o = a0 /\ cg_Nf_tot o = 0.
Proof. exact crack_no_growth. Qed.
Print Assumptions C92_no_growth_partial.

(** The hypothesis of both is met: K_c = 100, net stress 1 MPa, an edge crack of 1 mm. *)
Example C92_case : forall o, crack_growth_simplified 100 1 3 (10 / 10 ^ 6) 12 1 2 1 (Some 1) None Edge = Ok o -> 1 < cg_final o.
Proof.
  intros o H.
  destruct (C42_crack_growth 100 1 3 (10 / 10 ^ 6) 12 1 2 1 (Some 1) None Edge) as (o' & ac & H' & HK & _ & HF & _);
    unfold notch, f_g_fixed in *; try lra; [intros x; discriminate|].
  rewrite H in H'. injection H' as <-. rewrite HF.
  assert (cg_stress (10 / 10 ^ 6) 12 1 1 = 1) as ES by (unfold cg_stress; field). rewrite ES in HK.
  pose proof (sqrt_pos (PI * ac)).
  assert (PI * ac = sqrt (PI * ac) * sqrt (PI * ac)) as Eq.
  { symmetry. apply sqrt_sqrt. destruct (Rle_lt_dec 0 (PI * ac)) as [|Hn]; [assumption|].
    rewrite sqrt_neg_0 in HK by lra. lra. }
  assert (80 < sqrt (PI * ac)) by lra. pose proof PI_4. pose proof PI_RGT_0. nra.
Qed.
