(** Proofs about the physics of failure models. *)
From Coquelicot Require Import Coquelicot.
From Coq Require Import List Arith Reals Lra Lia Bool.
From Verif Require Import Base RealFacts RList Linear PoFModel PoFSpec.
Import ListNotations.
Open Scope R_scope.

Lemma pdiv_ok x y : y <> 0 -> pdiv x y = Ok (x / y).
Proof. intros H. unfold pdiv. destruct (Req_EM_T y 0); congruence. Qed.
Lemma pdiv_inv x y r : pdiv x y = Ok r -> y <> 0 /\ r = x / y.
Proof. unfold pdiv. destruct (Req_EM_T y 0); intros [= <-]; auto. Qed.

Lemma ln10_pos : 0 < ln 10.
Proof. rewrite <- ln_1. apply ln_increasing; lra. Qed.
Lemma pow10_pos x : 0 < pow10 x.
Proof. apply exp_pos. Qed.
Lemma log10_pow10 x : log10 (pow10 x) = x.
Proof. unfold log10, pow10. rewrite ln_exp. field. pose proof ln10_pos. lra. Qed.
Lemma pow10_log10 x : 0 < x -> pow10 (log10 x) = x.
Proof. intros H. unfold log10, pow10. replace (ln x / ln 10 * ln 10) with (ln x); [now apply exp_ln|]. field. pose proof ln10_pos. lra. Qed.
Lemma log10_incr x y : 0 < x -> x < y -> log10 x < log10 y.
Proof. intros. unfold log10. pose proof ln10_pos. apply Rmult_lt_compat_r; [now apply Rinv_0_lt_compat|]. now apply ln_increasing. Qed.
Lemma pow10_incr x y : x < y -> pow10 x < pow10 y.
Proof. intros. unfold pow10. apply exp_increasing. pose proof ln10_pos. nra. Qed.
Lemma log10_mult x y : 0 < x -> 0 < y -> log10 (x * y) = log10 x + log10 y.
Proof. intros. unfold log10. rewrite ln_mult by assumption. field. pose proof ln10_pos. lra. Qed.
Lemma log10_Rpower x y : log10 (Rpower x y) = y * log10 x.
Proof. unfold log10, Rpower. rewrite ln_exp. field. pose proof ln10_pos. lra. Qed.

Lemma boltzmann_pos : 0 < boltzmann.
Proof. unfold boltzmann. lra. Qed.

(** ** C39 *)
Lemma rinv_inj x y : / x = / y -> x = y.
Proof. intros H. rewrite <- (Rinv_inv x), <- (Rinv_inv y). now rewrite H. Qed.
Lemma exp_div a b : exp a / exp b = exp (a - b).
Proof. unfold Rdiv. rewrite <- exp_Ropp, <- exp_plus. reflexivity. Qed.

Lemma af_AF_of Tu Ta Ea pr : 0 < Tu + 273.15 -> 0 < Ta + 273.15 ->
  acceleration_factor None (Some Tu) (Some Ta) (Some Ea) pr =
  Ok (Some {| af_AF := arrhenius Ea Tu Ta; af_T_use := Tu; af_T_acc := Ta; af_Ea := Ea |}).
Proof.
  intros Hu Ha. cbn -[boltzmann]. rewrite !pdiv_ok by lra. cbn -[boltzmann]. do 3 f_equal.
  unfold arrhenius. rewrite exp_div. f_equal. field.
  pose proof boltzmann_pos. repeat split; lra.
Qed.
Lemma ln_arrhenius Ea Tu Ta : 0 < Tu + 273.15 -> 0 < Ta + 273.15 ->
  ln (arrhenius Ea Tu Ta) = Ea / boltzmann * (1 / (Tu + 273.15) - 1 / (Ta + 273.15)).
Proof.
  intros. unfold arrhenius. rewrite exp_div, ln_exp. field.
  pose proof boltzmann_pos. repeat split; lra.
Qed.
Lemma af_Ea_of Tu Ta AF pr : 0 < Tu + 273.15 -> 0 < Ta + 273.15 -> Tu <> Ta -> 0 < AF ->
  exists Ea, acceleration_factor (Some AF) (Some Tu) (Some Ta) None pr =
    Ok (Some {| af_AF := AF; af_T_use := Tu; af_T_acc := Ta; af_Ea := Ea |}) /\ arrhenius Ea Tu Ta = AF.
Proof.
  intros Hu Ha Hne HAF. cbn -[boltzmann]. rewrite !pdiv_ok by lra. cbn -[boltzmann].
  assert (1 / (Tu + 273.15) - 1 / (Ta + 273.15) <> 0) as Hd.
  { intros E. apply Hne. apply Rminus_diag_uniq in E. unfold Rdiv in E. rewrite !Rmult_1_l in E. apply rinv_inj in E. lra. }
  rewrite pdiv_ok by exact Hd. cbn -[boltzmann]. eexists. split; [reflexivity|].
  apply ln_inv; [unfold arrhenius; apply Rdiv_lt_0_compat; apply exp_pos|exact HAF|].
  rewrite ln_arrhenius by assumption. pose proof boltzmann_pos.
  set (z := 1 / (Tu + 273.15) - 1 / (Ta + 273.15)) in *. field. split; [exact Hd|lra].
Qed.
Lemma af_Tacc_of Tu Ea AF pr : 0 < Tu + 273.15 -> Ea <> 0 -> 0 < AF ->
  0 < 1 / (Tu + 273.15) - ln AF * boltzmann / Ea ->
  exists Ta, acceleration_factor (Some AF) (Some Tu) None (Some Ea) pr =
    Ok (Some {| af_AF := AF; af_T_use := Tu; af_T_acc := Ta; af_Ea := Ea |}) /\ 0 < Ta + 273.15 /\ arrhenius Ea Tu Ta = AF.
Proof.
  intros Hu HE HAF Hpos. cbn -[boltzmann]. rewrite !pdiv_ok by lra. cbn -[boltzmann]. rewrite pdiv_ok by lra.
  cbn -[boltzmann]. eexists. split; [reflexivity|]. set (z := 1 / (Tu + 273.15) - ln AF * boltzmann / Ea) in *.
  assert (0 < 1 / z - 273.15 + 273.15) as Hz.
  { replace (1 / z - 273.15 + 273.15) with (/ z) by (field; lra). now apply Rinv_0_lt_compat. }
  split; [exact Hz|].
  apply ln_inv; [unfold arrhenius; apply Rdiv_lt_0_compat; apply exp_pos|exact HAF|].
  rewrite ln_arrhenius by assumption. replace (1 / (1 / z - 273.15 + 273.15)) with z by (field; split; lra).
  unfold z. field. pose proof boltzmann_pos. repeat split; lra.
Qed.
Lemma arrhenius_inj_Ea Ea Ea' Tu Ta : 0 < Tu + 273.15 -> 0 < Ta + 273.15 -> Tu <> Ta ->
  arrhenius Ea Tu Ta = arrhenius Ea' Tu Ta -> Ea = Ea'.
Proof.
  intros Hu Ha Hne H. apply (f_equal ln) in H. rewrite !ln_arrhenius in H by assumption.
  assert (1 / (Tu + 273.15) - 1 / (Ta + 273.15) <> 0) as Hd.
  { intros E. apply Hne. apply Rminus_diag_uniq in E. unfold Rdiv in E. rewrite !Rmult_1_l in E. apply rinv_inj in E. lra. }
  apply Rmult_eq_reg_r in H; [|exact Hd]. pose proof boltzmann_pos. unfold Rdiv in H. apply Rmult_eq_reg_r in H; [exact H|].
  apply Rinv_neq_0_compat. lra.
Qed.
Lemma arrhenius_inj_T Ea Tu Ta Ta' : 0 < Tu + 273.15 -> 0 < Ta + 273.15 -> 0 < Ta' + 273.15 -> Ea <> 0 ->
  arrhenius Ea Tu Ta = arrhenius Ea Tu Ta' -> Ta = Ta'.
Proof.
  intros Hu Ha Ha' HE H. apply (f_equal ln) in H. rewrite !ln_arrhenius in H by assumption. pose proof boltzmann_pos.
  apply Rmult_eq_reg_l in H; [|unfold Rdiv; apply Rmult_integral_contrapositive; split; [exact HE|apply Rinv_neq_0_compat; lra]].
  assert (1 / (Ta + 273.15) = 1 / (Ta' + 273.15)) as E by lra. unfold Rdiv in E. rewrite !Rmult_1_l in E. apply rinv_inj in E. lra.
Qed.
Lemma arrhenius_pos Ea Tu Ta : 0 < arrhenius Ea Tu Ta.
Proof. unfold arrhenius. apply Rdiv_lt_0_compat; apply exp_pos. Qed.

(** Feeding any two computed values back gives the third. *)
Lemma af_roundtrip Tu Ta Ea pr : 0 < Tu + 273.15 -> 0 < Ta + 273.15 -> Tu <> Ta -> Ea <> 0 ->
  exists o, acceleration_factor None (Some Tu) (Some Ta) (Some Ea) pr = Ok (Some o) /\
    acceleration_factor (Some (af_AF o)) (Some Tu) (Some Ta) None pr = Ok (Some o) /\
    acceleration_factor (Some (af_AF o)) (Some Tu) None (Some Ea) pr = Ok (Some o).
Proof.
  intros Hu Ha Hne HE. eexists. split; [now apply af_AF_of|]. cbn [af_AF]. pose proof (arrhenius_pos Ea Tu Ta) as HA. split.
  - destruct (af_Ea_of Tu Ta (arrhenius Ea Tu Ta) pr Hu Ha Hne HA) as (Ea' & -> & E).
    now rewrite (arrhenius_inj_Ea Ea' Ea Tu Ta Hu Ha Hne E).
  - destruct (af_Tacc_of Tu Ea (arrhenius Ea Tu Ta) pr Hu HE HA) as (Ta' & -> & Hp & E).
    + rewrite ln_arrhenius by assumption. pose proof boltzmann_pos.
      replace (1 / (Tu + 273.15) - Ea / boltzmann * (1 / (Tu + 273.15) - 1 / (Ta + 273.15)) * boltzmann / Ea)
        with (/ (Ta + 273.15)) by (field; repeat split; lra). now apply Rinv_0_lt_compat.
    + now rewrite (arrhenius_inj_T Ea Tu Ta' Ta Hu Hp Ha HE E).
Qed.

(** ** C40 *)
Lemma creep_spec C tl th t : 0 < tl + 459.67 -> 0 < th + 459.67 -> 0 < t ->
  exists t', creep_failure_time tl th t C = Ok t' /\ 0 < t' /\ larson_miller C th t' = larson_miller C tl t
    /\ creep_failure_time th tl t' C = Ok t.
Proof.
  intros Hl Hh Ht. unfold creep_failure_time. rewrite !pdiv_ok by lra. cbn [bind]. eexists. split; [reflexivity|].
  split; [apply pow10_pos|].
  set (e := (tl + 459.67) * (C + log10 t) / (th + 459.67)).
  split.
  - unfold larson_miller. fold (log10 (pow10 (e - C))) (log10 t). rewrite log10_pow10. unfold e. field. lra.
  - rewrite pdiv_ok by lra. cbn [bind]. rewrite log10_pow10. f_equal.
    transitivity (pow10 (log10 t)); [f_equal; unfold e; field; lra|now apply pow10_log10].
Qed.
Lemma creep_shorter C tl th t t' : 0 < tl + 459.67 -> tl < th -> 0 < t -> 0 < C + log10 t ->
  creep_failure_time tl th t C = Ok t' -> t' < t.
Proof.
  intros Hl Hlt Ht HC H. unfold creep_failure_time in H. rewrite pdiv_ok in H by lra. cbn [bind] in H. injection H as <-.
  rewrite <- (pow10_log10 t Ht) at 2. apply pow10_incr.
  assert ((tl + 459.67) * (C + log10 t) / (th + 459.67) < C + log10 t); [|lra].
  apply (Rmult_lt_reg_r (th + 459.67)); [lra|]. field_simplify; [|lra]. nra.
Qed.

(** ** C41 *)
Lemma life_fracs_ok ts rs : length ts = length rs -> Forall (fun r => r <> 0) rs ->
  life_fracs ts rs = Ok (map (fun p => fst p / snd p) (combine ts rs)).
Proof.
  revert rs. induction ts as [|x ts IH]; intros [|r rs] Hl HF; try discriminate; [reflexivity|].
  inversion HF; subst. cbn [life_fracs]. rewrite pdiv_ok by assumption. cbn [bind]. rewrite IH by (auto; now injection Hl). reflexivity.
Qed.
Lemma damage_eq x block : damage x block = x * rsum (map (fun p => fst p / snd p) block).
Proof.
  induction block as [|[t r] l IH]; [cbn; ring|]. cbn [damage map fst snd]. rewrite rsum_cons, IH. unfold Rdiv. ring.
Qed.
Lemma palmgren_spec rated time stress : length rated = length time -> length rated = length stress ->
  Forall (fun r => 0 < r) rated -> Forall (fun t => 0 < t) time -> time <> [] ->
  exists o, palmgren_miner rated time stress = Ok o /\
    (forall x, damage x (combine time rated) = 1 <-> x = pm_service_life o) /\
    pm_consumed o = damage 1 (combine time rated) /\
    rsum (pm_damage o) = 1 /\
    Forall2 (fun p f => f = damage (pm_service_life o) [p]) (combine time rated) (pm_damage o).
Proof.
  intros H1 H2 Hr Ht Hne. unfold palmgren_miner. rewrite H1, <- H2, H1, !Nat.eqb_refl. cbn [negb orb].
  rewrite life_fracs_ok; [|congruence|eapply Forall_impl; [|exact Hr]; simpl; intros; lra]. cbn [bind].
  set (b := combine time rated). set (s := rsum (map (fun p => fst p / snd p) b)).
  assert (0 < s) as Hs.
  { unfold s. apply rsum_pos.
    - apply Forall_forall. intros x Hx. apply in_map_iff in Hx. destruct Hx as ([u v] & <- & Hin). simpl.
      rewrite Forall_forall in Hr, Ht. apply Rdiv_lt_0_compat; [apply Ht; eapply in_combine_l; exact Hin|apply Hr; eapply in_combine_r; exact Hin].
    - unfold b. destruct time, rated; try discriminate; congruence. }
  rewrite pdiv_ok by lra. cbn [bind]. eexists. split; [reflexivity|]. cbn [pm_service_life pm_consumed pm_damage]. repeat split.
  - intros H. rewrite damage_eq in H. fold s in H. apply (Rmult_eq_reg_r s); [|lra]. rewrite H. field. lra.
  - intros ->. rewrite damage_eq. fold s. field. lra.
  - rewrite damage_eq. fold s. ring.
  - rewrite rsum_map_scal. fold s. field. lra.
  - clearbody s. clear. induction b as [|[u v] b IH]; [constructor|]. cbn [map fst snd]. constructor; [cbn [damage]; unfold Rdiv; ring|exact IH].
Qed.
Lemma palmgren_errors rated time stress :
  (length rated <> length time \/ length rated <> length stress) -> palmgren_miner rated time stress = Err ValueError.
Proof.
  intros H. unfold palmgren_miner. destruct H as [H|H]; apply Nat.eqb_neq in H; rewrite H; [reflexivity|now rewrite orb_true_r].
Qed.
