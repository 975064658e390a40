(** Property theorems C147 and C148: reliability growth. *)
From Coquelicot Require Import Coquelicot.
From Coq Require Import String.
From Coq Require Import List Arith Reals Lra Lia Bool Permutation Sorted.
From Verif Require Import Base RealFacts NonparModel RList Linear ConvertModel RepairModel RepairSpec RepairProofs RepairProofs2 RepairProofs3 RegModel RegProofs CIModel LPlotProofs PlotProofs RoundProofs GrowthModel GrowthSpec GrowthProofs.
From Verif Require CIProofs MCFProps OtherProofs3.
Import ListNotations.
Open Scope R_scope.

(** ** C147 Demonstrated MTBF and failure intensity *)

(** Crow-AMSAA: with N(t) = Lambda t^Beta expected failures by time t, the four demonstrated
    values are those of N at the last failure, N there is the number of failures, and the
    cumulative MTBF t / N(t) grows as t to the growth rate. *)
Theorem C147_crow : forall l target sp lg m g c, reliability_growth (Some l) target sp lg m = Ok (Some g) -> gr_fitted g = F_Crow c ->
  let N t := Lambda c * Rpower t (Beta c) in
  demonstrates N (rmax l) (DMTBF_C c) (DMTBF_I c) (DFI_C c) (DFI_I c) /\
  N (rmax l) = INR (length l) /\
  (forall t, 0 < t -> t / N t = 1 / Lambda c * Rpower t (growth_rate c)).
Proof.
  intros l target sp lg m g c H E N. apply growth_inv in H as (Hne & HP & k & _ & Hf & _ & _). rewrite E in Hf.
  destruct k; unfold fit_growth in Hf.
  { destruct (solve2 _ _) as [[z0 z1]|]; discriminate. }
  destruct (crow_amsaa (isort Rleb l)) as [[c'|]|] eqn:EC; cbn [bind] in Hf; [|discriminate|discriminate]. injection Hf as ->.
  apply crow_demo in EC as (HD & Hb & Hl & HG & HT & HN). rewrite rmax_sorted in HD, HT, HN. rewrite isort_length in HN.
  split; [exact HD|]. split; [exact HN|]. intros t Ht. unfold N. rewrite HG, Rpower_succ by exact Ht.
  pose proof (exp_pos (Beta c * ln t)). fold (Rpower t (Beta c)) in *. field. split; lra.
Qed.
Print Assumptions C147_crow.

(** Duane: with cumulative MTBF t^Alpha / A, that is N(t) = t / (t^Alpha / A) expected
    failures, the four demonstrated values are those of N at the last failure; the slope is
    below one. *)
Theorem C147_duane : forall l target sp lg m g d, reliability_growth (Some l) target sp lg m = Ok (Some g) -> gr_fitted g = F_Duane d ->
  let N t := t / (1 / A d * Rpower t (Alpha d)) in
  0 < A d /\ Alpha d < 1 /\ demonstrates N (rmax l) (d_DMTBF_C d) (d_DMTBF_I d) (d_DFI_C d) (d_DFI_I d).
Proof.
  intros l target sp lg m g d H E N. apply growth_inv in H as (Hne & HP & k & _ & Hf & _ & _). rewrite E in Hf.
  destruct k. 2: { unfold fit_growth in Hf. destruct (crow_amsaa (isort Rleb l)) as [[c'|]|]; cbn [bind] in Hf; discriminate. }
  destruct (duane_fit _ _ (isort_Forall _ _ HP) (isort_ne _ Hne) Hf) as [[Hn _]|[HT Ed]]; [discriminate|]. cbv zeta in Ed. injection Ed as ->.
  rewrite rmax_sorted in *. set (z0 := lsq_slope _) in *. set (z1 := lsq_intercept _) in *.
  assert (z0 < 1) as Hz by (apply duane_slope; [now apply isort_Forall|apply sorted_R|exact HT]).
  split; [cbn; apply Rdiv_lt_0_compat; [lra|apply exp_pos]|]. split; [exact Hz|]. apply duane_demo; [|exact Hz].
  rewrite Forall_forall in HP. apply HP. now apply rmax_in.
Qed.
Print Assumptions C147_duane.

(** The Duane line: among all power laws b t^a it has the least squared vertical distance, on
    log axes, from the observed cumulative MTBFs, and no other power law is as close. *)
Theorem C147_duane_line : forall l target sp lg m g d pts, reliability_growth (Some l) target sp lg m = Ok (Some g) -> gr_fitted g = F_Duane d ->
  observed l pts -> forall a b, 0 < b ->
  log_misfit pts (Alpha d) (1 / A d) <= log_misfit pts a b /\
  (log_misfit pts a b <= log_misfit pts (Alpha d) (1 / A d) -> a = Alpha d /\ b = 1 / A d).
Proof.
  intros l target sp lg m g d pts H E HO a b Hb. apply growth_inv in H as (Hne & HP & k & _ & Hf & _ & _). rewrite E in Hf.
  apply observed_unique in HO. rewrite mtbf_pairs in HO. subst pts.
  destruct k. 2: { unfold fit_growth in Hf. destruct (crow_amsaa (isort Rleb l)) as [[c'|]|]; cbn [bind] in Hf; discriminate. }
  destruct (duane_fit _ _ (isort_Forall _ _ HP) (isort_ne _ Hne) Hf) as [[Hn _]|[HT Ed]]; [discriminate|]. cbv zeta in Ed. injection Ed as ->.
  cbn [duane_model A Alpha]. set (p := pairs_from 1 (isort Rleb l)) in *.
  pose proof (exp_pos (lsq_intercept (logs2 p))) as He.
  replace (1 / (1 / exp (lsq_intercept (logs2 p)))) with (exp (lsq_intercept (logs2 p))) by (field; lra).
  rewrite !misfit_sse by assumption. rewrite ln_exp.
  assert (Sxx (logs2 p) <> 0) as HX by (apply logs_spread; [now apply isort_Forall|exact HT]).
  split; [now apply lsq_optimal|]. intros HL. apply lsq_unique in HL as [H1 H2]; [|exact HX]. split; [exact H1|].
  rewrite <- H2. now rewrite exp_ln.
Qed.
Print Assumptions C147_duane_line.

(** The only exception is ValueError, raised for times that are not a list or array, for no
    times, for a time that is not positive, and for a model name that is not one of the
    accepted ones in any mixture of cases. *)
Definition accepted (m : name_arg) : Prop :=
  exists s, m = N_Str s /\ In (upper s) ["DUANE"; "D"; "CROW AMSAA"; "CROW-AMSAA"; "CROWAMSAA"; "CROW"; "AMSAA"; "CA"; "C"]%string.
Lemma existsb_names s ns : existsb (String.eqb s) ns = true <-> In s ns.
Proof. rewrite existsb_exists. split; [intros (x & Hx & E); apply String.eqb_eq in E; now subst|intros H; exists s; split; [exact H|apply String.eqb_refl]]. Qed.
Lemma resolve_spec m : (accepted m <-> exists k, resolve_model m = Ok k) /\ (forall e, resolve_model m = Err e -> e = ValueError).
Proof.
  destruct m as [s|]; cbn [resolve_model].
  - destruct (existsb (String.eqb (upper s)) duane_names) eqn:E1; [|destruct (existsb (String.eqb (upper s)) crow_names) eqn:E2].
    + split; [|discriminate]. split; [eauto|]. intros _. exists s. split; [reflexivity|]. apply existsb_names in E1. unfold duane_names in E1. cbn [In] in *. intuition.
    + split; [|discriminate]. split; [eauto|]. intros _. exists s. split; [reflexivity|]. apply existsb_names in E2. unfold crow_names in E2. cbn [In] in *. intuition.
    + split; [|congruence]. split; [|intros (k & Hk); discriminate]. intros (s' & Es & HI). injection Es as <-.
      assert (In (upper s) duane_names \/ In (upper s) crow_names) as [H|H] by (unfold duane_names, crow_names; cbn [In] in *; intuition).
      * apply existsb_names in H. congruence.
      * apply existsb_names in H. congruence.
  - split; [|congruence]. split; [intros (s & Es & _); discriminate|intros (k & Hk); discriminate].
Qed.
Theorem C147_errors : forall times target sp lg m e,
  reliability_growth times target sp lg m = Err e <->
  e = ValueError /\ (times = None \/ times = Some [] \/ (exists l t, times = Some l /\ In t l /\ t <= 0) \/ ~ accepted m).
Proof.
  intros times target sp lg m e. unfold reliability_growth. destruct times as [l|]; [|split; [intros H; split; [congruence|now left]|intros [-> _]; reflexivity]].
  cbv zeta. destruct (isort Rleb l) as [|t0 r0] eqn:El.
  { assert (l = []) as -> by (apply Permutation_nil; rewrite <- El; apply perm_R).
    split; [intros H; split; [congruence|right; now left]|intros [-> _]; reflexivity]. }
  pose proof (perm_R l) as HPm. rewrite El in HPm.
  destruct (Rleb (rmin (t0 :: r0)) 0) eqn:Em.
  { split; [|intros [-> _]; reflexivity]. intros H. split; [congruence|]. right. right. left. exists l, (rmin (t0 :: r0)). split; [reflexivity|]. split.
    - apply (Permutation_in _ HPm). apply CIProofs.rmin_in. discriminate.
    - now apply Rleb_true. }
  apply OtherProofs3.rmin_pos in Em. pose proof (Permutation_Forall HPm Em) as HP. destruct (resolve_spec m) as [HR HE].
  assert (l <> []) as Hne by (intros ->; discriminate).
  assert (forall e, (e = ValueError /\ (Some l = None \/ Some l = Some [] \/ (exists l0 t, Some l = Some l0 /\ In t l0 /\ t <= 0) \/ ~ accepted m)) <-> e = ValueError /\ ~ accepted m) as EQ.
  { intros e'. split; [|intros [H1 H2]; auto]. intros (H1 & [H|[H|[(l0 & t & H & Hi & Ht)|H]]]); [discriminate|congruence| |auto].
    injection H as <-. rewrite Forall_forall in HP. specialize (HP _ Hi). lra. }
  rewrite EQ. clear EQ.
  destruct (resolve_model m) as [k|e'] eqn:Ek; cbn [bind].
  - split; [|intros [_ H]; exfalso; apply H, HR; eauto]. intros H. exfalso.
    assert (exists o, fit_growth k (t0 :: r0) = Ok o) as (o & Eo).
    { destruct k; unfold fit_growth; [eauto|]. unfold crow_amsaa.
      assert (existsb (fun t => negb (Rltb 0 t)) (t0 :: r0) = false) as ->.
      { rewrite <- not_true_iff_false, existsb_exists. intros (x & Hx & Hn). rewrite Forall_forall in Em. specialize (Em _ Hx).
        destruct (Rltb 0 x) eqn:E; [discriminate|]. unfold Rltb in E. destruct (Rlt_dec 0 x); [discriminate|lra]. }
      cbv zeta. destruct (Req_EM_T _ 0); cbn [bind]; eauto. }
    rewrite Eo in H. cbn [bind] in H. destruct o as [f|]; [|discriminate]. destruct (target_time f target); discriminate.
  - split; [|intros [-> _]; f_equal; now apply HE]. intros H. split; [apply HE; congruence|]. rewrite HR. intros (k & Hk). discriminate.
Qed.
Print Assumptions C147_errors.

(** The name decides the model that is fitted, and with two different times and a positive
    target (or none) there is a result unless the MTBF is constant under the fit. *)
Theorem C147_model : forall l target sp lg m g, reliability_growth (Some l) target sp lg m = Ok (Some g) ->
  exists s, m = N_Str s /\
  match gr_fitted g with
  | F_Duane _ => In (upper s) ["DUANE"; "D"]%string
  | F_Crow _ => In (upper s) ["CROW AMSAA"; "CROW-AMSAA"; "CROWAMSAA"; "CROW"; "AMSAA"; "CA"; "C"]%string
  end.
Proof.
  intros l target sp lg m g H. apply growth_inv in H as (Hne & HP & k & Hk & Hf & _ & _). destruct m as [s|]; [|discriminate]. exists s. split; [reflexivity|].
  unfold resolve_model in Hk.
  destruct (existsb (String.eqb (upper s)) duane_names) eqn:E1; [|destruct (existsb (String.eqb (upper s)) crow_names) eqn:E2; [|discriminate]]; injection Hk as <-; unfold fit_growth in Hf.
  - destruct (solve2 _ _) as [[z0 z1]|]; [|discriminate]. injection Hf as <-. now apply existsb_names.
  - destruct (crow_amsaa _) as [[c|]|]; [|discriminate|discriminate]. cbn [bind] in Hf. injection Hf as <-. now apply existsb_names.
Qed.
Print Assumptions C147_model.
Theorem C147_succeeds : forall l sp lg m, accepted m -> Forall (Rlt 0) l -> two_times l ->
  exists g, reliability_growth (Some l) None sp lg m = Ok (Some g) /\ gr_time_to_target g = None /\
  forall target, 0 < target -> match gr_fitted g with F_Crow c => Beta c <> 1 | F_Duane d => Alpha d <> 0 end ->
  exists g', reliability_growth (Some l) (Some target) sp lg m = Ok (Some g') /\ gr_fitted g' = gr_fitted g.
Proof.
  intros l sp lg m HA HP HT. apply resolve_spec in HA as (k & Hk). unfold reliability_growth. cbv zeta.
  assert (l <> []) as Hne by (destruct HT as (a & _ & Ha & _); intros ->; destruct Ha).
  pose proof (isort_ne _ Hne) as Hn. pose proof (isort_Forall _ _ HP) as HP'. pose proof (two_sorted _ HT) as HT'.
  set (L := isort Rleb l) in *. clearbody L. destruct L as [|t0 r0]; [congruence|].
  assert (Rleb (rmin (t0 :: r0)) 0 = false) as ->.
  { apply not_true_iff_false. intros E. apply Rleb_true in E. pose proof (CIProofs.rmin_in (t0 :: r0) Hn) as Hi. rewrite Forall_forall in HP'. specialize (HP' _ Hi). lra. }
  rewrite Hk. cbn [bind].
  assert (exists f, fit_growth k (t0 :: r0) = Ok (Some f)) as (f & ->).
  { destruct k.
    - assert (exists o, fit_growth G_Duane (t0 :: r0) = Ok o) as (o & Eo) by (unfold fit_growth; eauto).
      rewrite Eo. destruct (duane_fit _ _ HP' Hn Eo) as [[_ H]|[_ ->]]; [contradiction|eauto].
    - unfold fit_growth. destruct (crow_amsaa (t0 :: r0)) as [[c|]|] eqn:EC; cbn [bind]; [eauto| |].
      + exfalso. apply crow_inv in EC as (_ & _ & [[E _]|(_ & c & Ec & _)]); [|discriminate].
        destruct HT' as (a & b & Ha & Hb & Hab). apply Hab. pose proof (proj1 (proj2 (crow_d_nonneg (t0 :: r0) HP')) E) as HE.
        rewrite (HE a Ha), (HE b Hb). reflexivity.
      + exfalso. unfold crow_amsaa in EC. assert (existsb (fun t => negb (Rltb 0 t)) (t0 :: r0) = false) as Hx.
        { rewrite <- not_true_iff_false, existsb_exists. intros (x & Hx & Hnn). rewrite Forall_forall in HP'. specialize (HP' _ Hx).
          unfold Rltb in Hnn. destruct (Rlt_dec 0 x); [discriminate|lra]. }
        rewrite Hx in EC. cbv zeta in EC. destruct (Req_EM_T _ 0); discriminate. }
  cbn [bind target_time]. eexists. split; [reflexivity|]. cbn [gr_time_to_target gr_fitted]. split; [reflexivity|]. intros target Ht Hf.
  assert (Rleb target 0 = false) as -> by (apply not_true_iff_false; intros E; apply Rleb_true in E; lra).
  destruct f as [c|d].
  - destruct (Req_EM_T (Beta c) 1); [contradiction|]. eexists. split; reflexivity.
  - destruct (Req_EM_T (Alpha d) 0); [contradiction|]. eexists. split; reflexivity.
Qed.
Print Assumptions C147_succeeds.

(** The order of the times does not matter. *)
Theorem C147_order : forall l l' target sp lg m, Permutation l l' ->
  reliability_growth (Some l) target sp lg m = reliability_growth (Some l') target sp lg m.
Proof.
  intros l l' target sp lg m HP. unfold reliability_growth.
  assert (isort Rleb l = isort Rleb l') as ->; [|reflexivity].
  apply isort_sorted_perm; [|apply sorted_R]. rewrite HP. symmetry. apply perm_R.
Qed.
Print Assumptions C147_order.

(** The time to target: the curve of the fitted model reaches the target there. *)
Theorem C147_target : forall l target sp lg m g, reliability_growth (Some l) (Some target) sp lg m = Ok (Some g) ->
  exists t, gr_time_to_target g = Some t /\ 0 < t /\
  match gr_fitted g with
  | F_Crow c => t / (Lambda c * Rpower t (Beta c)) = target
  | F_Duane d => 1 / A d * Rpower t (Alpha d) = target
  end.
Proof.
  intros l target sp lg m g H. apply growth_inv in H as (Hne & HP & k & Hk & Hf & Ht & _). unfold target_time in Ht.
  destruct (Rleb target 0) eqn:E0; [discriminate|]. assert (0 < target) as Hpos by (unfold Rleb in E0; destruct (Rle_dec target 0); [discriminate|lra]).
  destruct (gr_fitted g) as [c|d] eqn:Eg.
  - destruct (Req_EM_T (Beta c) 1) as [|HB]; [discriminate|]. injection Ht as Ht. rewrite <- Ht. eexists. split; [reflexivity|].
    destruct k; unfold fit_growth in Hf; [destruct (solve2 _ _) as [[z0 z1]|]; discriminate|].
    destruct (crow_amsaa _) as [[c'|]|] eqn:EC; cbn [bind] in Hf; [|discriminate|discriminate]. injection Hf as ->.
    apply crow_full in EC as (_ & _ & H). exact (H target Hpos HB).
  - destruct (Req_EM_T (Alpha d) 0) as [|HB]; [discriminate|]. injection Ht as Ht. rewrite <- Ht. eexists. split; [reflexivity|].
    destruct k. 2: { unfold fit_growth in Hf. destruct (crow_amsaa (isort Rleb l)) as [[c'|]|]; cbn [bind] in Hf; discriminate. }
    destruct (duane_fit _ _ (isort_Forall _ _ HP) (isort_ne _ Hne) Hf) as [[Hn _]|[HT Ed]]; [discriminate|]. cbv zeta in Ed. injection Ed as ->.
    destruct (duane_target (rmax (isort Rleb l)) _ (lsq_intercept (logs2 (pairs_from 1 (isort Rleb l)))) target Hpos HB) as [H1 H2]. split; [exact H1|exact H2].
Qed.
Print Assumptions C147_target.
