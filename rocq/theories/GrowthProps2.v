(** Property theorems C147 (units, cases) and C148: the growth plot. *)
From Coquelicot Require Import Coquelicot.
From Coq Require Import String.
From Coq Require Import List Arith Reals Lra Lia Bool Permutation Sorted.
From Verif Require Import Base RealFacts NonparModel RList Linear ConvertModel RepairModel RepairSpec RepairProofs RepairProofs2 RepairProofs3 RegModel RegProofs CIModel LPlotProofs PlotProofs RoundProofs GrowthModel GrowthSpec GrowthProofs GrowthProps.
From Verif Require CIProofs MCFProps OtherProofs3.
Import ListNotations.
Open Scope R_scope.

(** ** Units *)
Lemma isort_scale k l : 0 < k -> isort Rleb (map (Rmult k) l) = map (Rmult k) (isort Rleb l).
Proof. intros Hk. apply isort_map. intros a b. now apply Rleb_scale. Qed.
Lemma rmax_scale k l : 0 < k -> l <> [] -> rmax (map (Rmult k) l) = k * rmax l.
Proof. intros Hk H. apply MCFProps.rmax_map; [|exact H]. intros x y Hxy. now apply Rmult_lt_compat_l. Qed.
Lemma rsum_ln_scale k l : 0 < k -> Forall (Rlt 0) l -> rsum (map ln (map (Rmult k) l)) = INR (length l) * ln k + rsum (map ln l).
Proof.
  intros Hk. induction 1 as [|a l Ha Hl IH]; [cbn; ring|]. cbn [map length]. rewrite !rsum_cons, S_INR, IH, ln_mult by assumption. ring.
Qed.
Lemma Rpower_scale k x a : 0 < k -> 0 < x -> Rpower (k * x) a = Rpower k a * Rpower x a.
Proof. intros Hk Hx. now rewrite Rpower_mult_distr. Qed.

Definition scaled (k : R) (f f' : fitted) : Prop :=
  match f, f' with
  | F_Crow c, F_Crow c' => Beta c' = Beta c /\ growth_rate c' = growth_rate c /\ DMTBF_C c' = k * DMTBF_C c /\ DMTBF_I c' = k * DMTBF_I c /\
      DFI_C c' = DFI_C c / k /\ DFI_I c' = DFI_I c / k
  | F_Duane d, F_Duane d' => Alpha d' = Alpha d /\ d_DMTBF_C d' = k * d_DMTBF_C d /\ d_DMTBF_I d' = k * d_DMTBF_I d /\
      d_DFI_C d' = d_DFI_C d / k /\ d_DFI_I d' = d_DFI_I d / k
  | _, _ => False
  end.

Lemma crow_scale k l c : 0 < k -> crow_amsaa l = Ok (Some c) -> exists c', crow_amsaa (map (Rmult k) l) = Ok (Some c') /\
  scaled k (F_Crow c) (F_Crow c') /\ Lambda c' = Lambda c / Rpower k (Beta c).
Proof.
  intros Hk H. pose proof (crow_mle _ _ H) as (Hb & Hl & _).
  apply crow_inv in H as (HF & Hne & [[_ E]|(Hd & c0 & E & HB & HL & HG & HI & HFI & HC & HFC)]); [discriminate|]. injection E as <-.
  assert (0 < rmax l) as HT. { rewrite Forall_forall in HF. apply HF. now apply rmax_in. }
  set (T := rmax l) in *. set (n := INR (length l)) in *. set (d := n * ln T - rsum (map ln l)) in *.
  assert (n * ln (rmax (map (Rmult k) l)) - rsum (map ln (map (Rmult k) l)) = d) as Ed.
  { rewrite rmax_scale, rsum_ln_scale by assumption. fold T n. rewrite ln_mult by assumption. unfold d. ring. }
  set (lam := n / Rpower (k * T) (n / d)).
  pose (c' := let I := 1 / (lam * (n / d) * Rpower (k * T) (n / d - 1)) in let C := 1 / lam * Rpower (k * T) (1 - n / d) in mkCrow (n / d) lam (1 - n / d) I (1 / I) C (1 / C)).
  assert (crow_amsaa (map (Rmult k) l) = Ok (Some c')) as EC.
  { unfold crow_amsaa. assert (existsb (fun t => negb (Rltb 0 t)) (map (Rmult k) l) = false) as ->.
    { rewrite <- not_true_iff_false, existsb_exists. intros (x & Hx & Hn). apply in_map_iff in Hx as (y & <- & Hy). rewrite Forall_forall in HF.
      specialize (HF _ Hy). pose proof (Rmult_lt_0_compat _ _ Hk HF). unfold Rltb in Hn. destruct (Rlt_dec 0 (k * y)); [discriminate|lra]. }
    destruct (map (Rmult k) l) as [|a0 r0] eqn:Em; [destruct l; [congruence|discriminate]|]. rewrite <- Em in *. cbv zeta.
    rewrite map_length. fold n. rewrite Ed. destruct (Req_EM_T d 0); [contradiction|]. rewrite rmax_scale by assumption. reflexivity. }
  exists c'. split; [exact EC|]. assert (0 < k * T) as HkT by now apply Rmult_lt_0_compat.
  assert (forall a, 0 < Rpower k a) as P1 by (intros; apply exp_pos). assert (forall a, 0 < Rpower T a) as P2 by (intros; apply exp_pos).
  assert (Lambda c' = Lambda c / Rpower k (Beta c)) as EL.
  { cbn [c' Lambda]. unfold lam. rewrite HL, HB, Rpower_scale by assumption. field. specialize (P1 (n / d)). specialize (P2 (n / d)). split; lra. }
  assert (Beta c' = Beta c) as EB by (cbn; now rewrite HB).
  assert (DMTBF_C c' = k * DMTBF_C c) as E1.
  { change (DMTBF_C c') with (1 / Lambda c' * Rpower (k * T) (1 - Beta c')). rewrite HC, EL, EB, Rpower_scale, (Rpower_succ k) by assumption. specialize (P1 (Beta c)). field. split; lra. }
  assert (DMTBF_I c' = k * DMTBF_I c) as E2.
  { change (DMTBF_I c') with (1 / (Lambda c' * Beta c' * Rpower (k * T) (Beta c' - 1))). rewrite HI, EL, EB, Rpower_scale, (Rpower_pred k) by assumption.
    pose proof (P1 (Beta c)). pose proof (P2 (Beta c - 1)). field. repeat split; lra. }
  assert (0 < DMTBF_C c) as Q1 by (rewrite HC; apply Rmult_lt_0_compat; [apply Rdiv_lt_0_compat; lra|apply P2]).
  assert (0 < DMTBF_I c) as Q2 by (rewrite HI; apply Rdiv_lt_0_compat; [lra|]; repeat apply Rmult_lt_0_compat; auto).
  split; [|exact EL]. repeat split; auto.
  - cbn [c' growth_rate]. rewrite HG, HB. reflexivity.
  - change (DFI_C c') with (1 / DMTBF_C c'). rewrite HFC, E1. field. lra.
  - change (DFI_I c') with (1 / DMTBF_I c'). rewrite HFI, E2. field. lra.
Qed.

Lemma pairs_scale k : forall l j, pairs_from j (map (Rmult k) l) = map (fun q => (k * fst q, k * snd q)) (pairs_from j l).
Proof.
  induction l as [|a l IH]; intros j; [reflexivity|].
  change (pairs_from j (map (Rmult k) (a :: l))) with ((k * a, k * a / INR j) :: pairs_from (S j) (map (Rmult k) l)).
  change (pairs_from j (a :: l)) with ((a, a / INR j) :: pairs_from (S j) l). cbn [map fst snd]. rewrite IH. f_equal. f_equal. unfold Rdiv. ring.
Qed.
Lemma pairs_pos : forall l j q, (0 < j)%nat -> Forall (Rlt 0) l -> In q (pairs_from j l) -> 0 < fst q /\ 0 < snd q.
Proof.
  induction l as [|a l IH]; intros j q Hj HP H; [destruct H|]. inversion HP; subst.
  change (pairs_from j (a :: l)) with ((a, a / INR j) :: pairs_from (S j) l) in H. destruct H as [<-|H]; [|apply (IH (S j)); auto; lia].
  cbn. split; [assumption|]. apply Rdiv_lt_0_compat; [assumption|apply lt_0_INR; lia].
Qed.
Lemma sse_shift h p m c : sse (map (fun q => (fst q + h, snd q + h)) p) m c = sse p m (c - h + m * h).
Proof. unfold sse. rewrite map_map. f_equal. apply map_ext. intros q. cbn [fst snd]. ring. Qed.

Lemma duane_scale_line k l : 0 < k -> Forall (Rlt 0) l -> two_times l ->
  let p := logs2 (pairs_from 1 l) in let p' := logs2 (pairs_from 1 (map (Rmult k) l)) in
  lsq_slope p' = lsq_slope p /\ lsq_intercept p' = lsq_intercept p + (1 - lsq_slope p) * ln k.
Proof.
  intros Hk HP HT p p'. assert (Sxx p <> 0) as HX by (apply logs_spread; assumption).
  assert (Forall (Rlt 0) (map (Rmult k) l)) as HP'.
  { apply Forall_forall. intros x Hx. apply in_map_iff in Hx as (y & <- & Hy). rewrite Forall_forall in HP. apply Rmult_lt_0_compat; auto. }
  assert (Sxx p' <> 0) as HX'.
  { apply logs_spread; [exact HP'|]. destruct HT as (a & b & Ha & Hb & Hab). exists (k * a), (k * b). repeat split; [now apply in_map|now apply in_map|].
    intros E. apply Hab. apply (Rmult_eq_reg_l k); lra. }
  assert (p' = map (fun q => (fst q + ln k, snd q + ln k)) p) as E.
  { unfold p', p, logs2. rewrite pairs_scale, !map_map. apply map_ext_in. intros q Hq. cbn [fst snd]. destruct (pairs_pos l 1 q (Nat.lt_0_succ 0) HP Hq).
    rewrite !ln_mult by assumption. f_equal; ring. }
  assert (lsq_slope p = lsq_slope p' /\ lsq_intercept p + (1 - lsq_slope p) * ln k = lsq_intercept p') as [H1 H2]; [|now split].
  apply lsq_unique; [exact HX'|]. rewrite E at 1. rewrite sse_shift.
  replace (lsq_intercept p + (1 - lsq_slope p) * ln k - ln k + lsq_slope p * ln k) with (lsq_intercept p) by ring.
  rewrite E, sse_shift. rewrite <- E. now apply lsq_optimal.
Qed.

(** In other units of time (all times multiplied by k > 0, and the target if there is one)
    the MTBFs and the time to target are multiplied by k, the intensities divided by k, and
    the growth is the same. *)
Theorem C147_units : forall k l target sp lg m g, 0 < k -> reliability_growth (Some l) target sp lg m = Ok (Some g) ->
  exists g', reliability_growth (Some (map (Rmult k) l)) (option_map (Rmult k) target) sp lg m = Ok (Some g') /\
  scaled k (gr_fitted g) (gr_fitted g') /\ gr_time_to_target g' = option_map (Rmult k) (gr_time_to_target g).
Proof.
  intros k l target sp lg m g Hk H. pose proof H as H0. apply growth_inv in H as (Hne & HP & kk & Hm & Hf & Ht & _).
  pose proof (isort_Forall _ _ HP) as HP'. pose proof (isort_ne _ Hne) as Hne'.
  assert (exists f', fit_growth kk (map (Rmult k) (isort Rleb l)) = Ok (Some f') /\ scaled k (gr_fitted g) f' /\ target_time f' (option_map (Rmult k) target) = Some (option_map (Rmult k) (gr_time_to_target g))) as (f' & Ef & Es & Et).
  { destruct kk.
    - destruct (duane_fit _ _ HP' Hne' Hf) as [[Hn _]|[HT Ed]]; [discriminate|]. cbv zeta in Ed. injection Ed as Ed.
      destruct (duane_scale_line k _ Hk HP' HT) as [E1 E2]. cbv zeta in E1, E2.
      assert (Forall (Rlt 0) (map (Rmult k) (isort Rleb l))) as HPk.
      { apply Forall_forall. intros x Hx. apply in_map_iff in Hx as (y & <- & Hy). rewrite Forall_forall in HP'. apply Rmult_lt_0_compat; auto. }
      assert (map (Rmult k) (isort Rleb l) <> []) as Hnk by (destruct (isort Rleb l); [congruence|discriminate]).
      assert (exists o, fit_growth G_Duane (map (Rmult k) (isort Rleb l)) = Ok o) as (o & Eo) by (unfold fit_growth; eauto).
      rewrite Eo. destruct (duane_fit _ _ HPk Hnk Eo) as [[_ Hno]|[_ ->]].
      { exfalso. apply Hno. destruct HT as (a & b & Ha & Hb & Hab). exists (k * a), (k * b). repeat split; [now apply in_map|now apply in_map|].
        intros E. apply Hab. apply (Rmult_eq_reg_l k); lra. }
      eexists. split; [reflexivity|]. cbv zeta. rewrite E1, E2, Ed, rmax_scale by assumption.
      set (z0 := lsq_slope _) in *. set (z1 := lsq_intercept _) in *.
      assert (z0 < 1) as Hz by (apply duane_slope; [exact HP'|apply sorted_R|exact HT]).
      assert (0 < rmax (isort Rleb l)) as HM by (rewrite Forall_forall in HP'; apply HP'; now apply rmax_in). set (T := rmax (isort Rleb l)) in *.
      assert (exp (z1 + (1 - z0) * ln k) = exp z1 * (k / Rpower k z0)) as EB.
      { rewrite exp_plus. f_equal. rewrite <- Rpower_succ by exact Hk. reflexivity. }
      pose proof (exp_pos z1) as Hz1. assert (0 < Rpower k z0) as Pk by apply exp_pos. assert (0 < Rpower T z0) as PT by apply exp_pos. split.
      + unfold duane_model, scaled. cbn [Alpha d_DMTBF_C d_DMTBF_I d_DFI_C d_DFI_I]. rewrite EB, Rpower_scale by assumption. repeat split; field; repeat split; lra.
      + unfold target_time in *. destruct target as [t|]; cbn [option_map] in *.
        * destruct (Rleb t 0) eqn:E0; [discriminate|]. assert (0 < t) as Hpos by (unfold Rleb in E0; destruct (Rle_dec t 0); [discriminate|lra]).
          pose proof (Rmult_lt_0_compat _ _ Hk Hpos) as Hkt.
          assert (Rleb (k * t) 0 = false) as -> by (apply not_true_iff_false; intros E; apply Rleb_true in E; lra).
          rewrite Ed in Ht. cbn [duane_model Alpha] in *. destruct (Req_EM_T z0 0) as [|Hz0]; [discriminate|]. injection Ht as <-. cbn [option_map].
          do 2 f_equal. unfold duane_time_to_target, duane_model. cbn [A Alpha]. rewrite EB.
          replace (k * t / (1 / (1 / (exp z1 * (k / Rpower k z0))))) with (Rpower k z0 * (t / (1 / (1 / exp z1)))) by (field; repeat split; lra).
          rewrite Rpower_scale; [|exact Pk|]. 2: { replace (t / (1 / (1 / exp z1))) with (t / exp z1) by (field; lra). now apply Rdiv_lt_0_compat. }
          rewrite Rpower_mult. replace (z0 * (1 / z0)) with 1 by (field; exact Hz0). now rewrite Rpower_1.
        * injection Ht as <-. reflexivity.
    - unfold fit_growth in Hf. destruct (crow_amsaa (isort Rleb l)) as [[c|]|] eqn:EC; cbn [bind] in Hf; [|discriminate|discriminate]. injection Hf as Ec.
      pose proof (crow_mle _ _ EC) as (Hb & Hl & _). destruct (crow_scale k _ _ Hk EC) as (c' & EC' & Hs & HL). exists (F_Crow c'). unfold fit_growth. rewrite EC'. cbn [bind].
      split; [reflexivity|]. rewrite <- Ec in *. split; [exact Hs|]. destruct Hs as (HBe & _).
      unfold target_time in *. destruct target as [t|]; cbn [option_map] in *.
      + destruct (Rleb t 0) eqn:E0; [discriminate|]. assert (0 < t) as Hpos by (unfold Rleb in E0; destruct (Rle_dec t 0); [discriminate|lra]).
        pose proof (Rmult_lt_0_compat _ _ Hk Hpos) as Hkt.
        assert (Rleb (k * t) 0 = false) as -> by (apply not_true_iff_false; intros E; apply Rleb_true in E; lra).
        rewrite HBe. destruct (Req_EM_T (Beta c) 1) as [|HB1]; [discriminate|]. injection Ht as <-. cbn [option_map]. do 2 f_equal.
        unfold crow_time_to_target. rewrite HL, HBe. assert (0 < Rpower k (Beta c)) as Pk by apply exp_pos.
        replace (1 / (Lambda c / Rpower k (Beta c) * (k * t))) with (Rpower k (Beta c - 1) * (1 / (Lambda c * t))) by (rewrite Rpower_pred by exact Hk; field; repeat split; lra).
        rewrite Rpower_scale; [|apply exp_pos|apply Rdiv_lt_0_compat; [lra|now apply Rmult_lt_0_compat]].
        rewrite Rpower_mult. replace ((Beta c - 1) * (1 / (Beta c - 1))) with 1 by (field; lra). now rewrite Rpower_1.
      + injection Ht as <-. reflexivity. }
  unfold reliability_growth. cbv zeta. rewrite isort_scale by exact Hk.
  destruct (map (Rmult k) (isort Rleb l)) as [|a0 r0] eqn:Em; [destruct (isort Rleb l); [congruence|discriminate]|].
  assert (Rleb (rmin (a0 :: r0)) 0 = false) as ->.
  { apply not_true_iff_false. intros E. apply Rleb_true in E. assert (In (rmin (a0 :: r0)) (a0 :: r0)) as Hi by (apply CIProofs.rmin_in; discriminate).
    rewrite <- Em in Hi at 2. apply in_map_iff in Hi as (y & Ey & Hy). rewrite Forall_forall in HP'. specialize (HP' _ Hy). pose proof (Rmult_lt_0_compat _ _ Hk HP'). lra. }
  rewrite Hm. cbn [bind]. rewrite Ef. cbn [bind]. rewrite Et. eexists. split; [reflexivity|]. cbn [gr_fitted gr_time_to_target]. auto.
Qed.
Print Assumptions C147_units.

(** Two failures, at 1 and at e: both models have a result. *)
Lemma two_e : two_times [exp 1; 1].
Proof. exists (exp 1), 1. repeat split; [now left|right; now left|]. pose proof (exp_ineq1 1). lra. Qed.
Lemma pos_e : Forall (Rlt 0) [exp 1; 1].
Proof. repeat constructor; [apply exp_pos|lra]. Qed.
Example C147_case : (exists g, reliability_growth (Some [exp 1; 1]) None true false (N_Str "Duane") = Ok (Some g)) /\
  (exists g, reliability_growth (Some [exp 1; 1]) None true false (N_Str "Crow-amsaa") = Ok (Some g)).
Proof.
  split.
  - destruct (C147_succeeds [exp 1; 1] true false (N_Str "Duane")) as (g & Hg & _); [|apply pos_e|apply two_e|now exists g].
    exists "Duane"%string. split; [reflexivity|]. cbn. auto.
  - destruct (C147_succeeds [exp 1; 1] true false (N_Str "Crow-amsaa")) as (g & Hg & _); [|apply pos_e|apply two_e|now exists g].
    exists "Crow-amsaa"%string. split; [reflexivity|]. cbn. tauto.
Qed.

(** ** C148 The growth plot *)
Lemma ten_bounds v : 0 < v -> ten_below v <= v <= ten_above v.
Proof.
  intros Hv. assert (0 < ln 10) as H10 by (rewrite <- ln_1; apply ln_increasing; lra).
  assert (v = Rpower 10 (log10 v)) as E. { unfold Rpower, log10. replace (ln v / ln 10 * ln 10) with (ln v) by (field; lra). now rewrite exp_ln. }
  assert (forall a b, a <= b -> Rpower 10 a <= Rpower 10 b) as HM.
  { intros a b [H| ->]; [left; apply Rpower_lt; lra|now right]. }
  pose proof (parts (log10 v)) as [P1 _]. pose proof (parts (- log10 v)) as [P2 _]. unfold ten_below, ten_above. split.
  - rewrite E at 2. now apply HM.
  - rewrite E at 1. apply HM. rewrite opp_IZR. lra.
Qed.

Lemma plot_inv l target lg m g p : reliability_growth (Some l) target true lg m = Ok (Some g) -> gr_plot g = Some p ->
  l <> [] /\ Forall (Rlt 0) l /\ p = draw_growth (gr_fitted g) (isort Rleb l) target (gr_time_to_target g) lg.
Proof.
  intros H E. apply growth_inv in H as (Hne & HP & _ & _ & _ & _ & Hp). split; [exact Hne|]. split; [exact HP|]. congruence.
Qed.

(** The points drawn are the observed cumulative MTBFs, the curve is the cumulative MTBF of
    the fitted model and passes through the demonstrated cumulative MTBF at the last failure. *)
Theorem C148_points : forall l target sp lg m g p, reliability_growth (Some l) target sp lg m = Ok (Some g) -> gr_plot g = Some p ->
  sp = true /\ observed l (gp_points p) /\ gp_log p = lg.
Proof.
  intros l target sp lg m g p H E. apply growth_inv in H as (Hne & HP & _ & _ & _ & _ & Hp). rewrite E in Hp. destruct sp; [|discriminate].
  injection Hp as ->. split; [reflexivity|]. split; [apply points_observed|reflexivity].
Qed.
Print Assumptions C148_points.

Theorem C148_curve : forall l target lg m g p, reliability_growth (Some l) target true lg m = Ok (Some g) -> gr_plot g = Some p ->
  exists M : R -> R,
  match gr_fitted g with
  | F_Crow c => (forall t, 0 < t -> M t = t / (Lambda c * Rpower t (Beta c))) /\ M (rmax l) = DMTBF_C c
  | F_Duane d => (forall t, 0 < t -> M t = Rpower t (Alpha d) / A d) /\ M (rmax l) = d_DMTBF_C d
  end /\
  (forall x y, In (x, y) (gp_curve p) -> 0 < x /\ y = M x) /\
  (forall t u, target = Some t -> gr_time_to_target g = Some u -> M u = t).
Proof.
  intros l target lg m g p H E. destruct (plot_inv _ _ _ _ _ _ H E) as (Hne & HP & Ep). exists (growth_curve (gr_fitted g)).
  assert (0 < rmax l) as HT by (rewrite Forall_forall in HP; apply HP; now apply rmax_in).
  assert (forall c, gr_fitted g = F_Crow c -> 0 < Lambda c) as HLc.
  { intros c Ec. pose proof H as H'. apply growth_inv in H' as (_ & _ & k & _ & Hf & _ & _). rewrite Ec in Hf. destruct k; unfold fit_growth in Hf.
    { destruct (solve2 _ _) as [[z0 z1]|]; discriminate. }
    destruct (crow_amsaa (isort Rleb l)) as [[c'|]|] eqn:EC; cbn [bind] in Hf; [|discriminate|discriminate]. injection Hf as ->.
    apply crow_mle in EC. tauto. }
  assert (forall c t, gr_fitted g = F_Crow c -> 0 < t -> growth_curve (F_Crow c) t = t / (Lambda c * Rpower t (Beta c))) as HC.
  { intros c t Ec Ht. pose proof (HLc c Ec). cbn [growth_curve]. rewrite Rpower_pred by exact Ht. assert (0 < Rpower t (Beta c)) by apply exp_pos. field. repeat split; lra. }
  split; [|split].
  - destruct (gr_fitted g) as [c|d] eqn:Ef.
    + split; [intros t Ht; now apply HC|]. rewrite HC by auto. destruct (C147_crow _ _ _ _ _ _ _ H Ef) as ((_ & E1 & _) & _). now rewrite E1.
    + destruct (C147_duane _ _ _ _ _ _ _ H Ef) as (HA & _ & (_ & E1 & _)). split.
      * intros t Ht. cbn [growth_curve]. field. lra.
      * rewrite E1. cbn [growth_curve]. assert (0 < Rpower (rmax l) (Alpha d)) by apply exp_pos. field. repeat split; lra.
  - intros x y Hx. rewrite Ep in Hx. unfold draw_growth in Hx. cbn [gp_curve] in Hx. apply in_map_iff in Hx as (x' & Ex & Hx). injection Ex as -> <-. split; [|reflexivity].
    destruct lg.
    + unfold geomspace in Hx. apply in_map_iff in Hx as (u & <- & _). apply exp_pos.
    + set (xmax := Rmax _ _ * 2) in Hx. assert (0 < xmax) as Hm.
      { unfold xmax. rewrite rmax_sorted. pose proof (Rmax_l (rmax l) (match gr_time_to_target g with Some t => t | None => 0 end)). lra. }
      unfold linspace in Hx. assert (forall f n, tl (map f (seq 0 n)) = map f (seq 1 (n - 1)) :> list R) as ETL by (intros f [|n]; [reflexivity|cbn; now rewrite Nat.sub_0_r]).
      rewrite ETL in Hx. apply in_map_iff in Hx as (i & <- & Hi). apply in_seq in Hi.
      rewrite Rplus_0_l. apply Rmult_lt_0_compat; [apply lt_0_INR; lia|]. apply Rdiv_lt_0_compat; [lra|]. apply lt_0_INR. cbn. lia.
  - intros t u -> Hu. destruct (C147_target _ _ _ _ _ _ H) as (u' & Eu & Hup & HM). rewrite Hu in Eu. injection Eu as <-.
    destruct (gr_fitted g) as [c|d] eqn:Ef; [rewrite HC by auto; exact HM|exact HM].
Qed.
Print Assumptions C148_curve.

Lemma rmax_mtbf l q : In q (combine (isort Rleb l) (mtbf_c (isort Rleb l))) -> fst q <= rmax l /\ rmin (isort Rleb l) <= fst q /\ rmin (mtbf_c (isort Rleb l)) <= snd q <= rmax (mtbf_c (isort Rleb l)).
Proof.
  destruct q as [x y]. intros H. pose proof (in_combine_l _ _ _ _ H) as Hx. pose proof (in_combine_r _ _ _ _ H) as Hy. cbn [fst snd].
  split; [rewrite <- rmax_sorted; now apply rmax_ge|]. split; [now apply CIProofs.rmin_le|]. split; [now apply CIProofs.rmin_le|now apply rmax_ge].
Qed.
Lemma rmin_sorted_pos l : l <> [] -> Forall (Rlt 0) l -> 0 < rmin (isort Rleb l).
Proof. intros Hne HP. apply isort_Forall in HP. rewrite Forall_forall in HP. apply HP. apply CIProofs.rmin_in. now apply isort_ne. Qed.
Lemma rmin_mtbf_pos l : l <> [] -> Forall (Rlt 0) l -> 0 < rmin (mtbf_c (isort Rleb l)).
Proof.
  intros Hne HP. assert (mtbf_c (isort Rleb l) <> []) as Hm.
  { intros E. apply (isort_ne _ Hne). apply length_zero_iff_nil. rewrite <- mtbf_length, E. reflexivity. }
  pose proof (CIProofs.rmin_in _ Hm) as Hi. unfold mtbf_c in Hi at 2. apply in_map_iff in Hi as ([t i] & <- & Hq). cbn [fst snd].
  pose proof (in_combine_l _ _ _ _ Hq) as Ht. pose proof (in_combine_r _ _ _ _ Hq) as Hs. apply in_seq in Hs.
  apply isort_Forall in HP. rewrite Forall_forall in HP. apply Rdiv_lt_0_compat; [now apply HP|apply lt_0_INR; lia].
Qed.
Lemma rmin_max_mtbf l : l <> [] -> rmin (mtbf_c (isort Rleb l)) <= rmax (mtbf_c (isort Rleb l)).
Proof.
  intros Hne. apply CIProofs.rmin_le. apply rmax_in. intros E. apply (isort_ne _ Hne). apply length_zero_iff_nil. rewrite <- mtbf_length, E. reflexivity.
Qed.

(** Every failure is within the axes, on either scale; on log axes the limits are positive. *)
Theorem C148_failures_shown : forall l target lg m g p, reliability_growth (Some l) target true lg m = Ok (Some g) -> gr_plot g = Some p ->
  (forall q, In q (gp_points p) -> shows (gp_xlim p) (gp_ylim p) q) /\ (lg = true -> 0 < fst (gp_xlim p) /\ 0 < fst (gp_ylim p)).
Proof.
  intros l target lg m g p H E. destruct (plot_inv _ _ _ _ _ _ H E) as (Hne & HP & ->).
  pose proof (rmin_sorted_pos l Hne HP) as P1. pose proof (rmin_mtbf_pos l Hne HP) as P2. pose proof (rmin_max_mtbf l Hne) as P3.
  assert (forall t, target = Some t -> 0 < t) as Htp.
  { intros t ->. apply growth_inv in H as (_ & _ & k & _ & _ & Ht & _). unfold target_time in Ht. destruct (Rleb t 0) eqn:E0; [discriminate|].
    unfold Rleb in E0. destruct (Rle_dec t 0); [discriminate|lra]. }
  split; [|intros ->; cbn; split; apply exp_pos].
  intros q Hq. cbn [draw_growth gp_points] in Hq. apply rmax_mtbf in Hq as (Q1 & Q2 & Q3 & Q4).
  unfold shows, draw_growth. cbn [gp_xlim gp_ylim]. rewrite rmax_sorted.
  set (tt := match gr_time_to_target g with Some t => t | None => 0 end). pose proof (Rmax_l (rmax l) tt) as M1.
  set (top := match target with Some t => Rmax (rmax (mtbf_c (isort Rleb l))) t | None => rmax (mtbf_c (isort Rleb l)) end).
  assert (rmax (mtbf_c (isort Rleb l)) <= top) as M2 by (unfold top; destruct target; [apply Rmax_l|lra]).
  destruct lg; cbn [fst snd].
  - set (lo := match target with Some t => Rmin (rmin (isort Rleb l)) t | None => rmin (isort Rleb l) end).
    assert (0 < lo <= rmin (isort Rleb l)) as [L1 L2].
    { unfold lo. destruct target as [t|]; [|lra]. specialize (Htp t eq_refl). split; [now apply Rmin_glb_lt|apply Rmin_l]. }
    pose proof (ten_bounds lo L1) as [B1 _]. assert (0 < Rmax (rmax l) tt) as B0 by lra. pose proof (ten_bounds _ B0) as [_ B2].
    pose proof (ten_bounds _ P2) as [B3 _]. assert (0 < top * (12 / 10)) as B5 by lra. pose proof (ten_bounds _ B5) as [_ B4]. split; split; lra.
  - split; split; lra.
Qed.
Print Assumptions C148_failures_shown.

(** On linear axes the whole target line is shown: from the axis at the target across to the
    curve and down to the time to target. *)
Theorem C148_target_linear : forall l target m g p, reliability_growth (Some l) (Some target) true false m = Ok (Some g) -> gr_plot g = Some p ->
  exists u, gr_time_to_target g = Some u /\ gp_target p = [(0, target); (u, target); (u, 0)] /\
  forall q, In q (gp_target p) -> shows (gp_xlim p) (gp_ylim p) q.
Proof.
  intros l target m g p H E. destruct (plot_inv _ _ _ _ _ _ H E) as (Hne & HP & ->). pose proof (rmin_mtbf_pos l Hne HP) as P2. pose proof (rmin_max_mtbf l Hne) as P3.
  assert (0 < rmax l) as HT by (rewrite Forall_forall in HP; apply HP; now apply rmax_in).
  destruct (C147_target _ _ _ _ _ _ H) as (u & Eu & Hu & _). exists u. split; [exact Eu|].
  apply growth_inv in H as (_ & _ & k & _ & _ & Ht & _). unfold target_time in Ht. destruct (Rleb target 0) eqn:E0; [discriminate|].
  assert (0 < target) as Hp by (unfold Rleb in E0; destruct (Rle_dec target 0); [discriminate|lra]).
  unfold draw_growth. cbn [gp_target gp_xlim gp_ylim]. rewrite Eu, rmax_sorted. split; [reflexivity|].
  pose proof (Rmax_l (rmax l) u). pose proof (Rmax_r (rmax l) u). pose proof (Rmax_l (rmax (mtbf_c (isort Rleb l))) target). pose proof (Rmax_r (rmax (mtbf_c (isort Rleb l))) target).
  intros q [<-|[<-|[<-|[]]]]; unfold shows; cbn [fst snd]; split; split; lra.
Qed.
Print Assumptions C148_target_linear.
Theorem C148_no_target : forall l lg m g p, reliability_growth (Some l) None true lg m = Ok (Some g) -> gr_plot g = Some p -> gp_target p = [].
Proof. intros l lg m g p H E. destruct (plot_inv _ _ _ _ _ _ H E) as (_ & _ & ->). reflexivity. Qed.
Print Assumptions C148_no_target.

(** On log axes the corner of the target line is shown when the target is not below the
    lowest observed MTBF, and the time to target not below both the first failure and the
    target. *)
Theorem C148_target_log_partial : forall l target m g p u, reliability_growth (Some l) (Some target) true true m = Ok (Some g) -> gr_plot g = Some p ->
  gr_time_to_target g = Some u -> (exists q, In q (gp_points p) /\ snd q <= target) -> (target <= u \/ exists t, In t l /\ t <= u) ->
  In (u, target) (gp_target p) /\ shows (gp_xlim p) (gp_ylim p) (u, target).
Proof.
  intros l target m g p u H E Eu (q & Hq & Hqt) Hu. destruct (plot_inv _ _ _ _ _ _ H E) as (Hne & HP & ->).
  pose proof (rmin_sorted_pos l Hne HP) as P1. pose proof (rmin_mtbf_pos l Hne HP) as P2. pose proof (rmin_max_mtbf l Hne) as P3.
  assert (0 < rmax l) as HT by (rewrite Forall_forall in HP; apply HP; now apply rmax_in).
  cbn [draw_growth gp_points] in Hq. apply rmax_mtbf in Hq as (_ & _ & Q3 & _).
  unfold draw_growth. cbn [gp_target gp_xlim gp_ylim]. rewrite Eu, rmax_sorted. split; [right; now left|].
  assert (0 < Rmin (rmin (isort Rleb l)) target) as L1 by (apply Rmin_glb_lt; lra).
  pose proof (ten_bounds _ L1) as [B1 _]. pose proof (Rmax_l (rmax l) u) as M1. pose proof (Rmax_r (rmax l) u) as M2.
  assert (0 < Rmax (rmax l) u) as B0 by lra. pose proof (ten_bounds _ B0) as [_ B2]. pose proof (ten_bounds _ P2) as [B3 _].
  pose proof (Rmax_l (rmax (mtbf_c (isort Rleb l))) target) as M3. pose proof (Rmax_r (rmax (mtbf_c (isort Rleb l))) target) as M4.
  assert (0 < Rmax (rmax (mtbf_c (isort Rleb l))) target * (12 / 10)) as B5 by lra. pose proof (ten_bounds _ B5) as [_ B4].
  assert (Rmin (rmin (isort Rleb l)) target <= u) as L2.
  { destruct Hu as [Hu|(t & Ht & Htu)]; [pose proof (Rmin_r (rmin (isort Rleb l)) target); lra|].
    assert (rmin (isort Rleb l) <= t) by (apply CIProofs.rmin_le; apply (Permutation_in _ (Permutation_sym (perm_R l)) Ht)).
    pose proof (Rmin_l (rmin (isort Rleb l)) target). lra. }
  unfold shows. cbn [fst snd]. split; split; lra.
Qed.
Print Assumptions C148_target_log_partial.

(** Two failures, at 10 and at 10 e^4, and a target of 1: the Crow-AMSAA model reaches the
    target, but the log axes start at an MTBF of 10. *)
Lemma case_beta c : crow_amsaa [10; 10 * exp 4] = Ok (Some c) -> Beta c = 1 / 2.
Proof.
  intros H. apply crow_inv in H as (_ & _ & [[_ E]|(Hd & c' & E & HB & _)]); [discriminate|]. injection E as <-. rewrite HB.
  assert (10 < 10 * exp 4) as Hlt by (pose proof (exp_ineq1 4); lra).
  assert (rmax [10; 10 * exp 4] = 10 * exp 4) as -> by (cbn; apply Rmax_left; lra).
  assert (rsum (map ln [10; 10 * exp 4]) = ln 10 + ln (10 * exp 4)) as -> by (unfold rsum; cbn; ring).
  cbn [length]. rewrite ln_mult, ln_exp by (try lra; apply exp_pos). simpl INR. field. lra.
Qed.
Lemma case_sorted : isort Rleb [10; 10 * exp 4] = [10; 10 * exp 4].
Proof.
  apply isort_sorted_perm; [reflexivity|]. pose proof (exp_ineq1 4). repeat constructor. lra.
Qed.
Lemma case_below : ten_below 10 = 10.
Proof.
  unfold ten_below. assert (log10 10 = IZR 1) as ->.
  { assert (0 < ln 10) by (rewrite <- ln_1; apply ln_increasing; lra). unfold log10. simpl. field. lra. }
  rewrite Int_part_IZR. apply Rpower_1. lra.
Qed.
Theorem C148_target_log_refuted : exists l target m g p u, reliability_growth (Some l) (Some target) true true m = Ok (Some g) /\
  gr_time_to_target g = Some u /\ gr_plot g = Some p /\ In (u, target) (gp_target p) /\
  (forall q, In q (gp_target p) -> ~ shows (gp_xlim p) (gp_ylim p) q).
Proof.
  exists [10; 10 * exp 4], 1, (N_Str "Crow").
  destruct (C147_succeeds [10; 10 * exp 4] true true (N_Str "Crow")) as (g & Hg & _ & HS).
  - exists "Crow"%string. split; [reflexivity|]. cbn. tauto.
  - repeat constructor; [lra|]. pose proof (exp_pos 4). lra.
  - exists 10, (10 * exp 4). repeat split; [now left|right; now left|]. pose proof (exp_ineq1 4). lra.
  - destruct (HS 1) as (g' & Hg' & _); [lra| |].
    { apply growth_inv in Hg as (_ & _ & k & Hk & Hf & _). cbn in Hk. injection Hk as <-. rewrite case_sorted in Hf. unfold fit_growth in Hf.
      destruct (crow_amsaa _) as [[c|]|] eqn:EC; cbn [bind] in Hf; [|discriminate|discriminate]. injection Hf as <-. rewrite (case_beta _ EC). lra. }
    destruct (C147_target _ _ _ _ _ _ Hg') as (u & Eu & _). pose proof Hg' as H2. apply growth_inv in H2 as (_ & _ & _ & _ & _ & _ & Ep).
    exists g'. eexists. exists u. split; [exact Hg'|]. split; [exact Eu|]. split; [exact Ep|]. rewrite case_sorted, Eu. unfold draw_growth. cbn [gp_target gp_xlim gp_ylim].
    split; [right; now left|].
    assert (rmin (mtbf_c [10; 10 * exp 4]) = 10) as Em.
    { unfold mtbf_c. cbn. pose proof (exp_ineq1 4). replace (10 / 1) with 10 by field. apply Rmin_right. lra. }
    rewrite Em, case_below. intros q [<-|[<-|[<-|[]]]] [_ [H _]]; cbn [fst snd] in H; lra.
Qed.
Print Assumptions C148_target_log_refuted.
