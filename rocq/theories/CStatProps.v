(** C132, C133, C134: statistics and mean residual life of the combined models. *)
From Coquelicot Require Import Coquelicot.
From Coq Require Import List Arith Reals Lra Lia Bool ZArith Sorting.Sorted Permutation.
From Verif Require Import Base RealFacts Ext RList DistModel DistSpec DistProofs CombModel CombSpec CombProofs CombProofs2 CombProps
  MomentModel MomentSpec MomentProps MRLProofs MRLProofs2 CStatModel CStatSpec CStatProofs CStatProofs2 CStatProofs3.
Import ListNotations.
Open Scope R_scope.
#[local] Opaque table_grid.

(** The six moments are the integrals over the range of the model, and mode, median, b5 and
    b95 are the best grid points. *)
Theorem C132_competing_risks : forall ds lo hi,
  Forall valid ds -> range_of ds lo hi -> below_one ds hi -> finite_density ds lo hi -> hazards_defined ds lo hi ->
  exists s, cr_statistics ds = Ok s /\
    described (cr_density_at ds) lo hi (st_mean s, st_standard_deviation s, st_variance s, st_skewness s, st_kurtosis s, st_excess_kurtosis s) /\
    highest_on_grid (cr_density_at ds) lo hi (st_mode s) /\ nearest_on_grid (cr_survival ds) lo hi (1 / 2) (st_median s) /\
    nearest_on_grid (fun x => 1 - cr_survival ds x) lo hi (5 / 100) (st_b5 s) /\ nearest_on_grid (fun x => 1 - cr_survival ds x) lo hi (95 / 100) (st_b95 s).
Proof. exact cr_stats. Qed.
Print Assumptions C132_competing_risks.

Theorem C132_mixture : forall ds ps lo hi,
  Forall valid ds -> length ps = length ds -> Forall (fun p => 0 <= p) ps -> range_of ds lo hi -> below_one ds hi -> finite_density ds lo hi ->
  exists s, mix_statistics ds ps = Ok s /\
    described (mix_density_at ds ps) lo hi (st_mean s, st_standard_deviation s, st_variance s, st_skewness s, st_kurtosis s, st_excess_kurtosis s) /\
    highest_on_grid (mix_density_at ds ps) lo hi (st_mode s) /\ nearest_on_grid (mix_survival ds ps) lo hi (1 / 2) (st_median s) /\
    nearest_on_grid (fun x => dot ps (map (fun d => cdf d x) ds)) lo hi (5 / 100) (st_b5 s) /\ nearest_on_grid (fun x => dot ps (map (fun d => cdf d x) ds)) lo hi (95 / 100) (st_b95 s).
Proof. exact mix_stats. Qed.
Print Assumptions C132_mixture.

(** The densities are those of the models: where every component has a density. *)
Theorem C132_density : forall ds ps x, Forall valid ds -> length ps = length ds -> Forall (fun d => inside d x) ds ->
  is_derive (fun t => 1 - cr_survival ds t) x (cr_density_at ds x) /\
  is_derive (fun t => 1 - mix_survival ds ps t) x (mix_density_at ds ps x).
Proof.
  intros ds ps x V L I. split.
  - unfold cr_density_at. replace (cr_survival ds x * rsum (map (fun d => density d x / sf d x) ds)) with (0 - - (cr_sf_at ds x * rsum (map (fun d => DistProofs2.pdf_real d x / sf d x) ds))).
    + exact (is_derive_minus (K := R_AbsRing) (V := R_NormedModule) (fun _ => 1) (cr_sf_at ds) x 0 _ (is_derive_const (K := R_AbsRing) (V := R_NormedModule) 1 x) (cr_sf_derive ds x V I)).
    + change (fun d => DistProofs2.pdf_real d x / sf d x) with (fun d => density d x / sf d x). change (cr_sf_at ds x) with (cr_survival ds x). ring.
  - apply (is_derive_ext (mix_cdf_at ds ps)); [intros t; unfold mix_survival, mix_cdf_at; as_R; ring|]. exact (mix_cdf_derive x ds ps L V I).
Qed.
Print Assumptions C132_density.

(** The order in which the components are listed does not matter. *)
Theorem C132_order : (forall ds ds', Permutation ds ds' -> cr_statistics ds = cr_statistics ds') /\
  (forall ds ps ds' ps', length ps = length ds -> length ps' = length ds' -> Permutation (combine ds ps) (combine ds' ps') -> mix_statistics ds ps = mix_statistics ds' ps').
Proof. split; [exact cr_statistics_perm|exact mix_statistics_perm]. Qed.
Print Assumptions C132_order.

(** When the models can be made at all. *)
Lemma refused (A : Type) ds lo hi (f : dist -> list R -> result (list A)) below g : Forall valid ds -> range_of ds lo hi ->
  (forall d Z, f d Z = if array_ok d Z then Ok (map (g d) Z) else Err ValueError) -> (forall d, In d ds -> exists y, component below f (table_grid lo hi) d = Ok y) -> below_one ds hi.
Proof.
  intros V R Hf H a b Hd. destruct (H _ Hd) as [y E]. apply (component_inv below f g _ _ _ Hf) in E. apply array_ok_accepts in E. destruct E as [_ E]. apply E. apply grid_points.
  destruct million as (k & E2 & K). exists (S k). rewrite K. split; [lra|field].
Qed.
Theorem C132_constructs : forall ds ps lo hi, Forall valid ds -> length ps = length ds -> range_of ds lo hi ->
  ((exists s, cr_statistics ds = Ok s) <-> below_one ds hi) /\ ((exists s, mix_statistics ds ps = Ok s) <-> below_one ds hi) /\
  (forall e, cr_statistics ds = Err e -> e = ValueError) /\ (forall e, mix_statistics ds ps = Err e -> e = ValueError).
Proof.
  intros ds ps lo hi V L Rg.
  assert (forall e, cr_combine ds (table_grid lo hi) = Err e -> e = ValueError) as E1.
  { intros e. unfold cr_combine. destruct (comb_check ds _) as [u|e0] eqn:C; cbn [bind].
    2:{ intros H. unfold comb_check in C. destruct (table_grid lo hi); [congruence|]. destruct (_ && _); congruence. }
    destruct (accumulate Rmult _ ds _) as [sfs|e0] eqn:A; cbn [bind].
    2:{ intros H. assert (e0 = e) as -> by congruence. revert A. generalize (map (fun _ : R => 1) (table_grid lo hi)). clear. induction ds as [|d ds IH]; intros acc H; [discriminate|].
        cbn [accumulate] in H. destruct (component 1 SF (table_grid lo hi) d) as [y|e1] eqn:K; cbn [bind] in H; [now apply (IH _ H)|]. unfold component, SF in K. destruct (is_signed d), (array_ok d _); cbn [bind] in K; congruence. }
    destruct (accumulate eadd _ ds _) as [hfs|e0] eqn:A2; cbn [bind]; [discriminate|].
    intros H. assert (e0 = e) as -> by congruence. revert A2. generalize (map (fun _ : R => Fin 0) (table_grid lo hi)). clear. induction ds as [|d ds IH]; intros acc H; [discriminate|].
    cbn [accumulate] in H. destruct (component (Fin 0) HF (table_grid lo hi) d) as [y|e1] eqn:K; cbn [bind] in H; [now apply (IH _ H)|]. unfold component, HF in K. destruct (is_signed d), (array_ok d _); cbn [bind] in K; congruence. }
  assert (forall e, mix_combine ds ps (table_grid lo hi) = Err e -> e = ValueError) as E2.
  { intros e. unfold mix_combine. destruct (comb_check ds _) as [u|e0] eqn:C; cbn [bind].
    2:{ intros H. unfold comb_check in C. destruct (table_grid lo hi); [congruence|]. destruct (_ && _); congruence. }
    destruct (accumulate_weighted Rplus _ _ ds ps _) as [sfs|e0] eqn:A; cbn [bind].
    2:{ intros H. assert (e0 = e) as -> by congruence. revert A L. generalize (map (fun _ : R => 0) (table_grid lo hi)). clear. revert ps. induction ds as [|d ds IH]; intros [|p ps] acc H L; try discriminate.
        cbn [accumulate_weighted] in H. destruct (component 0 CDF (table_grid lo hi) d) as [y|e1] eqn:K; cbn [bind] in H; [now apply (IH _ _ H); simpl in L; lia|]. unfold component, CDF in K. destruct (is_signed d), (array_ok d _); cbn [bind] in K; congruence. }
    destruct (accumulate_weighted eadd _ _ ds ps _) as [hfs|e0] eqn:A2; cbn [bind]; [discriminate|].
    intros H. assert (e0 = e) as -> by congruence. revert A2 L. generalize (map (fun _ : R => Fin 0) (table_grid lo hi)). clear. revert ps. induction ds as [|d ds IH]; intros [|p ps] acc H L; try discriminate.
    cbn [accumulate_weighted] in H. destruct (component (Fin 0) PDF (table_grid lo hi) d) as [y|e1] eqn:K; cbn [bind] in H; [now apply (IH _ _ H); simpl in L; lia|]. unfold component, PDF in K. destruct (is_signed d), (array_ok d _); cbn [bind] in K; congruence. }
  assert (forall o, cr_combine ds (table_grid lo hi) = Ok o -> below_one ds hi) as B1.
  { intros o. unfold cr_combine. destruct (comb_check ds _) as [u|e0]; cbn [bind]; [|discriminate]. destruct (accumulate Rmult _ ds _) as [sfs|e0] eqn:A; cbn [bind]; [|discriminate]. intros _.
    apply (refused R ds lo hi SF 1 sf V Rg SF_form). intros d Hd. exact (accumulate_inv _ _ _ _ _ A d Hd). }
  assert (forall o, mix_combine ds ps (table_grid lo hi) = Ok o -> below_one ds hi) as B2.
  { intros o. unfold mix_combine. destruct (comb_check ds _) as [u|e0]; cbn [bind]; [|discriminate]. destruct (accumulate_weighted Rplus _ _ ds ps _) as [sfs|e0] eqn:A; cbn [bind]; [|discriminate]. intros _.
    apply (refused R ds lo hi CDF 0 cdf V Rg CDF_form). intros d Hd. exact (accumulate_weighted_inv _ _ _ _ _ _ _ A d Hd). }
  assert (forall X f p, X <> [] -> exists x, table_stat X (map f X) p = Ok x) as TS.
  { intros X f p HX. apply table_stat_some; [destruct X; [contradiction|discriminate]|apply map_length]. }
  assert (forall X f, X <> [] -> exists x, table_mode X (map f X) = Ok x) as TM.
  { intros X f HX. apply table_mode_some; [destruct X; [contradiction|discriminate]|apply map_length]. }
  assert (below_one ds hi -> exists s, cr_statistics ds = Ok s) as S1.
  { intros B. unfold cr_statistics. rewrite (range_grid ds lo hi Rg). cbv zeta. rewrite (cr_tables ds lo hi V Rg B). cbn [bind cr_pdf cr_sf]. rewrite map_map.
    match goal with |- context [table_mode ?X (map ?f ?X)] => destruct (TM X f (grid_ne lo hi)) as [x1 ->] end. cbn [bind].
    do 3 (match goal with |- context [table_stat ?X (map ?f ?X) ?p] => let x := fresh in destruct (TS X f p (grid_ne lo hi)) as [x ->] end; cbn [bind]). eexists. reflexivity. }
  assert (below_one ds hi -> exists s, mix_statistics ds ps = Ok s) as S2.
  { intros B. unfold mix_statistics. rewrite (range_grid ds lo hi Rg). cbv zeta. rewrite (mix_tables ds ps lo hi V L Rg B). cbn [bind mix_pdf mix_cdf]. rewrite !map_map.
    match goal with |- context [table_mode ?X (map ?f ?X)] => destruct (TM X f (grid_ne lo hi)) as [x1 ->] end. cbn [bind].
    do 3 (match goal with |- context [table_stat ?X (map ?f ?X) ?p] => let x := fresh in destruct (TS X f p (grid_ne lo hi)) as [x ->] end; cbn [bind]). eexists. reflexivity. }
  assert (forall r : result cr_out, r = cr_combine ds (table_grid lo hi) -> (exists o, r = Ok o) \/ exists e, r = Err e) as D1 by (intros [o|e] _; eauto).
  assert (forall r : result mix_out, r = mix_combine ds ps (table_grid lo hi) -> (exists o, r = Ok o) \/ exists e, r = Err e) as D2 by (intros [o|e] _; eauto).
  split; [|split; [|split]].
  - split; [|exact S1]. intros [s H]. unfold cr_statistics in H. rewrite (range_grid ds lo hi Rg) in H. cbv zeta in H. destruct (D1 _ eq_refl) as [[o E]|[e E]]; [now apply (B1 o)|]. rewrite E in H. discriminate.
  - split; [|exact S2]. intros [s H]. unfold mix_statistics in H. rewrite (range_grid ds lo hi Rg) in H. cbv zeta in H. destruct (D2 _ eq_refl) as [[o E]|[e E]]; [now apply (B2 o)|]. rewrite E in H. discriminate.
  - intros e H. destruct (D1 _ eq_refl) as [[o E]|[e' E]].
    + destruct (S1 (B1 o E)) as [s K]. congruence.
    + unfold cr_statistics in H. rewrite (range_grid ds lo hi Rg) in H. cbv zeta in H. rewrite E in H. cbn [bind] in H. apply E1. congruence.
  - intros e H. destruct (D2 _ eq_refl) as [[o E]|[e' E]].
    + destruct (S2 (B2 o E)) as [s K]. congruence.
    + unfold mix_statistics in H. rewrite (range_grid ds lo hi Rg) in H. cbv zeta in H. rewrite E in H. cbn [bind] in H. apply E2. congruence.
Qed.
Print Assumptions C132_constructs.

(** ** C133 *)
(** Before the end of the grid the reported value is the integral of the survival function
    up to there, over its value at t, to within one step. *)
Theorem C133_competing_risks_partial : forall ds lo hi t, Forall valid ds -> range_of ds lo hi -> below_one ds hi -> t < hi ->
  exists I m, is_RInt (cr_survival ds) t hi I /\ cr_mrl ds t = Ok (Fin m) /\ 0 < m <= hi - t /\ Rabs (m - I / cr_survival ds t) <= (hi - t) / 999999 /\
    forall m', mean_residual (cr_survival ds) t m' -> m <= m' + (hi - t) / 999999.
Proof.
  intros ds lo hi t V R B L. destruct (cr_mrl_value ds lo hi t V R B (or_introl L)) as [P E].
  destruct (ex_RInt_continuous (cr_survival ds) t hi ltac:(intros; now apply cr_survival_cont)) as [I HI]. exists I. eexists. split; [exact HI|]. split; [exact E|].
  destruct (curve_bounds (cr_survival ds) t hi (fun x y => cr_survival_decr ds x y V) (fun x => cr_survival_nonneg ds x V) P I L HI) as [A C]. split; [exact A|]. split; [exact C|].
  intros m' Hm. pose proof (residual_part (cr_survival ds) t hi m' I (fun x => cr_survival_nonneg ds x V) L Hm HI) as K. apply Rabs_le_between in C. clear -C K. lra.
Qed.
Print Assumptions C133_competing_risks_partial.

Theorem C133_mixture_partial : forall ds ps lo hi t, Forall valid ds -> length ps = length ds -> Forall (fun p => 0 <= p) ps -> rsum ps = 1 ->
  range_of ds lo hi -> below_one ds hi -> t < hi ->
  exists I m, is_RInt (mix_survival ds ps) t hi I /\ mix_mrl ds ps t = Ok (Fin m) /\ 0 < m <= hi - t /\ Rabs (m - I / mix_survival ds ps t) <= (hi - t) / 999999 /\
    forall m', mean_residual (mix_survival ds ps) t m' -> m <= m' + (hi - t) / 999999.
Proof.
  intros ds ps lo hi t V Lp Pp Sp R B L. destruct (mix_mrl_value ds ps lo hi t V Lp Pp Sp R B (or_introl L)) as [P E].
  destruct (ex_RInt_continuous (mix_survival ds ps) t hi ltac:(intros; now apply mix_survival_cont)) as [I HI]. exists I. eexists. split; [exact HI|]. split; [exact E|].
  destruct (curve_bounds (mix_survival ds ps) t hi (fun x y => mix_survival_decr ds ps x y V Lp Pp) (fun x => mix_survival_nonneg ds ps x V Lp Pp Sp) P I L HI) as [A C]. split; [exact A|]. split; [exact C|].
  intros m' Hm. pose proof (residual_part (mix_survival ds ps) t hi m' I (fun x => mix_survival_nonneg ds ps x V Lp Pp Sp) L Hm HI) as K. apply Rabs_le_between in C. clear -C K. lra.
Qed.
Print Assumptions C133_mixture_partial.

(** After the end of the grid the reported value is negative, for every model without a Beta
    component; a mean residual life is always positive. *)
Theorem C133_refuted : forall ds ps lo hi t, Forall valid ds -> length ps = length ds -> Forall (fun p => 0 <= p) ps -> rsum ps = 1 ->
  range_of ds lo hi -> (forall a b, ~ In (Beta a b) ds) -> hi < t ->
  (exists m, cr_mrl ds t = Ok (Fin m) /\ m < 0 /\ forall m', mean_residual (cr_survival ds) t m' -> 0 < m') /\
  (exists m, mix_mrl ds ps t = Ok (Fin m) /\ m < 0 /\ forall m', mean_residual (mix_survival ds ps) t m' -> 0 < m').
Proof.
  intros ds ps lo hi t V Lp Pp Sp R NB L. assert (below_one ds hi) as B by (intros a b Hd; destruct (NB a b Hd)). split.
  - destruct (cr_mrl_value ds lo hi t V R B (or_intror NB)) as [P E]. eexists. split; [exact E|]. split; [apply curve_negative; try assumption; intros; now apply cr_survival_nonneg|].
    intros m'. apply residual_pos; intros; [now apply cr_survival_nonneg|now apply cr_survival_cont].
  - destruct (mix_mrl_value ds ps lo hi t V Lp Pp Sp R B (or_intror NB)) as [P E]. eexists. split; [exact E|]. split; [apply curve_negative; try assumption; intros; now apply mix_survival_nonneg|].
    intros m'. apply residual_pos; intros; [now apply mix_survival_nonneg|now apply mix_survival_cont].
Qed.
Print Assumptions C133_refuted.

Theorem C133_order : forall t, (forall ds ds', Permutation ds ds' -> cr_mrl ds t = cr_mrl ds' t) /\
  (forall ds ps ds' ps', length ps = length ds -> length ps' = length ds' -> Permutation (combine ds ps) (combine ds' ps') -> mix_mrl ds ps t = mix_mrl ds' ps' t).
Proof. intros t. split; intros; [now apply cr_mrl_perm|now apply mix_mrl_perm]. Qed.
Print Assumptions C133_order.

(** ** Cases *)
Lemma exp_case l1 l2 : 0 < l1 < l2 -> let ds := [Exponential l1 0; Exponential l2 0] in let lo := - ln (1 - / 10 ^ 10) * (1 / l2) + 0 in let hi := - ln (/ 10 ^ 10) * (1 / l1) + 0 in
  1 <= l2 -> l1 <= 1 -> Forall valid ds /\ range_of ds lo hi /\ below_one ds hi /\ finite_density ds lo hi /\ hazards_defined ds lo hi /\ 0 < lo /\ 1 < hi /\ forall a b, ~ In (Beta a b) ds.
Proof.
  intros Hl ds lo hi Hl2 Hl1. pose proof tiny_range as T. unfold tiny in T.
  assert (0 < - ln (1 - / 10 ^ 10)) as A by (assert (ln (1 - / 10 ^ 10) < 0) by (rewrite <- ln_1; apply ln_increasing; lra); lra).
  assert (1 < - ln (/ 10 ^ 10)) as B.
  { rewrite ln_Rinv, Ropp_involutive by lra. rewrite <- (ln_exp 1) at 1. apply ln_increasing; [apply exp_pos|]. apply Rle_lt_trans with 3; [apply exp_le_3|lra]. }
  assert (- ln (1 - / 10 ^ 10) < 1) as A1.
  { assert (-1 < ln (1 - / 10 ^ 10)); [|lra]. rewrite <- (ln_exp (-1)). apply ln_increasing; [apply exp_pos|]. replace (-1) with (- (1)) by lra. rewrite exp_Ropp.
    apply Rle_lt_trans with (1 / 2); [|lra]. apply Rmult_le_reg_r with (exp 1); [apply exp_pos|]. rewrite Rinv_l by (pose proof (exp_pos 1); lra). pose proof (exp_ineq1 1 ltac:(lra)). lra. }
  assert (0 < 1 / l2) as P2 by (apply Rdiv_lt_0_compat; lra). assert (1 / l2 <= 1) as Q2 by (unfold Rdiv; rewrite Rmult_1_l, <- Rinv_1; apply Rinv_le_contravar; lra).
  assert (1 / l2 < 1 / l1) as Q by (unfold Rdiv; rewrite !Rmult_1_l; apply Rinv_lt_contravar; [nra|lra]).
  assert (1 <= 1 / l1) as Q1 by (unfold Rdiv; rewrite Rmult_1_l, <- Rinv_1; apply Rinv_le_contravar; lra).
  assert (0 < lo) as L0 by (unfold lo; nra). assert (1 < hi) as H1 by (unfold hi; nra).
  assert (Forall valid ds) as V by (repeat constructor; simpl; lra). assert (forall a b, ~ In (Beta a b) ds) as NB by (intros a b [E|[E|[]]]; discriminate).
  split; [exact V|]. split; [|split; [intros a b K; destruct (NB a b K)|]].
  { split; [|split; [|split; [|split]]].
    - assert (1 - (1 - / 10 ^ 10) = / 10 ^ 10) as E1 by ring. intros d Hd. unfold lo, hi. clear L0 H1 lo hi.
      revert A B A1. destruct Hd as [<-|[<-|[]]]; cbn [ppf]; rewrite E1; generalize (- ln (1 - / 10 ^ 10)) (- ln (/ 10 ^ 10)); intros u v A B A1; split; nra.
    - exists (Exponential l2 0). split; [right; now left|reflexivity].
    - exists (Exponential l1 0). split; [now left|]. unfold hi. cbn [ppf]. do 4 f_equal. ring.
    - unfold lo. apply Rle_trans with 1; [nra|]. apply pow_R1_Rle. lra.
    - apply Rle_trans with 0; [|lra]. assert (0 < 10 ^ 100) by (apply pow_lt; lra). lra. }
  split; [|split; [|now split]].
  - intros d x [<-|[<-|[]]] _; cbn [pdf]; destruct (Rlt_dec _ _); eauto.
  - intros d x Hd _. rewrite Forall_forall in V. split; [apply sf_pos; [now apply V|]; destruct Hd as [<-|[<-|[]]]; exact I|]. right. left. destruct Hd as [<-|[<-|[]]]; reflexivity.
Qed.

Example C132_case : exists lo hi s, let ds := [Exponential 1 0; Exponential 2 0] in
  Forall valid ds /\ range_of ds lo hi /\ below_one ds hi /\ finite_density ds lo hi /\ hazards_defined ds lo hi /\ cr_statistics ds = Ok s.
Proof.
  destruct (exp_case 1 2 ltac:(lra) ltac:(lra) ltac:(lra)) as (V & Rg & B & F & Hz & _). do 2 eexists.
  destruct (C132_competing_risks _ _ _ V Rg B F Hz) as (s & E & _). exists s. cbv zeta. repeat (split; [eassumption|]). exact E.
Qed.

Example C133_case : exists lo hi, let ds := [Exponential 1 0; Exponential 2 0] in
  Forall valid ds /\ length [1 / 2; 1 / 2] = length ds /\ rsum [1 / 2; 1 / 2] = 1 /\ range_of ds lo hi /\ below_one ds hi /\ 1 < hi /\ (forall a b, ~ In (Beta a b) ds).
Proof.
  destruct (exp_case 1 2 ltac:(lra) ltac:(lra) ltac:(lra)) as (V & Rg & B & _ & _ & _ & H1 & NB). do 2 eexists. cbv zeta.
  split; [exact V|]. split; [reflexivity|]. split; [unfold rsum; simpl; lra|]. split; [exact Rg|]. split; [exact B|]. now split.
Qed.

(** A model made of one distribution without a mean reports a number for it. *)
Theorem C132_no_mean : exists s m, valid (Loglogistic 1 (1 / 2) 0) /\ cr_statistics [Loglogistic 1 (1 / 2) 0] = Ok s /\ st_mean s = Fin m /\
  forall c v, ~ expectation (Loglogistic 1 (1 / 2) 0) (fun x => (x - c) ^ 1) v.
Proof.
  assert (valid (Loglogistic 1 (1 / 2) 0)) as V by (simpl; lra). set (d := Loglogistic 1 (1 / 2) 0) in *. pose proof tiny_range as T. unfold tiny in T.
  assert (range_of [d] (ppf d (/ 10 ^ 10)) (ppf d (1 - / 10 ^ 10))) as Rg.
  { split; [intros d0 [<-|[]]; lra|]. split; [exists d; split; [now left|reflexivity]|]. split; [exists d; split; [now left|reflexivity]|]. unfold d; cbn [ppf]. split.
    - apply Rle_trans with 1; [|apply pow_R1_Rle; lra]. rewrite Rinv_inv, Rmult_1_r, Rplus_0_r. replace (- (1 / (1 / 2))) with (- (2)) by field. rewrite Rpower_Ropp.
      apply Rmult_le_reg_r with (Rpower (10 ^ 10 - 1) 2); [apply exp_pos|]. rewrite Rinv_l, Rmult_1_l by (apply Rgt_not_eq, exp_pos). apply Rle_trans with (Rpower (10 ^ 10 - 1) 0); [rewrite Rpower_O; lra|apply Rle_Rpower; lra].
    - apply Rle_trans with 0; [assert (0 < 10 ^ 100) by (apply pow_lt; lra); lra|]. rewrite Rmult_1_r, Rplus_0_r. left. apply exp_pos. }
  pose proof (range_lt [d] _ _ (Forall_cons _ V (Forall_nil _)) Rg) as L. set (lo := ppf d (/ 10 ^ 10)) in *. set (hi := ppf d (1 - / 10 ^ 10)) in *.
  assert (0 < lo) as P by (unfold lo, d; cbn [ppf]; rewrite Rmult_1_r, Rplus_0_r; apply exp_pos).
  assert (forall x, grid_point lo hi x -> 0 < x) as G.
  { intros x Hx. apply grid_points in Hx. apply (grid_in lo hi x) in Hx; lra. }
  destruct (C132_competing_risks [d] lo hi) as (s & E & (m & v & _ & _ & _ & D) & _).
  - now constructor.
  - exact Rg.
  - intros a b [K|[]]; discriminate.
  - intros d0 x [<-|[]] Hx. pose proof (G x Hx). unfold d; cbn [pdf]. replace ((x - 0) / 1) with x by field. destruct (Rlt_dec x 0); [lra|]. destruct (Req_EM_T x 0); [lra|]. eauto.
  - intros d0 x [<-|[]] Hx. split; [apply sf_pos; [assumption|exact I]|]. right. now left.
  - exists s, m. split; [exact V|]. split; [exact E|]. split.
    + destruct (Req_EM_T v 0); [congruence|]. destruct D as (sk & ku & _ & _ & D). congruence.
    + apply (proj1 (C120_missing d V)). unfold d, mean, reported. destruct (Rlt_dec 1 (1 / 2)); [lra|reflexivity].
Qed.
Print Assumptions C132_no_mean.
