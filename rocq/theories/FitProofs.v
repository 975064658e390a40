(** Proofs about the likelihood functions. *)
From Coquelicot Require Import Coquelicot.
From Coq Require Import List Arith Reals Lra Lia Bool ZArith Permutation.
From Verif Require Import Base RealFacts Gauss Improper Ext RList PoFProofs PoFProofs2 DistModel DistSpec DistIntegrals DistProofs DistProofs2 CombModel CombSpec CombProofs FitModel FitSpec.
Import ListNotations.
Open Scope R_scope.

Ltac nz := repeat split; first [lra | apply Rgt_not_eq, exp_pos | apply Rgt_not_eq, Rpower_gt_0 | idtac].
(** ** erf *)
Lemma erf_Phi z : erf z = 2 * Phi (z * sqrt 2) - 1.
Proof.
  unfold erf. rewrite Phi_gE. replace (z * sqrt 2 / sqrt 2) with z.
  2: { field. apply Rgt_not_eq, Rlt_gt, sqrt_lt_R0. lra. }
  replace (RInt (fun t => exp (- t ^ 2)) 0 z) with (gE z).
  2: { unfold gE. apply RInt_ext. intros t _. f_equal. ring. }
  field. apply Rgt_not_eq, Rlt_gt, sqrt_lt_R0, PI_RGT_0.
Qed.

(** ** One element arrays *)
Lemma one_ok d t : (is_signed d = true \/ 0 <= t) -> (is_beta d = false \/ t <= 1) -> array_ok d [t] = true.
Proof.
  intros H1 H2. apply array_ok_intro; [discriminate| |].
  - destruct H1 as [H|H]; [now left|right; intros x [<-|[]]; exact H].
  - destruct H2 as [H|H]; [now left|right; intros x [<-|[]]; exact H].
Qed.
Lemma single_values d t p s : array_ok d [t] = true -> pdf d t = Fin p -> sf d t = s ->
  density_at (Single d) t p /\ survival_at (Single d) t s.
Proof.
  intros H Hp Hs. unfold density_at, survival_at, fitted_PDF, fitted_SF, PDF, SF. rewrite H. cbn [map]. now rewrite Hp, Hs.
Qed.

Lemma ln_exp_pos x : 0 < x -> exp (ln x) = x. Proof. exact (exp_ln x). Qed.
Lemma exp_minus x y : exp (x - y) = exp x / exp y.
Proof. unfold Rminus. now rewrite exp_plus, exp_Ropp. Qed.
Lemma Rpower_minus_1 y b : 0 < y -> Rpower y (b - 1) = Rpower y b / y.
Proof. intros Hy. unfold Rminus. rewrite Rpower_plus, Rpower_Ropp, Rpower_1 by exact Hy. reflexivity. Qed.
Lemma Rpower_quot x a b : 0 < x -> 0 < a -> Rpower (x / a) b = Rpower x b / Rpower a b.
Proof.
  intros Hx Ha. unfold Rdiv. rewrite <- Rpower_mult_distr; [|assumption|now apply Rinv_0_lt_compat].
  f_equal. unfold Rpower. rewrite ln_Rinv by exact Ha. rewrite <- exp_Ropp. f_equal. ring.
Qed.

(** ** Each family *)
Lemma weibull_terms a b g t : 0 < a -> 0 < b -> g < t ->
  let y := (t - g) / a in
  0 < y /\ pdf (Weibull a b g) t = Fin (exp ((b - 1) * ln y + ln (b / a) - Rpower y b)) /\ sf (Weibull a b g) t = exp (- Rpower y b).
Proof.
  intros Ha Hb Ht y. assert (0 < y) as Hy by (apply Rdiv_lt_0_compat; lra). split; [exact Hy|]. split.
  - cbn [pdf]. fold y. destruct (Rlt_dec y 0); [lra|]. destruct (Req_EM_T y 0); [lra|]. f_equal.
    rewrite exp_minus, exp_plus, exp_ln by (apply Rdiv_lt_0_compat; lra). unfold Rpower at 1. rewrite exp_Ropp. field. nz.
  - cbn [sf]. fold y. now rewrite on_pos_pos by exact Hy.
Qed.

Lemma loglogistic_terms a b g t : 0 < a -> 0 < b -> g < t ->
  let y := (t - g) / a in
  pdf (Loglogistic a b g) t = Fin (exp (ln (b / a) - (b + 1) * ln y - 2 * ln (1 + Rpower y (- b)))) /\
  sf (Loglogistic a b g) t = exp (- ln (1 + Rpower y b)).
Proof.
  intros Ha Hb Ht y. assert (0 < y) as Hy by (apply Rdiv_lt_0_compat; lra).
  assert (0 < Rpower y b) as Hp by apply Rpower_gt_0. assert (0 < Rpower y (- b)) as Hq by apply Rpower_gt_0. split.
  - cbn [pdf]. fold y. destruct (Rlt_dec y 0); [lra|]. destruct (Req_EM_T y 0); [lra|]. f_equal.
    rewrite !exp_minus, exp_ln by (apply Rdiv_lt_0_compat; lra).
    replace (exp ((b + 1) * ln y)) with (Rpower y b * y).
    2: { change (exp ((b + 1) * ln y)) with (Rpower y (b + 1)). now rewrite Rpower_plus, Rpower_1 by exact Hy. }
    replace (2 * ln (1 + Rpower y (- b))) with (ln (1 + Rpower y (- b)) + ln (1 + Rpower y (- b))) by ring.
    rewrite exp_plus, exp_ln by lra. rewrite Rpower_minus_1 by exact Hy. rewrite (Rpower_Ropp y b) in *. field. repeat split; try lra.
  - cbn [sf]. fold y. rewrite on_pos_pos by exact Hy. rewrite exp_Ropp, exp_ln by lra. field. lra.
Qed.

Lemma gamma_terms a b g t : 0 < a -> 0 < b -> 0 <= g -> g < t ->
  pdf (Gamma a b g) t = Fin (exp (ln (Rpower (t - g) (b - 1)) - ln (Rpower a b * gamma_fun b) - (t - g) / a)) /\
  sf (Gamma a b g) t = exp (ln (gammaincc b ((t - g) / a))).
Proof.
  intros Ha Hb Hg Ht. set (y := (t - g) / a). assert (0 < y) as Hy by (apply Rdiv_lt_0_compat; lra).
  pose proof (gamma_fun_pos b Hb) as HG. assert (0 < Rpower a b) as Hp by apply Rpower_gt_0. split.
  - cbn [pdf]. fold y. destruct (Rlt_dec y 0); [lra|]. destruct (Req_EM_T y 0); [lra|]. f_equal. unfold gamma_kernel.
    rewrite !exp_minus, !exp_ln; [|now apply Rmult_lt_0_compat|apply Rpower_gt_0].
    unfold y at 1. rewrite Rpower_quot by lra. rewrite (Rpower_minus_1 a b Ha), exp_Ropp. field. nz.
  - cbn [sf]. fold y. rewrite on_pos_pos by exact Hy. fold (gammaincc b y). rewrite exp_ln; [reflexivity|].
    assert (0 < sf (Gamma a b g) t) as Hs.
    { apply inside_sf_pos; [cbn [valid]; lra|]. split; [exact Ht|exact I]. }
    cbn [sf] in Hs. fold y in Hs. rewrite on_pos_pos in Hs by exact Hy. exact Hs.
Qed.

Lemma beta_terms a b t : 0 < a -> 0 < b -> 0 < t < 1 ->
  pdf (DistModel.Beta a b) t = Fin (exp (ln (Rpower t (a - 1) * Rpower (1 - t) (b - 1)) - ln (beta_fun a b))) /\
  sf (DistModel.Beta a b) t = exp (ln (1 - betainc a b t)).
Proof.
  intros Ha Hb Ht. pose proof (beta_fun_pos a b Ha Hb) as HB. split.
  - cbn [pdf]. destruct (Rlt_dec t 0); [lra|]. destruct (Rlt_dec 1 t); [lra|]. destruct (Req_EM_T t 0); [lra|]. destruct (Req_EM_T t 1); [lra|].
    f_equal. rewrite exp_minus, !exp_ln; [reflexivity|exact HB|]. apply Rmult_lt_0_compat; apply Rpower_gt_0.
  - assert (valid (DistModel.Beta a b)) as Hv by (cbn [valid]; lra).
    assert (0 < sf (DistModel.Beta a b) t) as Hs. { apply inside_sf_pos; [exact Hv|]. split; cbn; lra. }
    assert (sf (DistModel.Beta a b) t = 1 - betainc a b t) as E.
    { rewrite (F_sf _ (all_facts _ Hv)). cbn [cdf]. rewrite on_pos_pos by lra. destruct (Rlt_dec t 1); [reflexivity|lra]. }
    rewrite E in Hs |- *. now rewrite exp_ln.
Qed.

Lemma phi_form z : phi z = exp (- (1 / 2) * z ^ 2) / sqrt (2 * PI).
Proof. unfold phi. f_equal. f_equal. field. Qed.

Lemma normal_terms m s t : 0 < s ->
  pdf (Normal m s) t = Fin (exp (ln (exp (- (1 / 2) * ((t - m) / s) ^ 2)) - ln (s * sqrt (2 * PI)))) /\
  sf (Normal m s) t = exp (ln ((1 + erf ((m - t) / s / sqrt 2)) / 2)).
Proof.
  intros Hs. pose proof sqrt_2PI_pos as HP. assert (0 < sqrt 2) as H2 by (apply sqrt_lt_R0; lra). split.
  - cbn [pdf]. f_equal. rewrite exp_minus, !exp_ln; [|now apply Rmult_lt_0_compat|apply exp_pos]. rewrite phi_form. field. lra.
  - cbn [sf]. rewrite erf_Phi. replace ((m - t) / s / sqrt 2 * sqrt 2) with (- ((t - m) / s)) by (field; lra).
    replace ((1 + (2 * Phi (- ((t - m) / s)) - 1)) / 2) with (Phi (- ((t - m) / s))) by field. rewrite exp_ln; [reflexivity|apply Phi_gt_0].
Qed.

Lemma lognormal_terms m s g t : 0 < s -> g < t ->
  pdf (Lognormal m s g) t = Fin (exp (ln (exp (- (1 / 2) * ((ln (t - g) - m) / s) ^ 2) / ((t - g) * s * sqrt (2 * PI))))) /\
  sf (Lognormal m s g) t = exp (ln (1 / 2 - 1 / 2 * erf ((ln (t - g) - m) / (s * sqrt 2)))).
Proof.
  intros Hs Ht. pose proof sqrt_2PI_pos as HP. assert (0 < sqrt 2) as H2 by (apply sqrt_lt_R0; lra). pose proof (exp_pos m) as Hm.
  set (y := (t - g) / exp m). assert (0 < y) as Hy by (apply Rdiv_lt_0_compat; lra).
  assert (ln y = ln (t - g) - m) as El. { unfold y. rewrite ln_div by lra. now rewrite ln_exp. }
  split.
  - cbn [pdf]. fold y. destruct (Rle_dec y 0); [lra|]. f_equal. rewrite exp_ln.
    2: { apply Rdiv_lt_0_compat; [apply exp_pos|]. repeat apply Rmult_lt_0_compat; lra. }
    rewrite phi_form, El. unfold y. field. repeat split; lra.
  - cbn [sf]. fold y. rewrite on_pos_pos by exact Hy. rewrite erf_Phi, El.
    replace ((ln (t - g) - m) / (s * sqrt 2) * sqrt 2) with ((ln (t - g) - m) / s) by (field; lra).
    replace (1 / 2 - 1 / 2 * (2 * Phi ((ln (t - g) - m) / s) - 1)) with (1 - Phi ((ln (t - g) - m) / s)) by field.
    rewrite Phi_sym, exp_ln; [reflexivity|]. pose proof (Phi_lt_1 ((ln (t - g) - m) / s)). lra.
Qed.

Lemma exponential_terms l g t : 0 < l -> g < t ->
  pdf (Exponential l g) t = Fin (exp (ln l - l * (t - g))) /\ sf (Exponential l g) t = exp (- (l * (t - g))).
Proof.
  intros Hl Ht. assert ((t - g) / (1 / l) = l * (t - g)) as E by (field; lra).
  assert (0 < l * (t - g)) as Hy by (apply Rmult_lt_0_compat; lra). split.
  - cbn [pdf]. rewrite E. destruct (Rlt_dec (l * (t - g)) 0); [lra|]. f_equal. rewrite exp_minus, exp_ln, exp_Ropp by exact Hl. field. nz.
  - cbn [sf]. rewrite E. now rewrite on_pos_pos by exact Hy.
Qed.

Lemma gumbel_terms m s t : 0 < s ->
  pdf (Gumbel m s) t = Fin (exp (- ln s + (t - m) / s - exp ((t - m) / s))) /\ sf (Gumbel m s) t = exp (- exp ((t - m) / s)).
Proof.
  intros Hs. split; [|reflexivity]. cbn [pdf]. f_equal. rewrite !exp_minus, exp_plus, exp_Ropp, exp_ln by exact Hs. field. nz.
Qed.

Lemma weibull_pdf0 a b t : 0 < a -> 0 < b -> 0 < t ->
  pdf (Weibull a b 0) t = Fin (b * Rpower t (b - 1) / Rpower a b * exp (- Rpower (t / a) b)) /\ sf (Weibull a b 0) t = exp (- Rpower (t / a) b).
Proof.
  intros Ha Hb Ht. destruct (weibull_terms a b 0 t Ha Hb Ht) as (Hy & Hp & Hs). rewrite Rminus_0_r in *. split; [|exact Hs].
  rewrite Hp. f_equal. rewrite exp_minus, exp_plus, exp_ln by (apply Rdiv_lt_0_compat; lra).
  change (exp ((b - 1) * ln (t / a))) with (Rpower (t / a) (b - 1)). rewrite (Rpower_quot t a (b - 1)), (Rpower_minus_1 a b), exp_Ropp by assumption.
  field. nz.
Qed.

Lemma one_nonneg t : 0 < t -> negatives_first [t].
Proof. intros Ht i j [H1 H2]. simpl in H2. lia. Qed.
Lemma weibulls_accept a1 b1 a2 b2 t : 0 < t -> Forall (fun d => component_accepts d [t]) [Weibull a1 b1 0; Weibull a2 b2 0].
Proof. intros Ht. repeat constructor; exists t; (split; [now left|lra]). Qed.

Lemma mixture_terms a1 b1 a2 b2 p t : 0 < a1 -> 0 < b1 -> 0 < a2 -> 0 < b2 -> 0 < p < 1 -> 0 < t ->
  density_at (Mixture [Weibull a1 b1 0; Weibull a2 b2 0] [p; 1 - p]) t (exp (logf (Weibull_Mixture a1 b1 a2 b2 p) t)) /\
  survival_at (Mixture [Weibull a1 b1 0; Weibull a2 b2 0] [p; 1 - p]) t (exp (logR (Weibull_Mixture a1 b1 a2 b2 p) t)).
Proof.
  intros Ha1 Hb1 Ha2 Hb2 Hp Ht. set (ds := [Weibull a1 b1 0; Weibull a2 b2 0]). set (ps := [p; 1 - p]).
  assert (Forall valid ds) as Hv by (repeat constructor; cbn [valid]; lra).
  assert (mix_proportions ds (Some ps) = Ok ps) as Emp.
  { unfold mix_proportions. destruct (Req_EM_T (rsum ps) 1) as [E|E]; [reflexivity|]. exfalso. apply E. unfold ps, rsum. simpl. ring. }
  pose proof (mix_combine_ok ds ps [t] ltac:(discriminate) eq_refl Hv (one_nonneg t Ht) (weibulls_accept _ _ _ _ t Ht)) as E.
  specialize (E ltac:(intros x [<-|[]] Hx; lra)).
  destruct (weibull_pdf0 a1 b1 t Ha1 Hb1 Ht) as [P1 S1], (weibull_pdf0 a2 b2 t Ha2 Hb2 Ht) as [P2 S2].
  assert (forall a b, 0 < a -> 0 < b -> 0 < b * Rpower t (b - 1) / Rpower a b * exp (- Rpower (t / a) b)) as Hpos.
  { intros a b Ha Hb. apply Rmult_lt_0_compat; [|apply exp_pos]. apply Rdiv_lt_0_compat; [|apply Rpower_gt_0]. apply Rmult_lt_0_compat; [lra|apply Rpower_gt_0]. }
  unfold density_at, survival_at, fitted_PDF, fitted_SF. rewrite Emp. cbn [bind]. rewrite E. cbn [bind mix_pdf mix_sf map]. split.
  - f_equal. f_equal. unfold mix_pdf_at, ds, ps. cbn [combine fold_left fst snd]. rewrite P1, P2. cbn [weight eadd]. f_equal. cbn [logf].
    specialize (Hpos a1 b1 Ha1 Hb1) as Q1. specialize (Hpos a2 b2 Ha2 Hb2) as Q2.
    assert (0 < p * (b1 * Rpower t (b1 - 1) / Rpower a1 b1 * exp (- Rpower (t / a1) b1))) by (apply Rmult_lt_0_compat; lra).
    assert (0 < (1 - p) * (b2 * Rpower t (b2 - 1) / Rpower a2 b2 * exp (- Rpower (t / a2) b2))) by (apply Rmult_lt_0_compat; lra).
    rewrite exp_ln by lra. ring.
  - f_equal. f_equal. unfold mix_cdf_at, ds, ps. cbn [map dot].
    assert (forall d, valid d -> cdf d t = 1 - sf d t) as Ec by (intros d Hd; rewrite (F_sf d (all_facts d Hd)); ring).
    rewrite !Ec by (cbn [valid]; lra). rewrite S1, S2. cbn [logR]. rewrite exp_ln; [ring|].
    pose proof (exp_pos (- Rpower (t / a1) b1)). pose proof (exp_pos (- Rpower (t / a2) b2)). nra.
Qed.

Lemma cr_terms a1 b1 a2 b2 t : 0 < a1 -> 0 < b1 -> 0 < a2 -> 0 < b2 -> 0 < t ->
  density_at (CompetingRisks [Weibull a1 b1 0; Weibull a2 b2 0]) t (exp (logf (Weibull_CR a1 b1 a2 b2) t)) /\
  survival_at (CompetingRisks [Weibull a1 b1 0; Weibull a2 b2 0]) t (exp (logR (Weibull_CR a1 b1 a2 b2) t)).
Proof.
  intros Ha1 Hb1 Ha2 Hb2 Ht. set (ds := [Weibull a1 b1 0; Weibull a2 b2 0]).
  assert (Forall valid ds) as Hv by (repeat constructor; cbn [valid]; lra).
  pose proof (cr_combine_ok ds [t] ltac:(discriminate) Hv (one_nonneg t Ht) (weibulls_accept _ _ _ _ t Ht)) as E.
  specialize (E ltac:(apply Forall_forall; intros d Hd; apply sorted_arg_safe; repeat constructor) ltac:(intros x [<-|[]] Hx; lra)).
  destruct (weibull_pdf0 a1 b1 t Ha1 Hb1 Ht) as [P1 S1], (weibull_pdf0 a2 b2 t Ha2 Hb2 Ht) as [P2 S2].
  assert (cr_sf_at ds t = exp (- Rpower (t / a1) b1 - Rpower (t / a2) b2)) as ES.
  { unfold cr_sf_at, ds. cbn [map rprod fold_right]. rewrite S1, S2. unfold Rminus. rewrite exp_plus. ring. }
  set (p := fun d => match d with Weibull a b _ => b * Rpower t (b - 1) / Rpower a b * exp (- Rpower (t / a) b) | _ => 0 end).
  assert (cr_hf_at ds t = Fin (b1 * Rpower (t / a1) b1 / t + b2 * Rpower (t / a2) b2 / t)) as EH.
  { rewrite (cr_hf_sum ds t p Hv).
    - unfold ds. cbn [map]. unfold rsum. cbn [fold_right p]. rewrite S1, S2. f_equal. rewrite !(Rpower_quot t) by assumption. rewrite !(Rpower_minus_1 t) by assumption.
      field. nz.
    - intros d [<-|[<-|[]]]; cbn [p]; (split; [|assumption]); unfold hazard_defined; (split; [rewrite ?S1, ?S2; apply exp_pos|]); right; left; reflexivity. }
  unfold density_at, survival_at, fitted_PDF, fitted_SF. rewrite E. cbn [bind cr_pdf cr_sf map]. rewrite ES, EH. cbn [emul nan_to_num logf logR]. split; [|reflexivity].
  f_equal. f_equal. f_equal.
  assert (0 < b1 * Rpower (t / a1) b1 / t) by (apply Rdiv_lt_0_compat; [apply Rmult_lt_0_compat; [lra|apply Rpower_gt_0]|lra]).
  assert (0 < b2 * Rpower (t / a2) b2 / t) by (apply Rdiv_lt_0_compat; [apply Rmult_lt_0_compat; [lra|apply Rpower_gt_0]|lra]).
  rewrite exp_ln.
  - replace (- Rpower (t / a2) b2 - Rpower (t / a1) b1) with (- Rpower (t / a1) b1 - Rpower (t / a2) b2) by ring. field. lra.
  - apply Rmult_lt_0_compat; [|apply exp_pos]. replace (- (b2 * Rpower (t / a2) b2) / t) with (- (b2 * Rpower (t / a2) b2 / t)) by (field; lra). lra.
Qed.

Lemma dszi_terms a b DS ZI ds zi t lf lr : 0 < a -> 0 < b -> 0 < t -> dszi_init DS ZI = Ok (ds, zi) -> zi < ds -> ds <= 1 ->
  lf = (b - 1) * ln (t / a) + ln (b / a) - Rpower (t / a) b + ln (ds - zi) ->
  lr = ln (1 - ((1 - exp (- Rpower (t / a) b)) * (ds - zi) + zi)) ->
  density_at (Dszi DS ZI (Weibull a b 0)) t (exp lf) /\ survival_at (Dszi DS ZI (Weibull a b 0)) t (exp lr).
Proof.
  intros Ha Hb Ht Hi Hz Hd -> ->. destruct (weibull_terms a b 0 t Ha Hb Ht) as (Hy & Hp & Hs). rewrite Rminus_0_r in *.
  assert (array_ok (Weibull a b 0) [t] = true) as Hok by (apply one_ok; [right; lra|now left]).
  unfold density_at, survival_at, fitted_PDF, fitted_SF. rewrite Hi. cbn [bind fst snd]. unfold dszi_SF, dszi_CDF, dszi_PDF, PDF, CDF. rewrite Hok. cbn [bind map].
  rewrite Hp. cbn [weight]. split.
  - f_equal. f_equal. f_equal. rewrite (exp_plus _ (ln (ds - zi))), exp_ln by lra. reflexivity.
  - f_equal. f_equal. assert (valid (Weibull a b 0)) as Hv by (cbn [valid]; lra).
    assert (cdf (Weibull a b 0) t = 1 - sf (Weibull a b 0) t) as Ec by (rewrite (F_sf _ (all_facts _ Hv)); ring).
    rewrite Ec, Hs. set (e := exp (- Rpower (t / a) b)). assert (0 < e) by apply exp_pos. rewrite exp_ln; [reflexivity|].
    nra.
Qed.

Lemma dszi_init_some ds zi : 0 <= zi -> zi < ds -> ds <= 1 -> dszi_init (Some ds) (Some zi) = Ok (ds, zi).
Proof.
  intros. unfold dszi_init. destruct (Rlt_dec ds zi); [lra|]. destruct (Rle_dec 1 zi); [lra|]. destruct (Rlt_dec zi 0); [lra|].
  destruct (Rlt_dec 1 ds); [lra|]. destruct (Rle_dec ds 0); [lra|]. reflexivity.
Qed.
Lemma dszi_init_ds ds : 0 < ds <= 1 -> dszi_init (Some ds) None = Ok (ds, 0).
Proof.
  intros. unfold dszi_init. destruct (Rlt_dec ds 0); [lra|]. destruct (Rle_dec 1 0); [lra|]. destruct (Rlt_dec 0 0); [lra|].
  destruct (Rlt_dec 1 ds); [lra|]. destruct (Rle_dec ds 0); [lra|]. reflexivity.
Qed.
Lemma dszi_init_zi zi : 0 <= zi < 1 -> dszi_init None (Some zi) = Ok (1, zi).
Proof.
  intros. unfold dszi_init. destruct (Rlt_dec 1 zi); [lra|]. destruct (Rle_dec 1 zi); [lra|]. destruct (Rlt_dec zi 0); [lra|].
  destruct (Rlt_dec 1 1); [lra|]. destruct (Rle_dec 1 0); [lra|]. reflexivity.
Qed.

Theorem likelihood_terms f t : params_ok f -> support f t ->
  density_at (distribution f) t (exp (logf f t)) /\ survival_at (distribution f) t (exp (logR f t)).
Proof.
  intros Hp Ht. destruct f; cbn [params_ok support distribution] in *.
  - destruct (weibull_terms a b 0 t) as (_ & P & S); try lra. rewrite Rminus_0_r in *. apply single_values; [apply one_ok; [right; lra|now left]|exact P|exact S].
  - destruct (weibull_terms a b g t) as (_ & P & S); try lra. apply single_values; [apply one_ok; [right; lra|now left]|exact P|exact S].
  - apply mixture_terms; tauto.
  - apply cr_terms; tauto.
  - apply (dszi_terms a b _ _ ds zi); try tauto; try reflexivity. apply dszi_init_some; tauto.
  - apply (dszi_terms a b _ _ ds 0); try tauto; try lra; [now apply dszi_init_ds|cbn [logf]; f_equal; f_equal; ring|cbn [logR]; f_equal; ring].
  - apply (dszi_terms a b _ _ 1 zi); try tauto; try lra; try reflexivity. apply dszi_init_zi; tauto.
  - destruct (exponential_terms l 0 t Hp Ht) as (P & S). rewrite Rminus_0_r in *. apply single_values; [apply one_ok; [right; lra|now left]|exact P|exact S].
  - destruct (exponential_terms l g t ltac:(tauto) Ht) as (P & S). apply single_values; [apply one_ok; [right; lra|now left]|exact P|exact S].
  - destruct (normal_terms m s t Hp) as (P & S). apply single_values; [apply one_ok; now left|exact P|exact S].
  - destruct (gumbel_terms m s t Hp) as (P & S). apply single_values; [apply one_ok; now left|exact P|exact S].
  - destruct (lognormal_terms m s 0 t Hp Ht) as (P & S). rewrite Rminus_0_r in *. apply single_values; [apply one_ok; [right; lra|now left]|exact P|exact S].
  - destruct (lognormal_terms m s g t ltac:(tauto) Ht) as (P & S). apply single_values; [apply one_ok; [right; lra|now left]|exact P|exact S].
  - destruct (gamma_terms a b 0 t) as (P & S); try lra. rewrite Rminus_0_r in *. apply single_values; [apply one_ok; [right; lra|now left]|exact P|exact S].
  - destruct (gamma_terms (exp m) b 0 t) as (P & S); try lra; [apply exp_pos|]. rewrite Rminus_0_r in *. apply single_values; [apply one_ok; [right; lra|now left]|exact P|exact S].
  - destruct (gamma_terms a b g t) as (P & S); try lra. apply single_values; [apply one_ok; [right; lra|now left]|exact P|exact S].
  - destruct (gamma_terms (exp m) b g t) as (P & S); try lra; [apply exp_pos|]. apply single_values; [apply one_ok; [right; lra|now left]|exact P|exact S].
  - destruct (beta_terms a b t) as (P & S); try tauto. apply single_values; [apply one_ok; right; lra|exact P|exact S].
  - destruct (loglogistic_terms a b 0 t) as (P & S); try lra. rewrite Rminus_0_r in *. apply single_values; [apply one_ok; [right; lra|now left]|exact P|exact S].
  - destruct (loglogistic_terms a b g t) as (P & S); try lra. apply single_values; [apply one_ok; [right; lra|now left]|exact P|exact S].
Qed.

(** ** The likelihood *)
Lemma exp_rsum_dens o g : forall T P, Forall2 (density_at o) T P -> (forall t, In t T -> density_at o t (exp (g t))) -> exp (rsum (map g T)) = rprod P.
Proof.
  induction 1 as [|t p T P H HT IH]; intros Hg; cbn [map rprod fold_right].
  - unfold rsum. cbn [fold_right]. apply exp_0.
  - rewrite rsum_cons, exp_plus, IH by (intros; apply Hg; now right). f_equal. specialize (Hg t (or_introl eq_refl)).
    unfold density_at in *. rewrite H in Hg. now injection Hg.
Qed.
Lemma exp_rsum_surv o g : forall T P, Forall2 (survival_at o) T P -> (forall t, In t T -> survival_at o t (exp (g t))) -> exp (rsum (map g T)) = rprod P.
Proof.
  induction 1 as [|t p T P H HT IH]; intros Hg; cbn [map rprod fold_right].
  - unfold rsum. cbn [fold_right]. apply exp_0.
  - rewrite rsum_cons, exp_plus, IH by (intros; apply Hg; now right). f_equal. specialize (Hg t (or_introl eq_refl)).
    unfold survival_at in *. rewrite H in Hg. now injection Hg.
Qed.

Lemma LL_likelihood f T_0 T_f T_rc P S : params_ok f -> (T_0 = [] \/ 0 < zero_mass f) -> Forall (support f) T_f -> Forall (support f) T_rc ->
  Forall2 (density_at (distribution f)) T_f P -> Forall2 (survival_at (distribution f)) T_rc S ->
  exp (- LL f T_0 T_f T_rc) = likelihood (zero_mass f) (length T_0) P S.
Proof.
  intros Hp H0 Hf Hc HP HS. unfold LL. rewrite Ropp_involutive, !exp_plus. unfold likelihood.
  rewrite (exp_rsum_dens _ _ _ _ HP) by (intros t Hin; apply likelihood_terms; [exact Hp|rewrite Forall_forall in Hf; now apply Hf]).
  rewrite (exp_rsum_surv _ _ _ _ HS) by (intros t Hin; apply likelihood_terms; [exact Hp|rewrite Forall_forall in Hc; now apply Hc]).
  f_equal. f_equal. destruct H0 as [->|H0].
  - cbn [length pow]. destruct f; cbn [log0]; try apply exp_0; destruct (Rlt_dec 0 zi); cbn [INR]; rewrite ?Rmult_0_r; apply exp_0.
  - destruct f; cbn [zero_mass log0] in *; try lra; destruct (Rlt_dec 0 zi); try contradiction; rewrite Rmult_comm; fold (Rpower zi (INR (length T_0))); now apply Rpower_pow.
Qed.

(** At ZI = 0 the objective ignores the failures at zero. *)
Lemma zero_mass_refuted a b ds zi T_0 T_f T_rc : params_ok (Weibull_DSZI a b ds zi) -> 0 < zi -> T_0 <> [] -> Forall (Rlt 0) T_f -> Forall (Rlt 0) T_rc ->
  LL (Weibull_DSZI a b ds 0) T_0 T_f T_rc < LL (Weibull_DSZI a b ds zi) T_0 T_f T_rc.
Proof.
  intros (Ha & Hb & _ & Hz & Hd) Hzi Hne Hf Hc. unfold LL. apply Ropp_lt_contravar.
  assert (log0 (Weibull_DSZI a b ds zi) (length T_0) < log0 (Weibull_DSZI a b ds 0) (length T_0)) as H0.
  { cbn [log0]. destruct (Rlt_dec 0 zi); [|contradiction]. destruct (Rlt_dec 0 0); [lra|].
    assert (ln zi < 0) by (rewrite <- ln_1; apply ln_increasing; lra).
    assert (0 < INR (length T_0)) by (destruct T_0; [contradiction|]; apply lt_0_INR; simpl; lia). nra. }
  assert (rsum (map (logf (Weibull_DSZI a b ds zi)) T_f) <= rsum (map (logf (Weibull_DSZI a b ds 0)) T_f)) as H1.
  { apply rsum_le. intros t Ht. cbn [logf]. assert (ln (ds - zi) <= ln (ds - 0)) by (left; apply ln_increasing; lra). lra. }
  assert (rsum (map (logR (Weibull_DSZI a b ds zi)) T_rc) <= rsum (map (logR (Weibull_DSZI a b ds 0)) T_rc)) as H2.
  { apply rsum_le. intros t Ht. cbn [logR]. set (e := exp (- Rpower (t / a) b)). assert (0 < e) by apply exp_pos.
    assert (0 < t) by (rewrite Forall_forall in Hc; now apply Hc). assert (0 < Rpower (t / a) b) by apply Rpower_gt_0.
    assert (e < 1) by (unfold e; rewrite <- exp_0; apply exp_increasing; lra).
    left. apply ln_increasing; nra. }
  lra.
Qed.

(** ** Order and grouping *)
Lemma LL_perm f T_0 T_f T_rc T_0' T_f' T_rc' : Permutation T_0 T_0' -> Permutation T_f T_f' -> Permutation T_rc T_rc' ->
  LL f T_0 T_f T_rc = LL f T_0' T_f' T_rc'.
Proof.
  intros H0 Hf Hc. unfold LL. rewrite (Permutation_length H0), (rsum_perm _ _ (Permutation_map (logf f) Hf)), (rsum_perm _ _ (Permutation_map (logR f) Hc)). reflexivity.
Qed.

Lemma rsum_repeat c n : rsum (repeat c n) = INR n * c.
Proof. induction n as [|n IH]; [unfold rsum; simpl; ring|]. cbn [repeat]. rewrite rsum_cons, IH, S_INR. ring. Qed.
Lemma map_rep {A B} (g : A -> B) x n : map g (repeat x n) = repeat (g x) n.
Proof. induction n; simpl; congruence. Qed.
Lemma grouped_sum g rows : rsum (zip Rmult (map g (map row_time rows)) (map (fun r => INR (row_qty r)) rows)) = rsum (map g (expand rows)).
Proof.
  induction rows as [|r rows IH]; [reflexivity|]. cbn [map zip]. rewrite rsum_cons, IH. unfold expand. cbn [flat_map]. rewrite map_app, rsum_app. f_equal.
  rewrite map_rep, rsum_repeat. ring.
Qed.
Lemma expand_length rows : length (expand rows) = list_sum (map row_qty rows).
Proof. induction rows as [|r rows IH]; [reflexivity|]. unfold expand in *. cbn [flat_map map list_sum]. rewrite app_length, repeat_length, IH. reflexivity. Qed.

Lemma df_LL_expanded a b df : df_LL a b df = LL (Weibull_2P a b) [] (df_failures df) (df_censored df) /\
  df_n df = (length (df_failures df) + length (df_censored df))%nat.
Proof.
  split.
  - unfold df_LL, grouped_LL, LL. rewrite !grouped_sum. cbn [log0 length]. unfold df_failures, df_censored. f_equal. ring.
  - unfold df_n, df_failures, df_censored. now rewrite !expand_length.
Qed.
