(** Lemmas on the structure of the likelihoods. *)
From Coquelicot Require Import Coquelicot.
From Coq Require Import List Arith Reals Lra Lia Bool.
From Verif Require Import Base RealFacts Gauss Improper Ext RList DistModel DistSpec DistIntegrals DistProofs CombModel CombSpec FitModel FitSpec FitProofs FitSpec2.
Import ListNotations.
Open Scope R_scope.

Lemma rp x y : 0 < Rpower x y. Proof. apply exp_pos. Qed.
Lemma sqrt2_ne : sqrt 2 <> 0. Proof. apply Rgt_not_eq, sqrt_lt_R0. lra. Qed.

(** ** Change of units *)
Section Units.
  Variable c : R.
  Hypothesis Hc : 0 < c.
  Lemma cancel t a : a <> 0 -> c * t / (c * a) = t / a.
  Proof. intros. field. lra. Qed.
  Lemma cancel_shift t g a : a <> 0 -> (c * t - c * g) / (c * a) = (t - g) / a.
  Proof. intros. field. lra. Qed.
  Lemma Rpower_cm x y : 0 < x -> Rpower (c * x) y = Rpower c y * Rpower x y.
  Proof. intros. symmetry. apply Rpower_mult_distr; assumption. Qed.
  Lemma ln_cm x : 0 < x -> ln (c * x) = ln c + ln x.
  Proof. intros. now apply ln_mult. Qed.
  Lemma ln_ratio b a : 0 < a -> 0 < b -> ln (b / (c * a)) = ln (b / a) - ln c.
  Proof.
    intros. replace (b / (c * a)) with (b / a * / c) by (field; lra). rewrite ln_mult, ln_Rinv; try apply Rinv_0_lt_compat; try lra.
    apply Rdiv_lt_0_compat; assumption.
  Qed.
  Lemma exp_mlnc m : exp (m + ln c) = c * exp m.
  Proof. rewrite exp_plus, exp_ln by exact Hc. ring. Qed.
  Lemma weib_kernel t a b : 0 < t -> 0 < a -> 0 < b ->
    b * Rpower (c * t) (b - 1) / Rpower (c * a) b = / c * (b * Rpower t (b - 1) / Rpower a b).
  Proof.
    intros Ht Ha Hb. rewrite !Rpower_cm, (Rpower_minus_1 c) by assumption. pose proof (rp c b). pose proof (rp a b). field.
    repeat split; lra.
  Qed.

  Lemma logR_rescaled f t : params_ok f -> has_scale f -> support f t -> logR (rescaled c f) (c * t) = logR f t.
  Proof.
    intros Hp Hs Ht. pose proof sqrt2_ne as H2. destruct f; cbn [params_ok has_scale support rescaled logR] in *;
      repeat match goal with H : _ /\ _ |- _ => destruct H end; try tauto; rewrite ?cancel, ?cancel_shift by lra; try reflexivity.
    - f_equal. field. lra.
    - f_equal. field. lra.
    - do 4 f_equal. rewrite ln_cm by assumption. field. split; [exact H2|lra].
    - do 4 f_equal. replace (c * t - c * g) with (c * (t - g)) by ring. rewrite ln_cm by lra. field. split; [exact H2|lra].
    - rewrite exp_mlnc, cancel; [reflexivity|]. apply Rgt_not_eq, exp_pos.
    - rewrite exp_mlnc, cancel_shift; [reflexivity|]. apply Rgt_not_eq, exp_pos.
  Qed.

  Lemma logf_rescaled f t : params_ok f -> has_scale f -> support f t -> logf (rescaled c f) (c * t) = logf f t - ln c.
  Proof.
    intros Hp Hs Ht. pose proof sqrt2_ne as H2. pose proof sqrt_2PI_pos as H3. assert (0 < / c) as Hi by now apply Rinv_0_lt_compat.
    destruct f; cbn [params_ok has_scale support rescaled logf] in *;
      repeat match goal with H : _ /\ _ |- _ => destruct H end; try tauto; rewrite ?cancel, ?cancel_shift by lra; rewrite ?ln_ratio by lra; try ring.
    - (* Mixture *) rewrite !weib_kernel by lra.
      set (A := b1 * Rpower t (b1 - 1) / Rpower a1 b1). set (B := b2 * Rpower t (b2 - 1) / Rpower a2 b2).
      assert (0 < A) as HA by (apply Rdiv_lt_0_compat; [apply Rmult_lt_0_compat; [lra|apply rp]|apply rp]).
      assert (0 < B) as HB by (apply Rdiv_lt_0_compat; [apply Rmult_lt_0_compat; [lra|apply rp]|apply rp]).
      set (E1 := exp _). set (E2 := exp _). assert (0 < E1) by apply exp_pos. assert (0 < E2) by apply exp_pos. clearbody A B E1 E2.
      replace (p * (/ c * A) * E1 + (1 - p) * (/ c * B) * E2) with (/ c * (p * A * E1 + (1 - p) * B * E2)) by ring.
      rewrite ln_mult, ln_Rinv; [ring|lra|lra|]. apply Rplus_lt_0_compat; repeat apply Rmult_lt_0_compat; lra.
    - (* CR *) set (E := exp _). assert (0 < E) by apply exp_pos. pose proof (rp (t / a1) b1). pose proof (rp (t / a2) b2).
      replace (- (- (b2 * Rpower (t / a2) b2) / (c * t) - b1 * Rpower (t / a1) b1 / (c * t)) * E)
        with (/ c * (- (- (b2 * Rpower (t / a2) b2) / t - b1 * Rpower (t / a1) b1 / t) * E)) by (field; lra).
      rewrite ln_mult, ln_Rinv; [ring|lra|lra|].
      replace (- (- (b2 * Rpower (t / a2) b2) / t - b1 * Rpower (t / a1) b1 / t) * E)
        with ((b2 * Rpower (t / a2) b2 + b1 * Rpower (t / a1) b1) * / t * E) by (field; lra).
      repeat apply Rmult_lt_0_compat; try lra; [apply Rplus_lt_0_compat; apply Rmult_lt_0_compat; lra|now apply Rinv_0_lt_compat].
    - (* Exponential *) replace (l / c) with (l * / c) by reflexivity. rewrite ln_mult, ln_Rinv by lra. field. lra.
    - replace (l / c) with (l * / c) by reflexivity. rewrite ln_mult, ln_Rinv by lra. field. lra.
    - (* Normal *) rewrite !ln_exp. replace (c * s * sqrt (2 * PI)) with (c * (s * sqrt (2 * PI))) by ring.
      rewrite ln_cm by (apply Rmult_lt_0_compat; lra). ring.
    - (* Gumbel *) rewrite ln_cm by lra. ring.
    - (* Lognormal *) rewrite ln_cm by lra. replace (ln c + ln t - (m + ln c)) with (ln t - m) by ring. set (E := exp _). assert (0 < E) by apply exp_pos.
      replace (c * t * s * sqrt (2 * PI)) with (c * (t * s * sqrt (2 * PI))) by ring.
      assert (0 < t * s * sqrt (2 * PI)) by (repeat apply Rmult_lt_0_compat; lra). rewrite ln_ratio by assumption. reflexivity.
    - replace (c * t - c * g) with (c * (t - g)) by ring. rewrite ln_cm by lra. replace (ln c + ln (t - g) - (m + ln c)) with (ln (t - g) - m) by ring.
      set (E := exp _). assert (0 < E) by apply exp_pos.
      replace (c * (t - g) * s * sqrt (2 * PI)) with (c * ((t - g) * s * sqrt (2 * PI))) by ring.
      assert (0 < (t - g) * s * sqrt (2 * PI)) by (repeat apply Rmult_lt_0_compat; lra). rewrite ln_ratio by assumption. reflexivity.
    - (* Gamma *) pose proof (gamma_fun_pos b ltac:(lra)). rewrite !ln_mult, !ln_Rpower, !ln_cm; try apply rp; try assumption; try lra.
    - pose proof (gamma_fun_pos b ltac:(lra)). rewrite exp_mlnc. pose proof (exp_pos m). rewrite cancel by lra.
      rewrite !ln_mult, !ln_Rpower, !ln_cm; try apply rp; try assumption; try lra.
    - pose proof (gamma_fun_pos b ltac:(lra)). replace (c * t - c * g) with (c * (t - g)) by ring.
      rewrite !ln_mult, !ln_Rpower, !ln_cm; try apply rp; try assumption; try lra.
    - pose proof (gamma_fun_pos b ltac:(lra)). rewrite exp_mlnc. pose proof (exp_pos m). rewrite cancel_shift by lra. replace (c * t - c * g) with (c * (t - g)) by ring.
      rewrite !ln_mult, !ln_Rpower, !ln_cm; try apply rp; try assumption; try lra.
  Qed.

  Lemma LL_rescaled f T_0 T_f T_rc : params_ok f -> has_scale f -> Forall (support f) T_f -> Forall (support f) T_rc ->
    LL (rescaled c f) (map (Rmult c) T_0) (map (Rmult c) T_f) (map (Rmult c) T_rc) = LL f T_0 T_f T_rc + INR (length T_f) * ln c.
  Proof.
    intros Hp Hs Hf Hr. unfold LL. rewrite !map_map, map_length.
    assert (log0 (rescaled c f) (length T_0) = log0 f (length T_0)) as -> by (destruct f; reflexivity).
    assert (rsum (map (fun x => logf (rescaled c f) (c * x)) T_f) = rsum (map (logf f) T_f) - INR (length T_f) * ln c) as ->.
    { clear Hr. induction Hf as [|t T Ht HT IH]; [cbn; ring|]. cbn [map]. rewrite !rsum_cons, IH, logf_rescaled by assumption. cbn [length]. rewrite S_INR. ring. }
    assert (rsum (map (fun x => logR (rescaled c f) (c * x)) T_rc) = rsum (map (logR f) T_rc)) as ->.
    { f_equal. apply map_ext_in. intros t Ht. apply logR_rescaled; try assumption. now apply (proj1 (Forall_forall _ _) Hr). }
    ring.
  Qed.
End Units.

Lemma rescaled_ok c f : 0 < c -> params_ok f -> params_ok (rescaled c f).
Proof.
  intros Hc Hp. assert (forall x, 0 < x -> 0 < c * x) as M by (intros; now apply Rmult_lt_0_compat).
  assert (forall x, 0 <= x -> 0 <= c * x) as M' by (intros; apply Rmult_le_pos; lra).
  assert (forall x, 0 < x -> 0 < x / c) as D by (intros; now apply Rdiv_lt_0_compat).
  destruct f; cbn [params_ok rescaled] in *; repeat match goal with H : _ /\ _ |- _ => destruct H end; repeat split; auto.
Qed.
Lemma rescaled_support c f t : 0 < c -> has_scale f -> (support (rescaled c f) (c * t) <-> support f t).
Proof.
  intros Hc Hs. assert (forall g, c * g < c * t <-> g < t) as L.
  { intros g. split; [apply Rmult_lt_reg_l, Hc|apply Rmult_lt_compat_l, Hc]. }
  destruct f; cbn [has_scale support rescaled] in *; try tauto; try apply L; specialize (L 0); rewrite Rmult_0_r in L; exact L.
Qed.
Lemma rescaled_model c f : same_model f (rescaled c f).
Proof. destruct f; exact I. Qed.
Lemma rescaled_back c f : 0 < c -> rescaled (/ c) (rescaled c f) = f.
Proof.
  intros Hc. pose proof (ln_Rinv c Hc) as E. destruct f; cbn [rescaled]; rewrite ?E; f_equal; try (field; lra); ring.
Qed.
Lemma same_model_trans f g h : same_model f g -> same_model g h -> same_model f h.
Proof. destruct f, g; cbn; try tauto; destruct h; cbn; tauto. Qed.
Lemma same_model_sym f g : same_model f g -> same_model g f.
Proof. destruct f, g; cbn; tauto. Qed.
Lemma same_model_scale f g : same_model f g -> has_scale f -> has_scale g.
Proof. destruct f, g; cbn; tauto. Qed.
Lemma rescaled_supports c f T : 0 < c -> has_scale f -> Forall (support f) T <-> Forall (support (rescaled c f)) (map (Rmult c) T).
Proof.
  intros Hc Hs. rewrite !Forall_forall. split.
  - intros H t Ht. apply in_map_iff in Ht as (u & <- & Hu). now apply rescaled_support, H.
  - intros H t Ht. apply (rescaled_support c f t Hc Hs), H. now apply (in_map (Rmult c)).
Qed.
Lemma rescaled_allowed c f T_f T_rc : 0 < c -> has_scale f -> allowed f T_f T_rc -> allowed (rescaled c f) (map (Rmult c) T_f) (map (Rmult c) T_rc).
Proof.
  intros Hc Hs (Hp & Hf & Hr). split; [now apply rescaled_ok|]. split; now apply (rescaled_supports c f _ Hc Hs).
Qed.
Lemma map_back c T : 0 < c -> map (Rmult (/ c)) (map (Rmult c) T) = T.
Proof. intros Hc. rewrite map_map. rewrite <- (map_id T) at 2. apply map_ext. intros. field. lra. Qed.
Lemma best_rescaled c f T_0 T_f T_rc : 0 < c -> has_scale f -> best_fit f T_0 T_f T_rc ->
  best_fit (rescaled c f) (map (Rmult c) T_0) (map (Rmult c) T_f) (map (Rmult c) T_rc).
Proof.
  intros Hc Hs ((Hp & Hf & Hr) & Hb). split; [apply rescaled_allowed; try assumption; now repeat split|].
  intros f' Hm Ha. assert (same_model f f') as Hm' by (eapply same_model_trans; [apply rescaled_model|exact Hm]).
  assert (0 < / c) as Hi by now apply Rinv_0_lt_compat. assert (has_scale f') as Hs' by exact (same_model_scale f f' Hm' Hs).
  pose proof (rescaled_allowed (/ c) f' _ _ Hi Hs' Ha) as Ha'. rewrite !map_back in Ha' by exact Hc.
  assert (same_model f (rescaled (/ c) f')) as Hm'' by (eapply same_model_trans; [exact Hm'|apply rescaled_model]).
  specialize (Hb _ Hm'' Ha'). rewrite (LL_rescaled c Hc f) by assumption.
  destruct Ha as (Hp' & Hf' & Hr'). pose proof (LL_rescaled (/ c) Hi f' (map (Rmult c) T_0) (map (Rmult c) T_f) (map (Rmult c) T_rc) Hp' Hs' Hf' Hr') as E.
  rewrite !map_back in E by exact Hc. rewrite map_length, ln_Rinv in E by exact Hc. lra.
Qed.

(** ** Logarithms of times, shifted times *)
Definition shift_of (f : fitter) : fitter * R :=
  match f with
  | Weibull_3P a b g => (Weibull_2P a b, g) | Exponential_2P l g => (Exponential_1P l, g) | Lognormal_3P m s g => (Lognormal_2P m s, g)
  | Gamma_3P a b g => (Gamma_2P a b, g) | Gamma_3P_mbg m b g => (Gamma_2P_mb m b, g) | Loglogistic_3P a b g => (Loglogistic_2P a b, g)
  | _ => (f, 0)
  end.
Lemma LL_shifted f T_0 T_f T_rc : LL f T_0 T_f T_rc = LL (fst (shift_of f)) T_0 (map (fun t => t - snd (shift_of f)) T_f) (map (fun t => t - snd (shift_of f)) T_rc).
Proof.
  unfold LL. rewrite !map_map. assert (log0 f (length T_0) = log0 (fst (shift_of f)) (length T_0)) as -> by (destruct f; reflexivity).
  f_equal. f_equal; [f_equal|]; f_equal; apply map_ext; intros t; destruct f; cbn [shift_of fst snd logf logR]; rewrite ?Rminus_0_r; reflexivity.
Qed.

Lemma logf_log_normal m s t : 0 < s -> 0 < t -> logf (Lognormal_2P m s) t = logf (Normal_2P m s) (ln t) - ln t.
Proof.
  intros Hs Ht. cbn [logf]. pose proof sqrt_2PI_pos. assert (0 < s * sqrt (2 * PI)) by (apply Rmult_lt_0_compat; lra).
  set (E := exp _). assert (0 < E) by apply exp_pos. replace (E / (t * s * sqrt (2 * PI))) with (E * (/ (s * sqrt (2 * PI)) * / t)) by (field; split; lra).
  rewrite !ln_mult, !ln_Rinv; try apply Rmult_lt_0_compat; try apply Rinv_0_lt_compat; try lra. unfold Rminus. rewrite ln_mult by lra. ring.
Qed.
Lemma logR_log_normal m s t : 0 < s -> 0 < t -> logR (Lognormal_2P m s) t = logR (Normal_2P m s) (ln t).
Proof.
  intros Hs Ht. cbn [logR]. rewrite !erf_Phi. pose proof sqrt2_ne as H2.
  replace ((ln t - m) / (s * sqrt 2) * sqrt 2) with ((ln t - m) / s) by (field; split; [exact H2|lra]).
  replace ((m - ln t) / s / sqrt 2 * sqrt 2) with (- ((ln t - m) / s)) by (field; split; first [exact H2|lra]).
  rewrite Phi_sym. f_equal. field.
Qed.
Lemma logf_log_weibull a b t : 0 < a -> 0 < b -> 0 < t -> logf (Weibull_2P a b) t = logf (Gumbel_2P (ln a) (1 / b)) (ln t) - ln t.
Proof.
  intros Ha Hb Ht. cbn [logf]. unfold Rpower, Rdiv. rewrite Rmult_1_l, !ln_mult, !ln_Rinv; try apply Rinv_0_lt_compat; try lra.
  rewrite !Rinv_inv. replace ((ln t - ln a) * b) with (b * (ln t + - ln a)) by ring. ring.
Qed.
Lemma logR_log_weibull a b t : 0 < a -> 0 < b -> 0 < t -> logR (Weibull_2P a b) t = logR (Gumbel_2P (ln a) (1 / b)) (ln t).
Proof.
  intros Ha Hb Ht. cbn [logR]. unfold Rpower, Rdiv. rewrite Rmult_1_l, !ln_mult, !ln_Rinv; try apply Rinv_0_lt_compat; try lra.
  rewrite !Rinv_inv. replace ((ln t - ln a) * b) with (b * (ln t + - ln a)) by ring. ring.
Qed.
Lemma LL_through (f g : fitter) (k h : R -> R) T_0 T_f T_rc : log0 f (length T_0) = log0 g (length (map h T_0)) ->
  (forall t, In t T_f -> logf f t = logf g (h t) - k t) -> (forall t, In t T_rc -> logR f t = logR g (h t)) ->
  LL f T_0 T_f T_rc = LL g (map h T_0) (map h T_f) (map h T_rc) + rsum (map k T_f).
Proof.
  intros H0 Hf Hr. unfold LL. rewrite H0, !map_map.
  assert (rsum (map (logf f) T_f) = rsum (map (fun x => logf g (h x)) T_f) - rsum (map k T_f)) as ->.
  { clear Hr. induction T_f as [|t T IH]; [cbn; ring|]. cbn [map]. rewrite !rsum_cons, IH, Hf by auto using in_eq, in_cons. ring. }
  assert (rsum (map (logR f) T_rc) = rsum (map (fun x => logR g (h x)) T_rc)) as -> by (f_equal; apply map_ext_in; exact Hr).
  ring.
Qed.

(** ** Nested models *)

Lemma exp_tail x : int_over (gamma_kernel 1) x p_infty = exp (- x).
Proof.
  assert (forall y, gamma_kernel 1 y = exp (- y)) as K.
  { intros y. unfold gamma_kernel, Rpower. replace ((1 - 1) * ln y) with 0 by ring. rewrite exp_0. ring. }
  assert (forall y, continuous (gamma_kernel 1) y) as C.
  { intros y. apply (continuous_ext (fun y => exp (- y))); [intros; now rewrite K|apply exp_opp_cont]. }
  assert (forall a b, RInt (gamma_kernel 1) a b = exp (- a) - exp (- b)) as E.
  { intros a b. apply is_RInt_unique. replace (exp (- a) - exp (- b)) with (minus (- exp (- b)) (- exp (- a))) by (unfold minus, plus, opp; simpl; ring).
    apply (is_RInt_derive (fun y => - exp (- y)) (gamma_kernel 1)); [|intros; apply C].
    intros y _. rewrite K. auto_derive; [exact I|ring]. }
  destruct (io_spec (gamma_kernel 1) x p_infty (exp (- x))) as [H1 H2].
  - intros y _ _. rewrite K. apply exp_pos.
  - intros y _ _. apply C.
  - intros a b Ha Hab _. rewrite E. pose proof (exp_pos (- b)). assert (exp (- a) < exp (- x)) by (apply exp_increasing; lra). lra.
  - exact I.
  - apply Rle_antisym.
    + apply H2. intros a b Ha Hab _. rewrite E. pose proof (exp_pos (- b)). assert (exp (- a) < exp (- x)) by (apply exp_increasing; lra). lra.
    + apply Rnot_lt_le. intros L. set (v := int_over (gamma_kernel 1) x p_infty) in *. clearbody v.
      pose proof (exp_pos (- x)). set (d := (exp (- x) - v) / 2). assert (0 < d) by (unfold d; lra).
      destruct (Rlt_dec 0 (exp (- x) - d)) as [P|P].
      * set (a := - ln (exp (- x) - d)). assert (x < a) as Ha.
        { unfold a. assert (ln (exp (- x) - d) < ln (exp (- x))) as Q by (apply ln_increasing; lra). rewrite ln_exp in Q. lra. }
        assert (exp (- a) = exp (- x) - d) as Ea by (unfold a; rewrite Ropp_involutive, exp_ln by exact P; reflexivity).
        set (d' := Rmin d (exp (- a)) / 2). assert (0 < d') as Pd.
        { unfold d'. pose proof (exp_pos (- a)). unfold Rmin. destruct Rle_dec; lra. }
        assert (d' <= d / 2 /\ d' <= exp (- a) / 2) as [D1 D2] by (unfold d'; split; [pose proof (Rmin_l d (exp (- a)))|pose proof (Rmin_r d (exp (- a)))]; lra).
        set (b := - ln d'). assert (exp (- b) = d') as Eb by (unfold b; rewrite Ropp_involutive, exp_ln by exact Pd; reflexivity).
        assert (a <= b) as Hab.
        { apply Rnot_lt_le. intros Q. assert (exp (- a) < exp (- b)) by (apply exp_increasing; lra). lra. }
        specialize (H1 a b Ha Hab I). rewrite E, Ea, Eb in H1. unfold d in *. lra.
      * specialize (H1 (x + 1) (x + 1) ltac:(lra) ltac:(lra) I). rewrite E in H1. unfold d in *. lra.
Qed.
Lemma gamma_fun_1 : gamma_fun 1 = 1.
Proof. unfold gamma_fun. rewrite exp_tail. replace (- 0) with 0 by ring. apply exp_0. Qed.
Lemma gammaincc_1 x : gammaincc 1 x = exp (- x).
Proof. unfold gammaincc. rewrite exp_tail, gamma_fun_1. field. Qed.

Lemma weibull_exponential l t : 0 < l -> 0 < t -> logf (Weibull_2P (1 / l) 1) t = logf (Exponential_1P l) t /\ logR (Weibull_2P (1 / l) 1) t = logR (Exponential_1P l) t.
Proof.
  intros Hl Ht. assert (t / (1 / l) = l * t) as E by (field; lra). assert (1 / (1 / l) = l) as E' by (field; lra). assert (0 < l * t) by now apply Rmult_lt_0_compat.
  cbn [logf logR]. rewrite E, E', Rpower_1 by assumption. split; ring.
Qed.
Lemma gamma_exponential l t : 0 < l -> 0 < t -> logf (Gamma_2P (1 / l) 1) t = logf (Exponential_1P l) t /\ logR (Gamma_2P (1 / l) 1) t = logR (Exponential_1P l) t.
Proof.
  intros Hl Ht. assert (t / (1 / l) = l * t) as E by (field; lra). assert (0 < 1 / l) by (apply Rdiv_lt_0_compat; lra).
  cbn [logf logR]. rewrite E, gammaincc_1, ln_exp, gamma_fun_1, Rmult_1_r, Rpower_1 by assumption. replace (1 - 1) with 0 by ring. rewrite Rpower_O by assumption.
  split; [|ring]. unfold Rdiv. rewrite Rmult_1_l, ln_Rinv, ln_1 by assumption. ring.
Qed.
Lemma mixture_equal a b p t : 0 < a -> 0 < b -> 0 < t -> logf (Weibull_Mixture a b a b p) t = logf (Weibull_2P a b) t /\ logR (Weibull_Mixture a b a b p) t = logR (Weibull_2P a b) t.
Proof.
  intros Ha Hb Ht. cbn [logf logR]. split.
  - replace (_ + _) with (b * Rpower t (b - 1) / Rpower a b * exp (- Rpower (t / a) b)) by ring.
    assert (0 < b * Rpower t (b - 1) / Rpower a b) by (apply Rdiv_lt_0_compat; [apply Rmult_lt_0_compat|]; try lra; apply rp).
    rewrite ln_mult, ln_exp by (try apply exp_pos; assumption). assert (0 < Rpower t (b - 1)) by apply rp. assert (0 < Rpower a b) by apply rp.
    unfold Rdiv. rewrite !ln_mult, !ln_Rinv by (try apply Rinv_0_lt_compat; try apply Rmult_lt_0_compat; lra). unfold Rpower. rewrite !ln_exp.
    rewrite ln_mult, ln_Rinv by (try apply Rinv_0_lt_compat; lra). ring.
  - replace (_ + _) with (exp (- Rpower (t / a) b)) by ring. apply ln_exp.
Qed.
Lemma CR_equal a b t : 0 < a -> 0 < b -> 0 < t ->
  logf (Weibull_CR (a * Rpower 2 (1 / b)) b (a * Rpower 2 (1 / b)) b) t = logf (Weibull_2P a b) t /\
  logR (Weibull_CR (a * Rpower 2 (1 / b)) b (a * Rpower 2 (1 / b)) b) t = logR (Weibull_2P a b) t.
Proof.
  intros Ha Hb Ht. assert (0 < Rpower 2 (1 / b)) as Pp by apply rp.
  assert (Rpower (t / (a * Rpower 2 (1 / b))) b = Rpower (t / a) b / 2) as E.
  { unfold Rpower at 1. unfold Rdiv at 1. rewrite ln_mult, ln_Rinv, ln_mult by (try apply Rinv_0_lt_compat; try apply Rmult_lt_0_compat; lra).
    unfold Rpower at 1. rewrite ln_exp. replace (b * (ln t + - (ln a + 1 / b * ln 2))) with (b * ln (t / a) + - ln 2).
    - rewrite exp_plus, exp_Ropp, exp_ln by lra. reflexivity.
    - unfold Rdiv at 1. rewrite ln_mult, ln_Rinv by (try apply Rinv_0_lt_compat; lra). field. lra. }
  cbn [logf logR]. rewrite E. assert (0 < Rpower (t / a) b) as P by apply rp. split; [|field].
  replace (- (- (b * (Rpower (t / a) b / 2)) / t - b * (Rpower (t / a) b / 2) / t)) with (b * Rpower (t / a) b / t) by (field; lra).
  replace (- (Rpower (t / a) b / 2) - Rpower (t / a) b / 2) with (- Rpower (t / a) b) by field.
  assert (0 < t / a) by now apply Rdiv_lt_0_compat.
  rewrite ln_mult, ln_exp by (first [apply exp_pos|apply Rdiv_lt_0_compat; [apply Rmult_lt_0_compat|]; lra]).
  replace (b * Rpower (t / a) b / t) with (Rpower (t / a) b * / (t / a) * (b / a)) by (field; lra).
  rewrite !ln_mult, ln_Rinv by (try apply Rinv_0_lt_compat; try apply Rmult_lt_0_compat; try apply Rdiv_lt_0_compat; try apply Rinv_0_lt_compat; lra).
  unfold Rpower at 1. rewrite ln_exp. ring.
Qed.
