(** Consequences for all distributions: distribution functions, inverses, medians, modes. *)
From Coquelicot Require Import Coquelicot.
From Coq Require Import List Arith Reals Lra Lia Bool.
From Verif Require Import Base RealFacts Gauss Improper Ext DistModel DistSpec DistIntegrals DistProofs PoFProofs PoFProofs2 PoFProofs3.
Import ListNotations.
Open Scope R_scope.

Section OneDist.
  Variable d : dist.
  Hypothesis Hv : valid d.
  Let HF := all_facts d Hv.

  Lemma position (x : R) : Rbar_le x (supp_lo d) \/ inside d x \/ Rbar_le (supp_hi d) x.
  Proof.
    destruct (Rbar_le_lt_dec x (supp_lo d)) as [A|A]; [now left|].
    destruct (Rbar_le_lt_dec (supp_hi d) x) as [B|B]; [now right; right|]. right; left. now split.
  Qed.

  Lemma cdf_range x : 0 <= cdf d x <= 1.
  Proof.
    destruct (position x) as [H|[H|H]].
    - rewrite (F_low d HF x H). lra.
    - pose proof (F_in d HF x H). lra.
    - rewrite (F_high d HF x H). lra.
  Qed.

  Lemma inside_between u v x : inside d u -> inside d v -> u <= x <= v -> inside d x.
  Proof.
    intros [U1 U2] [V1 V2] Hx. split.
    - apply Rbar_lt_le_trans with u; [exact U1|exact (proj1 Hx)].
    - apply Rbar_le_lt_trans with v; [exact (proj2 Hx)|exact V2].
  Qed.

  Definition pdf_real (x : R) : R := match pdf d x with Fin v => v | _ => 0 end.
  Lemma pdf_real_spec x : inside d x -> pdf d x = Fin (pdf_real x) /\ 0 < pdf_real x /\ is_derive (cdf d) x (pdf_real x).
  Proof. intros H. destruct (F_der d HF x H) as (v & E & P & D). unfold pdf_real. rewrite E. now split; [|split]. Qed.

  Lemma cdf_strict u v : inside d u -> inside d v -> u < v -> cdf d u < cdf d v.
  Proof.
    intros Hu Hw L. apply (incr_of_derive_pos (cdf d) pdf_real u v L).
    - intros x Hx. apply pdf_real_spec. now apply (inside_between u v).
    - intros x Hx. apply pdf_real_spec. apply (inside_between u v); [assumption|assumption|lra].
  Qed.

  Lemma cdf_incr x y : x <= y -> cdf d x <= cdf d y.
  Proof.
    intros [L| ->]; [|lra]. pose proof (cdf_range x). pose proof (cdf_range y).
    destruct (position x) as [X|[X|X]].
    - rewrite (F_low d HF x X). lra.
    - destruct (position y) as [Y|[Y|Y]].
      + exfalso. destruct X as [X1 _]. apply (Rbar_lt_not_le _ _ X1). apply Rbar_le_trans with y; [left; exact L|exact Y].
      + left. now apply cdf_strict.
      + rewrite (F_high d HF y Y). lra.
    - rewrite (F_high d HF y); [lra|]. apply Rbar_le_trans with x; [exact X|left; exact L].
  Qed.

  Lemma cdf_low_lim : is_lim (cdf d) m_infty 0.
  Proof.
    intros P [eps HP]. set (q := Rmin (eps / 2) (1 / 2)).
    assert (0 < q) as Q0 by (unfold q; apply Rmin_glb_lt; [pose proof (cond_pos eps)|]; lra).
    assert (q <= eps / 2 /\ q <= 1 / 2) as [Q1 Q2] by (split; [apply Rmin_l|apply Rmin_r]).
    destruct (F_ppf d HF q ltac:(lra)) as [_ E].
    exists (ppf d q). intros x Hx. apply HP. pose proof (cdf_incr x (ppf d q) ltac:(lra)). pose proof (cdf_range x).
    unfold ball; simpl. unfold AbsRing_ball, abs, minus, plus, opp; simpl. pose proof (cond_pos eps).
    rewrite Rabs_pos_eq by lra. lra.
  Qed.
  Lemma cdf_high_lim : is_lim (cdf d) p_infty 1.
  Proof.
    intros P [eps HP]. set (q := Rmin (eps / 2) (1 / 2)).
    assert (0 < q) as Q0 by (unfold q; apply Rmin_glb_lt; [pose proof (cond_pos eps)|]; lra).
    assert (q <= eps / 2 /\ q <= 1 / 2) as [Q1 Q2] by (split; [apply Rmin_l|apply Rmin_r]).
    destruct (F_ppf d HF (1 - q) ltac:(lra)) as [_ E].
    exists (ppf d (1 - q)). intros x Hx. apply HP. pose proof (cdf_incr (ppf d (1 - q)) x ltac:(lra)). pose proof (cdf_range x).
    unfold ball; simpl. unfold AbsRing_ball, abs, minus, plus, opp; simpl. pose proof (cond_pos eps).
    rewrite Rabs_left1 by lra. lra.
  Qed.

  Lemma cdf_is_df : distribution_function (cdf d).
  Proof. split; [exact cdf_incr|exact cdf_range|exact cdf_low_lim|exact cdf_high_lim]. Qed.

  Lemma ppf_cdf x : inside d x -> ppf d (cdf d x) = x.
  Proof.
    intros H. pose proof (F_in d HF x H) as R. destruct (F_ppf d HF _ R) as [I E].
    destruct (Rtotal_order (ppf d (cdf d x)) x) as [L|[L|L]]; [|exact L|].
    - pose proof (cdf_strict _ _ I H L). lra.
    - pose proof (cdf_strict _ _ H I L). lra.
  Qed.

  Lemma quantile_ok q : 0 < q < 1 -> exists x, quantile d q = Ok x /\ inside d x /\ cdf d x = q.
  Proof.
    intros Hq. exists (ppf d q). split; [|now apply F_ppf]. unfold quantile.
    destruct (Rlt_dec q 0); [lra|]. destruct (Rlt_dec 1 q); [lra|reflexivity].
  Qed.
  Lemma inverse_SF_ok q : 0 < q < 1 -> exists x, inverse_SF d q = Ok x /\ inside d x /\ sf d x = q.
  Proof.
    intros Hq. exists (ppf d (1 - q)). destruct (F_ppf d HF (1 - q) ltac:(lra)) as [I E]. split; [|split; [exact I|]].
    - unfold inverse_SF. destruct (Rlt_dec q 0); [lra|]. destruct (Rlt_dec 1 q); [lra|]. now rewrite (F_isf d HF) by lra.
    - rewrite (F_sf d HF), E. ring.
  Qed.
  Lemma quantile_cdf x : inside d x -> quantile d (cdf d x) = Ok x.
  Proof.
    intros H. pose proof (F_in d HF x H) as R. unfold quantile. destruct (Rlt_dec (cdf d x) 0); [lra|]. destruct (Rlt_dec 1 (cdf d x)); [lra|].
    now rewrite ppf_cdf.
  Qed.
  Lemma inverse_SF_sf x : inside d x -> inverse_SF d (sf d x) = Ok x.
  Proof.
    intros H. pose proof (F_in d HF x H) as R. rewrite (F_sf d HF). unfold inverse_SF.
    destruct (Rlt_dec (1 - cdf d x) 0); [lra|]. destruct (Rlt_dec 1 (1 - cdf d x)); [lra|].
    rewrite (F_isf d HF) by lra. replace (1 - (1 - cdf d x)) with (cdf d x) by ring. now rewrite ppf_cdf.
  Qed.
End OneDist.

Lemma quantile_bad d q : q < 0 \/ 1 < q -> quantile d q = Err ValueError /\ inverse_SF d q = Err ValueError.
Proof.
  intros H. unfold quantile, inverse_SF. destruct (Rlt_dec q 0); [split; reflexivity|]. destruct (Rlt_dec 1 q); [split; reflexivity|].
  exfalso. destruct H; contradiction.
Qed.

Lemma bad_exists qs : (exists q, In q qs /\ (q < 0 \/ 1 < q)) ->
  existsb (fun v => Rltb' v 0) qs || existsb (fun v => Rltb' 1 v) qs = true.
Proof.
  intros (q & Hq & Hb). apply Bool.orb_true_iff. destruct Hb as [H|H]; [left|right]; apply existsb_exists; exists q; (split; [exact Hq|]);
    unfold Rltb'; [destruct (Rlt_dec q 0)|destruct (Rlt_dec 1 q)]; congruence || reflexivity || contradiction.
Qed.
Lemma quantile_list_bad d qs : (exists q, In q qs /\ (q < 0 \/ 1 < q)) -> quantile_list d qs = Err ValueError /\ inverse_SF_list d qs = Err ValueError.
Proof.
  intros H. pose proof (bad_exists qs H) as E. unfold quantile_list, inverse_SF_list. destruct qs as [|q0 r].
  - destruct H as (q & [] & _).
  - rewrite E. split; reflexivity.
Qed.
Lemma quantile_list_good d qs : qs <> [] -> (forall q, In q qs -> 0 <= q <= 1) ->
  quantile_list d qs = Ok (map (ppf d) qs) /\ inverse_SF_list d qs = Ok (map (isf d) qs).
Proof.
  intros Hne H.
  assert (existsb (fun v => Rltb' v 0) qs || existsb (fun v => Rltb' 1 v) qs = false) as E.
  { apply Bool.orb_false_iff. split; apply Bool.not_true_is_false; intros C; apply existsb_exists in C; destruct C as (q & Hq & Hl); specialize (H q Hq); unfold Rltb' in Hl.
    - destruct (Rlt_dec q 0); [lra|discriminate].
    - destruct (Rlt_dec 1 q); [lra|discriminate]. }
  unfold quantile_list, inverse_SF_list. destruct qs; [contradiction|]. rewrite E. split; reflexivity.
Qed.

Lemma median_half d : valid d -> cdf d (median d) = 1 / 2.
Proof.
  intros Hv. assert (cdf d (ppf d (1 / 2)) = 1 / 2) as G by (apply (F_ppf d (all_facts d Hv)); lra).
  destruct d; try exact G.
  - cbn [median cdf]. simpl in Hv. replace ((mu - mu) / sigma) with 0 by (field; lra). apply Phi_0.
  - cbn [median cdf]. simpl in Hv. replace ((mu + sigma * ln (ln 2) - mu) / sigma) with (ln (ln 2)) by (field; lra).
    assert (0 < ln 2) by (rewrite <- ln_1; apply ln_increasing; lra).
    rewrite exp_ln by assumption. rewrite exp_Ropp, exp_ln by lra. lra.
Qed.

(** ** Modes *)

Lemma xlogx_max p z : 0 < p -> 0 < z -> p * ln z - z <= p * ln p - p.
Proof.
  intros Hp Hz. pose proof (ln_le_minus_1 (z / p) ltac:(apply Rdiv_lt_0_compat; lra)) as L. rewrite ln_div in L by lra.
  assert (p * (ln z - ln p) <= p * (z / p - 1)) as M by (apply Rmult_le_compat_l; lra).
  replace (p * (z / p - 1)) with (z - p) in M by (field; lra). lra.
Qed.

Lemma two_logs_max p r w m : 0 < p -> 0 < r -> 0 < w < 1 -> m = p / (p + r) ->
  p * ln w + r * ln (1 - w) <= p * ln m + r * ln (1 - m).
Proof.
  intros Hp Hr Hw ->. set (m := p / (p + r)).
  assert (0 < m) as M0 by (apply Rdiv_lt_0_compat; lra).
  assert (1 - m = r / (p + r)) as M1 by (unfold m; field; lra).
  assert (0 < 1 - m) as M2 by (rewrite M1; apply Rdiv_lt_0_compat; lra).
  pose proof (ln_le_minus_1 (w / m) ltac:(apply Rdiv_lt_0_compat; lra)) as L1.
  pose proof (ln_le_minus_1 ((1 - w) / (1 - m)) ltac:(apply Rdiv_lt_0_compat; lra)) as L2.
  rewrite ln_div in L1, L2 by lra.
  assert (p * (ln w - ln m) <= p * (w / m - 1)) as N1 by (apply Rmult_le_compat_l; lra).
  assert (r * (ln (1 - w) - ln (1 - m)) <= r * ((1 - w) / (1 - m) - 1)) as N2 by (apply Rmult_le_compat_l; lra).
  assert (p * (w / m - 1) + r * ((1 - w) / (1 - m) - 1) = 0) as Z by (rewrite M1; unfold m; field; lra).
  lra.
Qed.

Lemma exp_le u v : u <= v -> exp u <= exp v.
Proof. intros [H| ->]; [left; now apply exp_increasing|right; reflexivity]. Qed.

Lemma Fin_scale_le k u v : 0 < k -> u <= v -> ext_le (Fin (u / k)) (Fin (v / k)).
Proof. intros Hk H. simpl. unfold Rdiv. apply Rmult_le_compat_r; [left; now apply Rinv_0_lt_compat|exact H]. Qed.

Lemma pow0_pos x y : 0 < x -> pow0 x y = Rpower x y.
Proof. intros H. unfold pow0. destruct (Rlt_dec 0 x); [reflexivity|contradiction]. Qed.
Lemma pow0_zero y : y <> 0 -> pow0 0 y = 0.
Proof. intros H. unfold pow0. destruct (Rlt_dec 0 0); [lra|]. destruct (Req_EM_T y 0); [contradiction|reflexivity]. Qed.

Lemma Rpower_0_r x : Rpower x 0 = 1.
Proof. unfold Rpower. now rewrite Rmult_0_l, exp_0. Qed.

(** The three families with density [pos_den] on (g, inf), which is at_end b v at g. *)
Lemma shape_mode (d : dist) (g0 : R -> R) a b g v ym :
  0 < a -> 0 < b -> 0 < v ->
  (forall x, pdf d x = let y := (x - g) / a in if Rlt_dec y 0 then Fin 0 else if Req_EM_T y 0 then at_end b (v / a) else Fin (g0 y / a)) ->
  (forall y, 0 < y -> 0 < g0 y) ->
  (b = 1 -> forall y, 0 < y -> g0 y <= v) ->
  (1 < b -> 0 < ym /\ forall y, 0 < y -> g0 y <= g0 ym) ->
  (b = 1 -> ym = 0) ->
  forall x, ext_le (pdf d x) (pdf d (if Rle_dec 1 b then ym * a + g else g)).
Proof.
  intros Ha Hb Hvv Hpdf Hpos H1 Hbig Hym x.
  assert (pdf d g = at_end b (v / a)) as Hg.
  { rewrite Hpdf. cbv zeta. replace ((g - g) / a) with 0 by (field; lra). destruct (Rlt_dec 0 0); [lra|]. destruct (Req_EM_T 0 0); [reflexivity|lra]. }
  assert (0 < v / a) as Hva by (apply Rdiv_lt_0_compat; lra).
  destruct (Rle_dec 1 b) as [L|L].
  - destruct (Req_EM_T b 1) as [E|E].
    + rewrite (Hym E). replace (0 * a + g) with g by ring. rewrite Hg. unfold at_end. destruct (Rlt_dec b 1); [lra|]. destruct (Req_EM_T b 1); [|lra].
      rewrite Hpdf. cbv zeta. destruct (Rlt_dec ((x - g) / a) 0); [simpl; lra|]. destruct (Req_EM_T ((x - g) / a) 0).
      * unfold at_end. destruct (Rlt_dec b 1); [lra|]. destruct (Req_EM_T b 1); [simpl; lra|lra].
      * apply Fin_scale_le; [exact Ha|]. apply H1; [exact E|lra].
    + destruct (Hbig ltac:(lra)) as [Y1 Y2].
      assert (pdf d (ym * a + g) = Fin (g0 ym / a)) as Hm.
      { rewrite Hpdf. cbv zeta. rewrite unscale by exact Ha. destruct (Rlt_dec ym 0); [lra|]. destruct (Req_EM_T ym 0); [lra|reflexivity]. }
      rewrite Hm. assert (0 < g0 ym / a) by (apply Rdiv_lt_0_compat; [now apply Hpos|exact Ha]).
      rewrite Hpdf. cbv zeta. destruct (Rlt_dec ((x - g) / a) 0); [simpl; lra|]. destruct (Req_EM_T ((x - g) / a) 0).
      * unfold at_end. destruct (Rlt_dec b 1); [lra|]. destruct (Req_EM_T b 1); [lra|simpl; lra].
      * apply Fin_scale_le; [exact Ha|]. apply Y2. lra.
  - rewrite Hg. unfold at_end at 1. destruct (Rlt_dec b 1); [|lra].
    rewrite Hpdf. cbv zeta. destruct (Rlt_dec ((x - g) / a) 0); [exact I|]. destruct (Req_EM_T ((x - g) / a) 0); [|exact I].
    unfold at_end. destruct (Rlt_dec b 1); [exact I|lra].
Qed.

Lemma weibull_mode a b g : valid (Weibull a b g) -> forall m, mode (Weibull a b g) = Some m -> forall x, ext_le (pdf (Weibull a b g) x) (pdf (Weibull a b g) m).
Proof.
  intros (Ha & Hb & Hg) m Hm x. cbn [mode] in Hm. injection Hm as <-.
  set (ym := pow0 ((b - 1) / b) (1 / b)).
  pose proof (shape_mode (Weibull a b g) (fun y => b * Rpower y (b - 1) * exp (- Rpower y b)) a b g 1 ym Ha Hb Rlt_0_1) as S.
  replace (a * ym + g) with (ym * a + g) by ring. apply S; clear S.
  - reflexivity.
  - intros y Hy. apply Rmult_lt_0_compat; [|apply exp_pos]. apply Rmult_lt_0_compat; [lra|apply Rpower_gt_0].
  - intros -> y Hy. rewrite Rpower_1 by exact Hy. replace (1 - 1) with 0 by ring. rewrite Rpower_0_r. pose proof (exp_neg_range y Hy). lra.
  - intros Hb1. assert (0 < (b - 1) / b) as Hp by (apply Rdiv_lt_0_compat; lra). unfold ym. rewrite pow0_pos by exact Hp.
    split; [apply Rpower_gt_0|]. intros y Hy. rewrite !Rmult_assoc. apply Rmult_le_compat_l; [lra|].
    assert (forall z, 0 < z -> Rpower z (b - 1) * exp (- Rpower z b) = exp ((b - 1) / b * ln (Rpower z b) - Rpower z b)) as E.
    { intros z Hz. unfold Rminus at 2. rewrite exp_plus. f_equal. unfold Rpower at 2. rewrite ln_exp. unfold Rpower. f_equal. field. lra. }
    rewrite !E by (exact Hy || apply Rpower_gt_0). apply exp_le. rewrite Rpower_solve by lra. apply xlogx_max; [exact Hp|apply Rpower_gt_0].
  - intros ->. unfold ym. replace ((1 - 1) / 1) with 0 by field. apply pow0_zero. lra.
Qed.

Lemma gamma_mode a b g : valid (Gamma a b g) -> forall m, mode (Gamma a b g) = Some m -> forall x, ext_le (pdf (Gamma a b g) x) (pdf (Gamma a b g) m).
Proof.
  intros (Ha & Hb & Hg) m Hm x. cbn [mode] in Hm. injection Hm as <-. pose proof (gamma_fun_pos b Hb) as HG.
  apply (shape_mode (Gamma a b g) (fun y => gamma_kernel b y / gamma_fun b) a b g (1 / gamma_fun b) (b - 1) Ha Hb).
  - apply Rdiv_lt_0_compat; lra.
  - reflexivity.
  - intros y Hy. apply Rdiv_lt_0_compat; [apply gk_pos; [exact Hy|exact I]|exact HG].
  - intros -> y Hy. unfold gamma_kernel. replace (1 - 1) with 0 by ring. rewrite Rpower_0_r. unfold Rdiv. apply Rmult_le_compat_r; [left; now apply Rinv_0_lt_compat|].
    pose proof (exp_neg_range y Hy). lra.
  - intros Hb1. split; [lra|]. intros y Hy. unfold Rdiv. apply Rmult_le_compat_r; [left; now apply Rinv_0_lt_compat|].
    unfold gamma_kernel, Rpower. rewrite <- !exp_plus. apply exp_le. apply (xlogx_max (b - 1) y); lra.
  - intros ->. ring.
Qed.

Lemma loglogistic_mode a b g : valid (Loglogistic a b g) -> forall m, mode (Loglogistic a b g) = Some m -> forall x, ext_le (pdf (Loglogistic a b g) x) (pdf (Loglogistic a b g) m).
Proof.
  intros (Ha & Hb & Hg) m Hm x. cbn [mode] in Hm. injection Hm as <-.
  set (ym := pow0 ((b - 1) / (b + 1)) (1 / b)).
  pose proof (shape_mode (Loglogistic a b g) (fun y => b * Rpower y (b - 1) / (1 + Rpower y b) ^ 2) a b g 1 ym Ha Hb Rlt_0_1) as S.
  replace (a * ym + g) with (ym * a + g) by ring. apply S; clear S.
  - reflexivity.
  - intros y Hy. pose proof (Rpower_gt_0 y b). apply Rdiv_lt_0_compat; [apply Rmult_lt_0_compat; [lra|apply Rpower_gt_0]|apply pow_lt; lra].
  - intros -> y Hy. rewrite Rpower_1 by exact Hy. replace (1 - 1) with 0 by ring. rewrite Rpower_0_r.
    assert (1 <= (1 + y) ^ 2) by (simpl; nra). apply Rmult_le_reg_r with ((1 + y) ^ 2); [lra|]. unfold Rdiv. rewrite Rmult_assoc, Rinv_l by lra. lra.
  - intros Hb1. assert (0 < (b - 1) / (b + 1)) as Hp by (apply Rdiv_lt_0_compat; lra). unfold ym. rewrite pow0_pos by exact Hp.
    split; [apply Rpower_gt_0|]. intros y Hy.
    set (p := (b - 1) / b). assert (0 < p < 1) as Hp1.
    { unfold p. split; [apply Rdiv_lt_0_compat; lra|]. apply Rmult_lt_reg_r with b; [lra|]. unfold Rdiv. rewrite Rmult_assoc, Rinv_l by lra. lra. }
    assert (forall z, 0 < z -> let Z := Rpower z b in b * Rpower z (b - 1) / (1 + Z) ^ 2 =
      b * exp (p * ln (Z / (1 + Z)) + (2 - p) * ln (1 - Z / (1 + Z)))) as E.
    { intros z Hz Z. assert (0 < Z) as HZ by apply Rpower_gt_0. unfold Rdiv at 1. rewrite Rmult_assoc. f_equal.
      replace (1 - Z / (1 + Z)) with (/ (1 + Z)) by (field; lra). rewrite ln_div by lra. rewrite ln_Rinv by lra.
      replace (p * (ln Z - ln (1 + Z)) + (2 - p) * - ln (1 + Z)) with (p * ln Z + (- ln (1 + Z) + - ln (1 + Z))) by ring.
      rewrite !exp_plus, exp_Ropp, exp_ln by lra.
      replace (exp (p * ln Z)) with (Rpower z (b - 1)); [field; lra|].
      unfold Z, Rpower. rewrite ln_exp. f_equal. unfold p. field. lra. }
    cbv zeta in E. rewrite !E by (exact Hy || apply Rpower_gt_0). apply Rmult_le_compat_l; [lra|]. apply exp_le.
    rewrite Rpower_solve by lra. assert (0 < Rpower y b) as Hyb by apply Rpower_gt_0. set (Z := Rpower y b) in *.
    apply two_logs_max; [lra|lra| |].
    + split; [apply Rdiv_lt_0_compat; lra|]. apply Rmult_lt_reg_r with (1 + Z); [lra|]. unfold Rdiv. rewrite Rmult_assoc, Rinv_l by lra. lra.
    + unfold p. field. lra.
  - intros ->. unfold ym. replace ((1 - 1) / (1 + 1)) with 0 by field. apply pow0_zero. lra.
Qed.

Lemma beta_mode a b : valid (Beta a b) -> forall m, mode (Beta a b) = Some m -> forall x, ext_le (pdf (Beta a b) x) (pdf (Beta a b) m).
Proof.
  intros (Ha & Hb) m Hm x. pose proof (beta_fun_pos a b Ha Hb) as HG. cbn [mode] in Hm.
  destruct (Rlt_dec 1 a) as [A|]; [|discriminate]. destruct (Rlt_dec 1 b) as [B|]; [|discriminate]. injection Hm as <-.
  set (m := (a - 1) / (b + a - 2)).
  assert (0 < m < 1) as Hm.
  { unfold m. split; [apply Rdiv_lt_0_compat; lra|]. apply Rmult_lt_reg_r with (b + a - 2); [lra|]. unfold Rdiv. rewrite Rmult_assoc, Rinv_l by lra. lra. }
  assert (forall y, 0 < y < 1 -> pdf (Beta a b) y = Fin (beta_kernel a b y / beta_fun a b)) as Hin.
  { intros y Hy. cbn [pdf]. destruct (Rlt_dec y 0); [lra|]. destruct (Rlt_dec 1 y); [lra|]. destruct (Req_EM_T y 0); [lra|]. destruct (Req_EM_T y 1); [lra|reflexivity]. }
  assert (0 < beta_kernel a b m / beta_fun a b) as Pm by (apply Rdiv_lt_0_compat; [apply bk_pos; simpl; lra|exact HG]).
  rewrite (Hin m Hm).
  destruct (Rle_lt_dec x 0) as [X|X].
  { cbn [pdf]. destruct (Rlt_dec x 0); [simpl; lra|]. destruct (Rlt_dec 1 x); [lra|]. destruct (Req_EM_T x 0); [|lra]. unfold at_end. destruct (Rlt_dec a 1); [lra|]. destruct (Req_EM_T a 1); [lra|simpl; lra]. }
  destruct (Rle_lt_dec 1 x) as [Y|Y].
  { cbn [pdf]. destruct (Rlt_dec x 0); [lra|]. destruct (Rlt_dec 1 x); [simpl; lra|]. destruct (Req_EM_T x 0); [lra|]. destruct (Req_EM_T x 1); [|lra]. unfold at_end. destruct (Rlt_dec b 1); [lra|]. destruct (Req_EM_T b 1); [lra|simpl; lra]. }
  rewrite Hin by lra. apply Fin_scale_le; [exact HG|]. unfold beta_kernel, Rpower. rewrite <- !exp_plus. apply exp_le.
  apply two_logs_max; [lra|lra|lra|]. unfold m. f_equal. ring.
Qed.

Lemma normal_mode m s : valid (Normal m s) -> forall x, ext_le (pdf (Normal m s) x) (pdf (Normal m s) m).
Proof.
  intros Hs x. simpl in Hs. cbn [pdf]. apply Fin_scale_le; [exact Hs|]. replace ((m - m) / s) with 0 by (field; lra).
  unfold phi, Rdiv. apply Rmult_le_compat_r; [left; apply Rinv_0_lt_compat, sqrt_2PI_pos|]. apply exp_le.
  pose proof (Rle_0_sqr ((x - m) * / s)) as Q. unfold Rsqr in Q. lra.
Qed.

Lemma gumbel_mode m s : valid (Gumbel m s) -> forall x, ext_le (pdf (Gumbel m s) x) (pdf (Gumbel m s) m).
Proof.
  intros Hs x. simpl in Hs. cbn [pdf]. cbv zeta. apply Fin_scale_le; [exact Hs|]. replace ((m - m) / s) with 0 by (field; lra).
  apply exp_le. rewrite exp_0. pose proof (exp_ge_1_plus ((x - m) / s)). lra.
Qed.

Lemma exponential_mode l g : valid (Exponential l g) -> forall x, ext_le (pdf (Exponential l g) x) (pdf (Exponential l g) g).
Proof.
  intros (Hl & Hg) x. assert (0 < 1 / l) as Ha by (apply Rdiv_lt_0_compat; lra). cbn [pdf]. cbv zeta.
  replace ((g - g) / (1 / l)) with 0 by (field; lra). destruct (Rlt_dec 0 0); [lra|]. replace (- 0) with 0 by ring. rewrite exp_0.
  destruct (Rlt_dec ((x - g) / (1 / l)) 0) as [H|H].
  - simpl. left. now apply Rdiv_lt_0_compat; [lra|].
  - apply Fin_scale_le; [exact Ha|]. apply Rle_trans with (exp 0); [apply exp_le; lra|rewrite exp_0; lra].
Qed.

Lemma lognormal_mode m s g : valid (Lognormal m s g) -> forall x, ext_le (pdf (Lognormal m s g) x) (pdf (Lognormal m s g) (exp (m - s ^ 2) + g)).
Proof.
  intros (Hs & Hg) x. cbn [pdf]. cbv zeta.
  replace ((exp (m - s ^ 2) + g - g) / exp m) with (exp (- s ^ 2)).
  2: { unfold Rminus. rewrite exp_plus. field. pose proof (exp_pos m). lra. }
  assert (forall y, 0 < y -> phi (ln y / s) / (s * y) = exp (- (ln y * ln y) / (2 * s * s) - ln y) / (sqrt (2 * PI) * s)) as E.
  { intros y Hy. unfold phi. unfold Rminus. rewrite exp_plus, exp_Ropp, exp_ln by exact Hy.
    replace (- (ln y / s * (ln y / s)) / 2) with (- (ln y * ln y) / (2 * s * s)) by (field; lra). field. pose proof sqrt_2PI_pos. repeat split; lra. }
  assert (0 < sqrt (2 * PI) * s) as Hk by (apply Rmult_lt_0_compat; [apply sqrt_2PI_pos|exact Hs]).
  pose proof (exp_pos (- s ^ 2)) as Hp. destruct (Rle_dec (exp (- s ^ 2)) 0); [lra|]. rewrite (E _ Hp), ln_exp.
  destruct (Rle_dec ((x - g) / exp m) 0) as [H|H].
  - simpl. left. apply Rdiv_lt_0_compat; [|apply exp_pos]. apply Rdiv_lt_0_compat; [apply exp_pos|exact Hk].
  - rewrite E by lra. apply Fin_scale_le; [apply exp_pos|]. unfold Rdiv. apply Rmult_le_compat_r; [left; now apply Rinv_0_lt_compat|]. apply exp_le.
    set (L := ln ((x - g) * / exp m)).
    assert (- (- s ^ 2 * - s ^ 2) * / (2 * s * s) - - s ^ 2 - (- (L * L) * / (2 * s * s) - L) = (L + s * s) * (L + s * s) * / (2 * s * s)) as Z by (field; lra).
    assert (0 <= (L + s * s) * (L + s * s) * / (2 * s * s)).
    { apply Rmult_le_pos; [apply Rle_0_sqr|]. left. apply Rinv_0_lt_compat. apply Rmult_lt_0_compat; [lra|exact Hs]. }
    lra.
Qed.

Lemma mode_max d m : valid d -> mode d = Some m -> forall x, ext_le (pdf d x) (pdf d m).
Proof.
  intros Hv Hm. destruct d.
  - now apply weibull_mode.
  - injection Hm as <-. now apply normal_mode.
  - injection Hm as <-. now apply lognormal_mode.
  - injection Hm as <-. now apply exponential_mode.
  - now apply gamma_mode.
  - now apply beta_mode.
  - now apply loglogistic_mode.
  - injection Hm as <-. now apply gumbel_mode.
Qed.
