(** Existence and uniqueness of best fits. *)
From Coquelicot Require Import Coquelicot.
From Coq Require Import List Arith Reals Lra Lia Bool.
From Verif Require Import Base RealFacts Gauss Improper Ext RList DistModel DistSpec DistIntegrals DistProofs CombModel CombSpec FitModel FitSpec FitProofs FitSpec2 FitProofs2 LocScale.
Import ListNotations.
Open Scope R_scope.

(** ** Log-concavity *)
Lemma exp_mid x y : exp ((x + y) / 2) <= (exp x + exp y) / 2 /\ (x <> y -> exp ((x + y) / 2) < (exp x + exp y) / 2).
Proof.
  set (u := exp (x / 2)). set (v := exp (y / 2)). assert (exp x = u * u) as -> by (unfold u; rewrite <- exp_plus; f_equal; field).
  assert (exp y = v * v) as -> by (unfold v; rewrite <- exp_plus; f_equal; field).
  assert (exp ((x + y) / 2) = u * v) as -> by (unfold u, v; rewrite <- exp_plus; f_equal; field).
  pose proof (Rle_0_sqr (u - v)) as Q. unfold Rsqr in Q. split; [lra|]. intros N.
  assert (u - v <> 0) as Nuv. { intros E. apply N. assert (x / 2 = y / 2); [|lra]. apply exp_inv. fold u v. lra. }
  pose proof (Rsqr_pos_lt _ Nuv) as Q'. unfold Rsqr in Q'. lra.
Qed.
Lemma ln1e_mid x y : ln (1 + exp ((x + y) / 2)) <= (ln (1 + exp x) + ln (1 + exp y)) / 2 /\ (x <> y -> ln (1 + exp ((x + y) / 2)) < (ln (1 + exp x) + ln (1 + exp y)) / 2).
Proof.
  pose proof (exp_pos x). pose proof (exp_pos y). pose proof (exp_pos ((x + y) / 2)). set (m := exp ((x + y) / 2)) in *.
  assert (ln (1 + exp x) + ln (1 + exp y) = ln ((1 + exp x) * (1 + exp y))) as E by (rewrite ln_mult; lra).
  assert (2 * ln (1 + m) = ln ((1 + m) * (1 + m))) as E' by (rewrite ln_mult; lra).
  assert (m * m = exp x * exp y) as Em by (unfold m; rewrite <- !exp_plus; f_equal; field).
  destruct (exp_mid x y) as [M1 M2]. fold m in M1, M2.
  assert ((1 + m) * (1 + m) = 1 + 2 * m + exp x * exp y) as A by lra.
  assert (0 < (1 + m) * (1 + m)) by (apply Rmult_lt_0_compat; lra). split.
  - assert (ln ((1 + m) * (1 + m)) <= ln ((1 + exp x) * (1 + exp y))); [|lra]. apply ln_le; lra.
  - intros N. specialize (M2 N). assert (ln ((1 + m) * (1 + m)) < ln ((1 + exp x) * (1 + exp y))); [apply ln_increasing; lra|lra].
Qed.

Lemma mills x : 0 <= x * Phi x + phi x.
Proof.
  destruct (Rle_dec 0 x) as [P|P].
  { pose proof (phi_pos x). pose proof (Phi_gt_0 x). pose proof (Rmult_le_pos x (Phi x)). lra. }
  assert (x < 0) as Hx by lra. clear P.
  (* phi (y) / (- y) - Phi y is increasing on y < 0 and tends to 0 at - infinity *)
  assert (forall y, y < x -> phi y / (- y) - Phi y <= phi x / (- x) - Phi x) as Inc.
  { intros y Hy. destruct (MVT_gen (fun y => phi y / (- y) - Phi y) y x (fun y => phi y / (y * y))) as (c & Hc & E).
    - intros c Hc. rewrite Rmin_left, Rmax_right in Hc by lra.
      replace (phi c / (c * c)) with ((- c * phi c * (- c) - phi c * (- 1)) / ((- c) ^ 2) - phi c) by (field; lra).
      apply (is_derive_minus (fun y => phi y / (- y)) Phi); [|apply Phi_derive].
      apply (is_derive_div phi (fun y => - y)); [apply phi_derive|auto_derive; [exact I|ring]|lra].
    - intros c Hc. rewrite Rmin_left, Rmax_right in Hc by lra. apply continuity_pt_minus.
      + apply continuity_pt_div; [apply continuity_pt_filterlim, phi_cont|apply continuity_pt_opp, continuity_pt_id|]. unfold opp_fct, id. lra.
      + apply Phi_continuity.
    - rewrite Rmin_left, Rmax_right in Hc by lra. assert (0 < phi c / (c * c)) by (apply Rdiv_lt_0_compat; [apply phi_pos|nra]).
      assert (0 < x - y) by lra. pose proof (Rmult_lt_0_compat _ _ H H0). lra. }
  assert (0 <= phi x / (- x) - Phi x) as H.
  { apply Rnot_lt_le. intros Q. destruct (Phi_lower (- (phi x / - x - Phi x)) ltac:(lra)) as [a Ha].
    set (y := Rmin a x - 1). assert (y < a /\ y < x) as [Y1 Y2] by (unfold y; pose proof (Rmin_l a x); pose proof (Rmin_r a x); lra).
    specialize (Inc y Y2). pose proof (Phi_increasing y a Y1). assert (0 < phi y / - y) by (apply Rdiv_lt_0_compat; [apply phi_pos|lra]). lra. }
  apply (Rmult_le_compat_l (- x)) in H; [|lra]. replace (- x * (phi x / - x - Phi x)) with (phi x + x * Phi x) in H by (field; lra). lra.
Qed.
Lemma lnPhi_mid x y : (ln (Phi x) + ln (Phi y)) / 2 <= ln (Phi ((x + y) / 2)).
Proof.
  assert (forall z, is_derive (fun z => ln (Phi z)) z (phi z / Phi z)) as D.
  { intros z. pose proof (Phi_gt_0 z). replace (phi z / Phi z) with (phi z * / Phi z) by reflexivity.
    apply (is_derive_comp ln Phi z (/ Phi z) (phi z)); [now apply is_derive_ln|apply Phi_derive]. }
  assert (forall a b, a < b -> phi b / Phi b <= phi a / Phi a) as Dec.
  { intros a b Hab. destruct (MVT_gen (fun z => phi z / Phi z) a b (fun z => (- z * phi z * Phi z - phi z * phi z) / Phi z ^ 2)) as (c & Hc & E).
    - intros c _. apply (is_derive_div phi Phi); [apply phi_derive|apply Phi_derive|apply Rgt_not_eq, Phi_gt_0].
    - intros c _. apply continuity_pt_div; [apply continuity_pt_filterlim, phi_cont|apply Phi_continuity|apply Rgt_not_eq, Phi_gt_0].
    - assert ((- c * phi c * Phi c - phi c * phi c) / Phi c ^ 2 <= 0) as N.
      { pose proof (mills c). pose proof (phi_pos c). pose proof (Phi_gt_0 c). replace ((- c * phi c * Phi c - phi c * phi c) / Phi c ^ 2) with (- ((phi c * (c * Phi c + phi c)) / (Phi c * Phi c))) by (field; lra).
        pose proof (Rmult_le_pos (phi c) (c * Phi c + phi c) ltac:(lra) ltac:(lra)). assert (0 <= phi c * (c * Phi c + phi c) / (Phi c * Phi c)) by (apply Rmult_le_pos; [assumption|left; apply Rinv_0_lt_compat, Rmult_lt_0_compat; lra]). lra. }
      pose proof (Rmult_le_compat_r (b - a) _ _ ltac:(lra) N). lra. }
  assert (forall a b, a < b -> (ln (Phi a) + ln (Phi b)) / 2 <= ln (Phi ((a + b) / 2))) as M.
  { intros a b Hab. set (m := (a + b) / 2).
    assert (forall z, continuity_pt (fun z => ln (Phi z)) z) as C by (intros z; apply continuity_pt_filterlim, (ex_derive_continuous (fun z => ln (Phi z))); eexists; apply D).
    destruct (MVT_gen (fun z => ln (Phi z)) a m (fun z => phi z / Phi z)) as (c1 & H1 & E1); [intros; apply D|intros; apply C|].
    destruct (MVT_gen (fun z => ln (Phi z)) m b (fun z => phi z / Phi z)) as (c2 & H2 & E2); [intros; apply D|intros; apply C|].
    assert (a < m < b) by (unfold m; lra). rewrite Rmin_left, Rmax_right in H1, H2 by lra.
    assert (phi c2 / Phi c2 <= phi c1 / Phi c1) as G by (destruct (Req_dec c1 c2) as [->|]; [lra|apply Dec; lra]).
    assert (m - a = b - m) as Em by (unfold m; field). rewrite <- Em in E2. pose proof (Rmult_le_compat_r (m - a) _ _ ltac:(lra) G). lra. }
  destruct (Rtotal_order x y) as [L|[->|L]]; [now apply M|replace ((y + y) / 2) with y by field; lra|].
  specialize (M y x L). replace ((x + y) / 2) with ((y + x) / 2) by field. lra.
Qed.

(** ** The five families *)
Definition fam_g (f : fitter) (z : R) : R :=
  match f with
  | Weibull_2P _ _ | Gumbel_2P _ _ => z - exp z
  | Normal_2P _ _ | Lognormal_2P _ _ => - (1 / 2) * z ^ 2 - ln (sqrt (2 * PI))
  | _ => - z - 2 * ln (1 + exp (- z))
  end.
Definition fam_S (f : fitter) (z : R) : R :=
  match f with
  | Weibull_2P _ _ | Gumbel_2P _ _ => - exp z
  | Normal_2P _ _ | Lognormal_2P _ _ => ln (Phi (- z))
  | _ => - ln (1 + exp z)
  end.
Definition fam_h (f : fitter) (t : R) : R := match f with Normal_2P _ _ | Gumbel_2P _ _ => t | _ => ln t end.
Definition fam_k (f : fitter) (t : R) : R := match f with Normal_2P _ _ | Gumbel_2P _ _ => 0 | _ => ln t end.
Definition fam_p (f : fitter) : R := match f with Normal_2P _ s | Gumbel_2P _ s | Lognormal_2P _ s => 1 / s | Weibull_2P _ b | Loglogistic_2P _ b => b | _ => 0 end.
Definition fam_q (f : fitter) : R := match f with Normal_2P m s | Gumbel_2P m s | Lognormal_2P m s => m / s | Weibull_2P a b | Loglogistic_2P a b => b * ln a | _ => 0 end.
Definition fam_make (f : fitter) (p q : R) : fitter :=
  match f with
  | Normal_2P _ _ => Normal_2P (q / p) (1 / p) | Gumbel_2P _ _ => Gumbel_2P (q / p) (1 / p) | Lognormal_2P _ _ => Lognormal_2P (q / p) (1 / p)
  | Weibull_2P _ _ => Weibull_2P (exp (q / p)) p | Loglogistic_2P _ _ => Loglogistic_2P (exp (q / p)) p | _ => f
  end.

Lemma ln_one_div s : 0 < s -> ln (1 / s) = - ln s.
Proof. intros Hs. unfold Rdiv. rewrite Rmult_1_l. now apply ln_Rinv. Qed.
Lemma fam_logf f t : location_scale f -> params_ok f -> support f t -> logf f t = ln (fam_p f) + fam_g f (fam_p f * fam_h f t - fam_q f) - fam_k f t.
Proof.
  assert (forall m s t, 0 < s -> logf (Normal_2P m s) t = ln (1 / s) + (- (1 / 2) * (1 / s * t - m / s) ^ 2 - ln (sqrt (2 * PI)))) as N.
  { intros m s u Hs. cbn [logf]. pose proof sqrt_2PI_pos. rewrite ln_exp, ln_mult, ln_one_div by lra.
    replace (1 / s * u - m / s) with ((u - m) / s) by (field; lra). ring. }
  assert (forall m s t, 0 < s -> logf (Gumbel_2P m s) t = ln (1 / s) + ((1 / s * t - m / s) - exp (1 / s * t - m / s))) as G.
  { intros m s u Hs. cbn [logf]. rewrite ln_one_div by lra. replace (1 / s * u - m / s) with ((u - m) / s) by (field; lra). ring. }
  intros Hl Hp Ht. destruct f; cbn [location_scale] in Hl; try tauto; cbn [params_ok support] in Hp, Ht; cbn [fam_p fam_q fam_g fam_h fam_k].
  - destruct Hp as [Ha Hb]. rewrite logf_log_weibull, G by (try assumption; apply Rdiv_lt_0_compat; lra).
    replace (1 / (1 / b)) with b by (field; lra). replace (ln a / (1 / b)) with (b * ln a) by (field; lra). ring.
  - rewrite N by exact Hp. ring.
  - rewrite G by exact Hp. ring.
  - rewrite logf_log_normal, N by assumption. ring.
  - destruct Hp as [Ha Hb]. cbn [logf]. assert (ln (t / a) = ln t - ln a) as E by (unfold Rdiv; rewrite ln_mult, ln_Rinv by (try apply Rinv_0_lt_compat; lra); ring).
    assert (ln (b / a) = ln b - ln a) as E' by (unfold Rdiv; rewrite ln_mult, ln_Rinv by (try apply Rinv_0_lt_compat; lra); ring).
    unfold Rpower. rewrite E, E'. replace (- b * (ln t - ln a)) with (- (b * ln t - b * ln a)) by ring. ring.
Qed.
Lemma fam_logR f t : location_scale f -> params_ok f -> support f t -> logR f t = fam_S f (fam_p f * fam_h f t - fam_q f).
Proof.
  assert (forall m s t, 0 < s -> logR (Normal_2P m s) t = ln (Phi (- (1 / s * t - m / s)))) as N.
  { intros m s u Hs. cbn [logR]. rewrite erf_Phi. pose proof sqrt2_ne as H2.
    replace ((m - u) / s / sqrt 2 * sqrt 2) with (- (1 / s * u - m / s)) by (field; split; first [exact H2|lra]). f_equal. field. }
  assert (forall m s t, 0 < s -> logR (Gumbel_2P m s) t = - exp (1 / s * t - m / s)) as G.
  { intros m s u Hs. cbn [logR]. replace (1 / s * u - m / s) with ((u - m) / s) by (field; lra). ring. }
  intros Hl Hp Ht. destruct f; cbn [location_scale] in Hl; try tauto; cbn [params_ok support] in Hp, Ht; cbn [fam_p fam_q fam_S fam_h].
  - destruct Hp as [Ha Hb]. rewrite logR_log_weibull, G by (try assumption; apply Rdiv_lt_0_compat; lra).
    replace (1 / (1 / b)) with b by (field; lra). replace (ln a / (1 / b)) with (b * ln a) by (field; lra). ring.
  - now rewrite N by exact Hp.
  - now rewrite G by exact Hp.
  - now rewrite logR_log_normal, N by assumption.
  - destruct Hp as [Ha Hb]. cbn [logR]. assert (ln (t / a) = ln t - ln a) as E by (unfold Rdiv; rewrite ln_mult, ln_Rinv by (try apply Rinv_0_lt_compat; lra); ring).
    unfold Rpower. rewrite E. replace (b * (ln t - ln a)) with (b * ln t - b * ln a) by ring. ring.
Qed.
Lemma fam_LL f T_0 T_f T_rc : location_scale f -> allowed f T_f T_rc ->
  LL f T_0 T_f T_rc = rsum (map (fam_k f) T_f) - LSL (fam_g f) (fam_S f) (map (fam_h f) T_f) (map (fam_h f) T_rc) (fam_p f) (fam_q f).
Proof.
  intros Hl (Hp & Hf & Hr). unfold LL, LSL. rewrite !map_map. assert (log0 f (length T_0) = 0) as -> by (destruct f; cbn in Hl; try tauto; reflexivity).
  assert (rsum (map (logR f) T_rc) = rsum (map (fun x => fam_S f (fam_p f * fam_h f x - fam_q f)) T_rc)) as ->.
  { f_equal. apply map_ext_in. intros t Ht. rewrite Forall_forall in Hr. apply fam_logR; auto. }
  assert (rsum (map (logf f) T_f) = rsum (map (fun x => ln (fam_p f) + fam_g f (fam_p f * fam_h f x - fam_q f)) T_f) - rsum (map (fam_k f) T_f)) as ->; [|ring].
  clear Hr. induction T_f as [|t T IH]; [cbn; ring|]. inversion Hf; subst. cbn [map]. rewrite !rsum_cons, IH, fam_logf by assumption. ring.
Qed.

Lemma sqrt_2PI_ge1 : 1 <= sqrt (2 * PI).
Proof. rewrite <- sqrt_1. apply sqrt_le_1_alt. pose proof PI2_1. lra. Qed.
Lemma ln1p_pos x : 0 < ln (1 + exp x).
Proof. rewrite <- ln_1. apply ln_increasing; [lra|]. pose proof (exp_pos x). lra. Qed.
Lemma fam_facts f : location_scale f ->
  (forall x y, x <> y -> (fam_g f x + fam_g f y) / 2 < fam_g f ((x + y) / 2)) /\ (forall x y, (fam_S f x + fam_S f y) / 2 <= fam_S f ((x + y) / 2)) /\
  (forall x, continuity_pt (fam_g f) x) /\ (forall x, continuity_pt (fam_S f) x) /\ (forall x, fam_S f x <= 0) /\ forall x, fam_g f x <= 1 - Rabs x.
Proof.
  intros Hl.
  assert (forall x, continuity_pt (fun x => x - exp x) x) as C1 by (intros; apply continuity_pt_filterlim, (ex_derive_continuous (fun x => x - exp x)); auto_derive; exact I).
  assert (forall x, continuity_pt (fun x => - exp x) x) as C2 by (intros; apply continuity_pt_filterlim, (ex_derive_continuous (fun x => - exp x)); auto_derive; exact I).
  assert (forall x, continuity_pt (fun z => - (1 / 2) * z ^ 2 - ln (sqrt (2 * PI))) x) as C3 by (intros; apply continuity_pt_filterlim, (ex_derive_continuous (fun z => - (1 / 2) * z ^ 2 - ln (sqrt (2 * PI)))); auto_derive; exact I).
  assert (forall x, continuity_pt (fun z => ln (Phi (- z))) x) as C4.
  { intros x. apply continuity_pt_filterlim. apply (ex_derive_continuous (fun z => ln (Phi (- z)))). exists (- 1 * phi (- x) * / Phi (- x)). 
    apply (is_derive_comp ln (fun z => Phi (- z)) x (/ Phi (- x)) (- 1 * phi (- x))); [apply is_derive_ln, Phi_gt_0|].
    apply (is_derive_comp Phi (fun z => - z) x (phi (- x)) (- 1)); [apply Phi_derive|auto_derive; [exact I|ring]]. }
  assert (forall x, continuity_pt (fun z => - z - 2 * ln (1 + exp (- z))) x) as C5.
  { intros x. apply continuity_pt_filterlim, (ex_derive_continuous (fun z => - z - 2 * ln (1 + exp (- z)))). auto_derive. pose proof (exp_pos (- x)). lra. }
  assert (forall x, continuity_pt (fun z => - ln (1 + exp z)) x) as C6.
  { intros x. apply continuity_pt_filterlim, (ex_derive_continuous (fun z => - ln (1 + exp z))). auto_derive. pose proof (exp_pos x). lra. }
  assert (forall x, x - exp x <= 1 - Rabs x) as T1.
  { intros x. pose proof (exp_pos x). unfold Rabs. destruct Rcase_abs; [lra|]. pose proof (exp_ge_1_plus (x / 2)) as G.
    assert (exp x = exp (x / 2) * exp (x / 2)) as E by (rewrite <- exp_plus; f_equal; field).
    assert ((1 + x / 2) * (1 + x / 2) <= exp (x / 2) * exp (x / 2)) by (apply Rmult_le_compat; lra). pose proof (Rle_0_sqr (x / 2 - 1)) as Q. unfold Rsqr in Q. lra. }
  assert (forall z, - (1 / 2) * z ^ 2 - ln (sqrt (2 * PI)) <= 1 - Rabs z) as T2.
  { intros z. assert (0 <= ln (sqrt (2 * PI))) by (rewrite <- ln_1; apply ln_le; [lra|apply sqrt_2PI_ge1]).
    pose proof (Rle_0_sqr (Rabs z - 1)) as Q. unfold Rsqr in Q. assert (Rabs z * Rabs z = z ^ 2) by (rewrite <- Rabs_mult, Rabs_pos_eq; [ring|apply Rle_0_sqr]). lra. }
  assert (forall z, - z - 2 * ln (1 + exp (- z)) <= 1 - Rabs z) as T3.
  { intros z. pose proof (ln1p_pos (- z)). unfold Rabs. destruct Rcase_abs; [|lra].
    assert (- z <= ln (1 + exp (- z))); [|lra]. rewrite <- (ln_exp (- z)) at 1. apply ln_le; [apply exp_pos|]. pose proof (exp_pos (- z)). lra. }
  assert (forall x y, x <> y -> (- (1 / 2) * x ^ 2 - ln (sqrt (2 * PI)) + (- (1 / 2) * y ^ 2 - ln (sqrt (2 * PI)))) / 2 < - (1 / 2) * ((x + y) / 2) ^ 2 - ln (sqrt (2 * PI))) as S2.
  { intros x y N. assert (0 < Rsqr (x - y)) as Q by (apply Rsqr_pos_lt; lra). unfold Rsqr in Q. lra. }
  assert (forall x y, (ln (Phi (- x)) + ln (Phi (- y))) / 2 <= ln (Phi (- ((x + y) / 2)))) as M2.
  { intros x y. replace (- ((x + y) / 2)) with ((- x + - y) / 2) by field. apply lnPhi_mid. }
  assert (forall x, ln (Phi (- x)) <= 0) as N2.
  { intros x. rewrite <- ln_1. apply ln_le; [apply Phi_gt_0|left; apply Phi_lt_1]. }
  destruct f; cbn [location_scale] in Hl; try tauto; cbn [fam_g fam_S]; repeat split; try assumption.
  1,4: intros x y N; pose proof (proj2 (exp_mid x y) N); lra.
  1,3: intros x y; pose proof (proj1 (exp_mid x y)); lra.
  1,2: intros x; pose proof (exp_pos x); lra.
  - intros x y N. replace (- ((x + y) / 2)) with ((- x + - y) / 2) by field. pose proof (proj2 (ln1e_mid (- x) (- y)) ltac:(lra)). lra.
  - intros x y. pose proof (proj1 (ln1e_mid x y)). lra.
  - intros x. pose proof (ln1p_pos x). lra.
Qed.

Lemma fam_same f f' : same_model f f' -> location_scale f -> location_scale f' /\ fam_g f' = fam_g f /\ fam_S f' = fam_S f /\ fam_h f' = fam_h f /\ fam_k f' = fam_k f /\ (forall t, support f' t <-> support f t) /\ forall p q, fam_make f' p q = fam_make f p q.
Proof. destruct f; cbn [location_scale]; try tauto; destruct f'; cbn [same_model]; intros []; intros; repeat split; tauto. Qed.
Lemma fam_made f p q : location_scale f -> 0 < p -> same_model f (fam_make f p q) /\ params_ok (fam_make f p q) /\ fam_p (fam_make f p q) = p /\ fam_q (fam_make f p q) = q.
Proof.
  intros Hl Hp. assert (0 < 1 / p) by (apply Rdiv_lt_0_compat; lra).
  destruct f; cbn [location_scale] in Hl; try tauto; cbn [fam_make same_model params_ok fam_p fam_q]; rewrite ?ln_exp; repeat split; try assumption; try apply exp_pos; field; lra.
Qed.
Lemma fam_back f : location_scale f -> params_ok f -> 0 < fam_p f /\ fam_make f (fam_p f) (fam_q f) = f.
Proof.
  intros Hl Hp. destruct f; cbn [location_scale] in Hl; try tauto; cbn [params_ok] in Hp; cbn [fam_make fam_p fam_q].
  - destruct Hp. split; [assumption|]. f_equal. replace (b * ln a / b) with (ln a) by (field; lra). now apply exp_ln.
  - split; [apply Rdiv_lt_0_compat; lra|]. f_equal; field; lra.
  - split; [apply Rdiv_lt_0_compat; lra|]. f_equal; field; lra.
  - split; [apply Rdiv_lt_0_compat; lra|]. f_equal; field; lra.
  - destruct Hp. split; [assumption|]. f_equal. replace (b * ln a / b) with (ln a) by (field; lra). now apply exp_ln.
Qed.

Lemma fam_best f T_0 T_f T_rc : location_scale f -> allowed f T_f T_rc ->
  best_fit f T_0 T_f T_rc <-> forall p q, 0 < p -> LSL (fam_g f) (fam_S f) (map (fam_h f) T_f) (map (fam_h f) T_rc) p q <= LSL (fam_g f) (fam_S f) (map (fam_h f) T_f) (map (fam_h f) T_rc) (fam_p f) (fam_q f).
Proof.
  intros Hl Ha. split.
  - intros [_ Hb] p q Hp. destruct (fam_made f p q Hl Hp) as (M1 & M2 & M3 & M4). destruct (fam_same _ _ M1 Hl) as (S1 & S2 & S3 & S4 & S5 & S6 & _).
    assert (allowed (fam_make f p q) T_f T_rc) as Ha'.
    { destruct Ha as (_ & Hf & Hr). split; [exact M2|]. split; [revert Hf|revert Hr]; apply Forall_impl; intros t; apply S6. }
    specialize (Hb _ M1 Ha'). rewrite (fam_LL f) in Hb by assumption. rewrite (fam_LL (fam_make f p q)) in Hb by assumption. rewrite S2, S3, S4, S5, M3, M4 in Hb. lra.
  - intros H. split; [exact Ha|]. intros f' Hm Ha'. destruct (fam_same _ _ Hm Hl) as (S1 & S2 & S3 & S4 & S5 & _ & _).
    rewrite (fam_LL f), (fam_LL f') by assumption. rewrite S2, S3, S4, S5. destruct (fam_back f' S1 (proj1 Ha')) as [Hp _]. specialize (H (fam_p f') (fam_q f') Hp). lra.
Qed.

Lemma fam_h_inj f x y : location_scale f -> support f x -> support f y -> x <> y -> fam_h f x <> fam_h f y.
Proof. intros Hl Hx Hy N. destruct f; cbn in *; try tauto; intros E; apply N; now apply ln_inv. Qed.

Lemma location_scale_best f T_0 T_f T_rc x y : location_scale f -> Forall (support f) T_f -> Forall (support f) T_rc ->
  In x T_f -> In y T_f -> x <> y -> exists! b, same_model f b /\ best_fit b T_0 T_f T_rc.
Proof.
  intros Hl Hf Hr Hx Hy N. destruct (fam_facts f Hl) as (F1 & F2 & F3 & F4 & F5 & F6).
  assert (support f x) as Sx by (rewrite Forall_forall in Hf; auto). assert (support f y) as Sy by (rewrite Forall_forall in Hf; auto).
  destruct (LSL_best (fam_g f) (fam_S f) F1 F2 F3 F4 F5 1 F6 (map (fam_h f) T_f) (map (fam_h f) T_rc) (fam_h f x) (fam_h f y)) as (p & q & Hp & Hm & Hu);
    [now apply in_map|now apply in_map|now apply fam_h_inj|].
  destruct (fam_made f p q Hl Hp) as (M1 & M2 & M3 & M4). destruct (fam_same _ _ M1 Hl) as (S1 & S2 & S3 & S4 & S5 & S6 & _).
  assert (allowed (fam_make f p q) T_f T_rc) as Ha.
  { split; [exact M2|]. split; [revert Hf|revert Hr]; apply Forall_impl; intros t; apply S6. }
  exists (fam_make f p q). split.
  - split; [exact M1|]. apply fam_best; [exact S1|exact Ha|]. rewrite S2, S3, S4, M3, M4. exact Hm.
  - intros b' [Hsm Hb']. destruct (fam_same _ _ Hsm Hl) as (T1 & T2 & T3 & T4 & T5 & T6 & T7).
    pose proof (proj1 (fam_best b' T_0 T_f T_rc T1 (proj1 Hb')) Hb') as H. rewrite T2, T3, T4 in H.
    destruct (fam_back b' T1 (proj1 (proj1 Hb'))) as [Hp' E]. destruct (Hu _ _ Hp' H) as [E1 E2]. rewrite <- E, T7, E1, E2. reflexivity.
Qed.

(** ** Nested models *)
Lemma nested_terms s b t : nested s b -> params_ok s -> support s t -> params_ok b /\ support b t /\ logf b t = logf s t /\ logR b t = logR s t.
Proof.
  intros Hn Hp Ht. destruct Hn; cbn [params_ok support] in *.
  - destruct (weibull_exponential l t Hp Ht) as [-> ->]. repeat split; try lra; apply Rdiv_lt_0_compat; lra.
  - destruct (gamma_exponential l t Hp Ht) as [-> ->]. repeat split; try lra; apply Rdiv_lt_0_compat; lra.
  - cbn [logf logR]. rewrite Rminus_0_r. repeat split; tauto || lra.
  - cbn [logf logR]. rewrite Rminus_0_r. repeat split; tauto || lra.
  - cbn [logf logR]. rewrite Rminus_0_r. repeat split; tauto || lra.
  - cbn [logf logR]. rewrite Rminus_0_r. repeat split; tauto || lra.
  - cbn [logf logR]. rewrite Rminus_0_r. repeat split; tauto || lra.
  - destruct (mixture_equal a b p t) as [-> ->]; try tauto.
  - destruct (CR_equal a b t) as [-> ->]; try tauto. assert (0 < a * Rpower 2 (1 / b)) by (apply Rmult_lt_0_compat; [tauto|apply rp]). tauto.
  - cbn [logf logR]. rewrite ln_1. replace (1 - (1 - exp (- Rpower (t / a) b)) * 1) with (exp (- Rpower (t / a) b)) by ring. rewrite ln_exp. repeat split; try tauto; lra.
  - cbn [logf logR]. rewrite !Rminus_0_r, ln_1. replace (1 - ((1 - exp (- Rpower (t / a) b)) * 1 + 0)) with (exp (- Rpower (t / a) b)) by ring. rewrite ln_exp. repeat split; try tauto; lra.
  - cbn [logf logR]. rewrite !Rminus_0_r, !Rplus_0_r. repeat split; try tauto; lra.
  - cbn [logf logR]. repeat split; try tauto; lra.
Qed.
Lemma nested_LL s b T_0 T_f T_rc : nested s b -> T_0 = [] \/ (exists a b' zi, s = Weibull_ZI a b' zi) -> allowed s T_f T_rc ->
  Forall (support b) T_f /\ Forall (support b) T_rc /\ LL b T_0 T_f T_rc = LL s T_0 T_f T_rc.
Proof.
  intros Hn H0 (Hp & Hf & Hr). rewrite Forall_forall in Hf, Hr. repeat split.
  - apply Forall_forall. intros t Ht. now apply (nested_terms s b t Hn Hp (Hf t Ht)).
  - apply Forall_forall. intros t Ht. now apply (nested_terms s b t Hn Hp (Hr t Ht)).
  - unfold LL. assert (log0 b (length T_0) = log0 s (length T_0)) as ->.
    { destruct H0 as [->|(a & b' & zi & ->)]; [|inversion Hn; reflexivity]. cbn [length]. destruct s, b; cbn [log0]; try reflexivity; repeat destruct Rlt_dec; cbn [INR]; ring. }
    f_equal. f_equal; [f_equal|]; f_equal; apply map_ext_in; intros t Ht; [now apply (nested_terms s b t Hn Hp (Hf t Ht))|now apply (nested_terms s b t Hn Hp (Hr t Ht))].
Qed.

(** ** Closed forms *)
Lemma rsum_lin (c d : R) (f : R -> R) l : rsum (map (fun t => c + d * f t) l) = INR (length l) * c + d * rsum (map f l).
Proof. induction l as [|t l IH]; [cbn; ring|]. cbn [map length]. rewrite !rsum_cons, IH, S_INR. ring. Qed.
Lemma rsum_id l : rsum (map (fun t => t) l) = rsum l. Proof. now rewrite map_id. Qed.
(** r ln l - l A is largest at l = r / A only. *)
Lemma exp_max r A l : 0 < r -> 0 < A -> 0 < l -> r * ln l - l * A <= r * ln (r / A) - (r / A) * A /\ (l <> r / A -> r * ln l - l * A < r * ln (r / A) - (r / A) * A).
Proof.
  intros Hr HA Hl. assert (0 < r / A) by now apply Rdiv_lt_0_compat. set (u := l / (r / A)). assert (0 < u) by now apply Rdiv_lt_0_compat.
  assert (ln l = ln (r / A) + ln u) as ->. { unfold u. rewrite <- ln_mult by (try apply Rdiv_lt_0_compat; assumption). f_equal. field. lra. }
  assert (l * A = r * u) as -> by (unfold u; field; lra). assert (r / A * A = r) as -> by (field; lra). split.
  - pose proof (ln_le_minus_1 u ltac:(assumption)) as L. apply Rmult_le_compat_l with (r := r) in L; lra.
  - intros N. assert (u <> 1) as Nu. { unfold u. intros E. apply N. assert (l = l / (r / A) * (r / A)) as -> by (field; lra). rewrite E. ring. }
    assert (ln u < u - 1) as L.
    { assert (u - 1 <> 0) by lra. pose proof (exp_ineq1 (ln u)) as Q. rewrite exp_ln in Q by assumption.
      assert (ln u <> 0) as Z by (intros Z; apply Nu; rewrite <- (exp_ln u) by assumption; rewrite Z; apply exp_0). specialize (Q Z). lra. }
    apply Rmult_lt_compat_l with (r := r) in L; lra.
Qed.
Lemma LL_exponential l T_0 T_f T_rc : LL (Exponential_1P l) T_0 T_f T_rc = - (INR (length T_f) * ln l - l * (rsum T_f + rsum T_rc)).
Proof.
  unfold LL. cbn [log0].
  assert (rsum (map (logf (Exponential_1P l)) T_f) = INR (length T_f) * ln l + - l * rsum (map (fun t => t) T_f)) as ->.
  { rewrite <- (rsum_lin (ln l) (- l) (fun t => t)). f_equal. apply map_ext. intros t. cbn [logf]. ring. }
  assert (rsum (map (logR (Exponential_1P l)) T_rc) = INR (length T_rc) * 0 + - l * rsum (map (fun t => t) T_rc)) as ->.
  { rewrite <- (rsum_lin 0 (- l) (fun t => t)). f_equal. apply map_ext. intros t. cbn [logR]. ring. }
  rewrite !rsum_id. ring.
Qed.
Lemma rsum_pos_all l : Forall (Rlt 0) l -> 0 <= rsum l /\ (l <> [] -> 0 < rsum l).
Proof. induction 1 as [|x l Hx Hl IH]; [split; [cbn; lra|congruence]|]. rewrite rsum_cons. split; [|intros _]; lra. Qed.
Lemma LL_weibull_beta a b T_0 T_f T_rc : 0 < a -> 0 < b -> Forall (Rlt 0) T_f -> Forall (Rlt 0) T_rc ->
  LL (Weibull_2P a b) T_0 T_f T_rc = - (INR (length T_f) * ln (Rpower a (- b)) - Rpower a (- b) * (rsum (map (fun t => Rpower t b) (T_f ++ T_rc))) + (INR (length T_f) * ln b + (b - 1) * rsum (map ln T_f))).
Proof.
  intros Ha Hb Hf Hr. unfold LL. cbn [log0].
  assert (forall t, 0 < t -> Rpower (t / a) b = Rpower a (- b) * Rpower t b) as E.
  { intros t Ht. unfold Rpower. rewrite <- exp_plus. f_equal. unfold Rdiv. rewrite ln_mult, ln_Rinv by (try apply Rinv_0_lt_compat; lra). ring. }
  assert (ln (Rpower a (- b)) = - b * ln a) as -> by (unfold Rpower; apply ln_exp).
  assert (rsum (map (logR (Weibull_2P a b)) T_rc) = - (Rpower a (- b) * rsum (map (fun t => Rpower t b) T_rc))) as ->.
  { clear Hf. induction Hr as [|t T Ht HT IH]; [cbn; ring|]. cbn [map]. rewrite !rsum_cons, IH. cbn [logR]. rewrite E by assumption. ring. }
  assert (rsum (map (logf (Weibull_2P a b)) T_f) = INR (length T_f) * (- b * ln a) - Rpower a (- b) * rsum (map (fun t => Rpower t b) T_f) + (INR (length T_f) * ln b + (b - 1) * rsum (map ln T_f))) as ->.
  { clear Hr. induction Hf as [|t T Ht HT IH]; [cbn; ring|]. cbn [map length]. rewrite !rsum_cons, IH, S_INR. cbn [logf]. rewrite E by assumption. unfold Rdiv. rewrite !ln_mult, ln_Rinv by (try apply Rinv_0_lt_compat; lra). ring. }
  rewrite map_app, rsum_app. ring.
Qed.

Lemma ln_strict u : 0 < u -> u <> 1 -> ln u < u - 1.
Proof.
  intros Hu N. pose proof (exp_ineq1 (ln u)) as Q. rewrite exp_ln in Q by assumption.
  assert (ln u <> 0) as Z by (intros Z; apply N; rewrite <- (exp_ln u) by assumption; rewrite Z; apply exp_0). specialize (Q Z). lra.
Qed.
(** Complete data, normal: the mean and the standard deviation with divisor n. *)
Definition sample_mean (T : list R) : R := rsum T / INR (length T).
Definition sample_var (T : list R) : R := rsum (map (fun t => (t - sample_mean T) ^ 2) T) / INR (length T).
Lemma rsum_sq T m : rsum (map (fun t => (t - m) ^ 2) T) = rsum (map (fun t => t ^ 2) T) - 2 * m * rsum T + INR (length T) * m ^ 2.
Proof. induction T as [|t T IH]; [cbn; ring|]. cbn [map length]. rewrite !rsum_cons, IH, S_INR. ring. Qed.
Lemma LL_normal m s T_0 T : 0 < s -> T <> [] -> LL (Normal_2P m s) T_0 T [] = INR (length T) * (ln s + ln (sqrt (2 * PI)) + (sample_var T + (sample_mean T - m) ^ 2) / (2 * s ^ 2)).
Proof.
  intros Hs Hne. assert (0 < INR (length T)) as Hn by (destruct T; [congruence|apply lt_0_INR; cbn; lia]). unfold LL. cbn [log0 map].
  assert (rsum (map (logf (Normal_2P m s)) T) = INR (length T) * (- ln s - ln (sqrt (2 * PI))) + - (1 / (2 * s ^ 2)) * rsum (map (fun t => (t - m) ^ 2) T)) as ->.
  { rewrite <- (rsum_lin _ _ (fun t => (t - m) ^ 2)). f_equal. apply map_ext. intros t. cbn [logf]. pose proof sqrt_2PI_pos. rewrite ln_exp, ln_mult by lra. field. lra. }
  unfold sample_var. rewrite !rsum_sq. unfold sample_mean. change (rsum []) with 0. field. lra.
Qed.
Lemma normal_max v d s : 0 < v -> 0 < s -> ln (sqrt v) + v / (2 * sqrt v ^ 2) <= ln s + (v + d ^ 2) / (2 * s ^ 2) /\
  ((s <> sqrt v \/ d <> 0) -> ln (sqrt v) + v / (2 * sqrt v ^ 2) < ln s + (v + d ^ 2) / (2 * s ^ 2)).
Proof.
  intros Hv Hs. assert (0 < sqrt v) as Hq by now apply sqrt_lt_R0. assert (sqrt v ^ 2 = v) as E by (rewrite <- Rsqr_pow2; apply Rsqr_sqrt; lra). rewrite E.
  replace (v / (2 * v)) with (1 / 2) by (field; lra). set (u := v / s ^ 2). assert (0 < s ^ 2) by (apply pow_lt; lra). assert (0 < u) by now apply Rdiv_lt_0_compat.
  assert (ln u = 2 * ln (sqrt v) - 2 * ln s) as Eu.
  { unfold u, Rdiv. rewrite ln_mult, ln_Rinv by (try apply Rinv_0_lt_compat; lra). rewrite <- E at 1. simpl. rewrite !Rmult_1_r, !ln_mult by lra. ring. }
  replace ((v + d ^ 2) / (2 * s ^ 2)) with (u / 2 + d ^ 2 / (2 * s ^ 2)) by (unfold u; field; lra).
  assert (0 <= d ^ 2 / (2 * s ^ 2)) as Hd by (apply Rmult_le_pos; [apply pow2_ge_0|left; apply Rinv_0_lt_compat; lra]).
  pose proof (ln_le_minus_1 u ltac:(assumption)). split; [lra|]. intros [N|N].
  - assert (u <> 1) as Nu.
    { intros Q. apply N. assert (v = s ^ 2) as Ev by (unfold u in Q; apply (Rmult_eq_compat_r (s ^ 2)) in Q; replace (v / s ^ 2 * s ^ 2) with v in Q by (field; lra); lra).
      rewrite Ev. rewrite <- Rsqr_pow2. now rewrite sqrt_Rsqr by lra. }
    pose proof (ln_strict u ltac:(assumption) Nu). lra.
  - assert (0 < d ^ 2 / (2 * s ^ 2)); [|lra]. apply Rdiv_lt_0_compat; [|lra]. rewrite <- Rsqr_pow2. now apply Rsqr_pos_lt.
Qed.
Lemma sample_var_pos T x y : In x T -> In y T -> x <> y -> 0 < sample_var T.
Proof.
  intros Hx Hy N. unfold sample_var. set (m := sample_mean T). assert (0 < INR (length T)) as Hn by (destruct T; [destruct Hx|apply lt_0_INR; cbn; lia]).
  apply Rdiv_lt_0_compat; [|exact Hn]. clearbody m.
  assert (forall l, 0 <= rsum (map (fun t => (t - m) ^ 2) l)) as Z.
  { induction l as [|t l IH]; [cbn; lra|]. cbn [map]. rewrite rsum_cons. pose proof (pow2_ge_0 (t - m)). lra. }
  assert (forall l z, In z l -> z <> m -> 0 < rsum (map (fun t => (t - m) ^ 2) l)) as P.
  { induction l as [|t l IH]; intros z Hz Nz; [destruct Hz|]. cbn [map]. rewrite rsum_cons. pose proof (pow2_ge_0 (t - m)). destruct Hz as [->|Hz].
    - specialize (Z l). assert (0 < (z - m) ^ 2); [|lra]. rewrite <- Rsqr_pow2. apply Rsqr_pos_lt. lra.
    - specialize (IH z Hz Nz). lra. }
  destruct (Req_dec x m) as [->|Nx]; [apply (P T y); auto|now apply (P T x)].
Qed.

(** ** Three parameters: no best fit *)
Lemma exp2_better l g T_0 T_f T_rc : T_f <> [] -> allowed (Exponential_2P l g) T_f T_rc -> exists g', allowed (Exponential_2P l g') T_f T_rc /\ LL (Exponential_2P l g') T_0 T_f T_rc < LL (Exponential_2P l g) T_0 T_f T_rc.
Proof.
  intros Hne ((Hl & Hg) & Hf & Hr). cbn [support] in Hf, Hr.
  assert (exists g', g < g' /\ Forall (Rlt g') (T_f ++ T_rc)) as (g' & G1 & G2).
  { assert (Forall (Rlt g) (T_f ++ T_rc)) as H by (apply Forall_app; now split). clear -H. induction H as [|t T Ht HT (g' & G1 & G2)]; [exists (g + 1); split; [lra|constructor]|].
    exists ((g + Rmin g' t) / 2). assert (g < Rmin g' t) by now apply Rmin_glb_lt. pose proof (Rmin_l g' t). pose proof (Rmin_r g' t).
    split; [lra|]. constructor; [lra|]. revert G2. apply Forall_impl. intros u Hu. lra. }
  apply Forall_app in G2 as [F1 F2]. exists g'. split; [split; [split; lra|now split]|].
  unfold LL. cbn [log0].
  assert (forall (h : fitter -> R -> R) T, (forall t, h (Exponential_2P l g') t = h (Exponential_2P l g) t + l * (g' - g)) -> rsum (map (h (Exponential_2P l g')) T) = rsum (map (h (Exponential_2P l g)) T) + INR (length T) * (l * (g' - g))) as E.
  { intros h T H. induction T as [|t T IH]; [cbn; ring|]. cbn [map length]. rewrite !rsum_cons, IH, H, S_INR. ring. }
  rewrite (E logf), (E logR) by (intros; cbn [logf logR]; ring). assert (0 < l * (g' - g)) as P by (apply Rmult_lt_0_compat; lra).
  assert (0 < INR (length T_f)) as N by (destruct T_f; [congruence|apply lt_0_INR; cbn; lia]). pose proof (Rmult_lt_0_compat _ _ N P). pose proof (Rmult_le_pos (INR (length T_rc)) _ (pos_INR _) (Rlt_le _ _ P)). lra.
Qed.

Lemma sqrt_kernel u v : 0 < u -> u <= v -> - (1 / 2) * ln v - Rpower v (1 / 2) <= - (1 / 2) * ln u - Rpower u (1 / 2).
Proof.
  intros Hu Huv. assert (ln u <= ln v) by now apply ln_le. assert (Rpower u (1 / 2) <= Rpower v (1 / 2)) by (apply Rle_Rpower_l; lra). lra.
Qed.
Lemma weibull3_unbounded T_0 T_f T_rc x M : In x T_f -> Forall (Rlt 0) T_f -> Forall (Rlt 0) T_rc -> Forall (Rle x) (T_f ++ T_rc) ->
  exists g, allowed (Weibull_3P 1 (1 / 2) g) T_f T_rc /\ LL (Weibull_3P 1 (1 / 2) g) T_0 T_f T_rc < M.
Proof.
  intros Hx Hf Hr Hmin. assert (0 < x) as Px by (rewrite Forall_forall in Hf; auto).
  set (L0 := LL (Weibull_3P 1 (1 / 2) 0) T_0 T_f T_rc). set (k := Rmax 0 (L0 - M) + 1). assert (0 < k) by (unfold k; pose proof (Rmax_l 0 (L0 - M)); lra).
  set (e := exp (- (2 * k))). assert (0 < e < 1) as He by (unfold e; split; [apply exp_pos|rewrite <- exp_0; apply exp_increasing; lra]).
  set (g := x - x * e). assert (0 <= g < x) as Hg by (unfold g; split; pose proof (Rmult_lt_0_compat x e Px (proj1 He)); pose proof (Rmult_lt_compat_l x e 1 Px (proj2 He)); lra).
  apply Forall_app in Hmin as [Hm1 Hm2]. rewrite Forall_forall in Hm1, Hm2. exists g. split.
  { split; [split; [lra|split; lra]|]. split; apply Forall_forall; cbn [support]; intros t Ht; [specialize (Hm1 t Ht)|specialize (Hm2 t Ht)]; lra. }
  assert (forall t, x <= t -> logf (Weibull_3P 1 (1 / 2) 0) t <= logf (Weibull_3P 1 (1 / 2) g) t) as A1.
  { intros t Ht. cbn [logf]. rewrite !Rdiv_1, Rminus_0_r. pose proof (sqrt_kernel (t - g) t ltac:(lra) ltac:(lra)). lra. }
  assert (forall t, x <= t -> logR (Weibull_3P 1 (1 / 2) 0) t <= logR (Weibull_3P 1 (1 / 2) g) t) as A2.
  { intros t Ht. cbn [logR]. rewrite !Rdiv_1, Rminus_0_r. assert (Rpower (t - g) (1 / 2) <= Rpower t (1 / 2)) by (apply Rle_Rpower_l; lra). lra. }
  assert (logf (Weibull_3P 1 (1 / 2) 0) x + k <= logf (Weibull_3P 1 (1 / 2) g) x) as A3.
  { cbn [logf]. rewrite !Rdiv_1, Rminus_0_r. assert (x - g = x * e) as Eg by (unfold g; ring). rewrite Eg.
    assert (0 < x * e) by (apply Rmult_lt_0_compat; lra). assert (Rpower (x * e) (1 / 2) <= Rpower x (1 / 2)) by (apply Rle_Rpower_l; lra).
    assert (ln (x * e) = ln x - 2 * k) as -> by (rewrite ln_mult by lra; unfold e; rewrite ln_exp; ring). lra. }
  assert (rsum (map (logR (Weibull_3P 1 (1 / 2) 0)) T_rc) <= rsum (map (logR (Weibull_3P 1 (1 / 2) g)) T_rc)) as B2.
  { apply rsum_le. intros t Ht. apply A2, Hm2, Ht. }
  assert (rsum (map (logf (Weibull_3P 1 (1 / 2) 0)) T_f) + k <= rsum (map (logf (Weibull_3P 1 (1 / 2) g)) T_f)) as B1.
  { clear -Hx Hm1 A1 A3. clearbody g. clear e. clearbody k. clear L0. induction T_f as [|t T IH]; [destruct Hx|]. cbn [map]. rewrite !rsum_cons. destruct Hx as [->|Hx].
    - assert (rsum (map (logf (Weibull_3P 1 (1 / 2) 0)) T) <= rsum (map (logf (Weibull_3P 1 (1 / 2) g)) T)) by (apply rsum_le; intros u Hu; apply A1, Hm1; now right). lra.
    - specialize (IH Hx (fun u Hu => Hm1 u (or_intror Hu))). pose proof (A1 t (Hm1 t (or_introl eq_refl))). lra. }
  assert (LL (Weibull_3P 1 (1 / 2) g) T_0 T_f T_rc <= L0 - k) as B by (unfold L0, LL; cbn [log0]; lra). unfold k in *. pose proof (Rmax_r 0 (L0 - M)). lra.
Qed.
