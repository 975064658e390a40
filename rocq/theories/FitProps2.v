(** Properties C110-C113: units, relations between models, best fits. *)
From Coquelicot Require Import Coquelicot.
From Coq Require Import List Arith Reals Lra Lia Bool ZArith.
From Verif Require Import Base RealFacts Gauss Improper Ext RList DistModel DistSpec DistProofs CombModel CombSpec FitModel FitSpec FitProofs FitSpec2 FitProofs2 LocScale FitProofs3 CIModel.
Import ListNotations.
Open Scope R_scope.

(** ** C110 *)

(** The rescaled model says of c t what the original says of t. *)
Theorem C110_same_population c f t : 0 < c -> has_scale f -> params_ok f -> support f t ->
  params_ok (rescaled c f) /\ support (rescaled c f) (c * t) /\
  (forall v, survival_at (distribution f) t v -> survival_at (distribution (rescaled c f)) (c * t) v) /\
  (forall v, density_at (distribution f) t v -> density_at (distribution (rescaled c f)) (c * t) (v / c)).
Proof.
  intros Hc Hs Hp Ht. assert (params_ok (rescaled c f)) as Hp' by now apply rescaled_ok. assert (support (rescaled c f) (c * t)) as Ht' by now apply rescaled_support.
  destruct (likelihood_terms f t Hp Ht) as [D S]. destruct (likelihood_terms _ _ Hp' Ht') as [D' S'].
  split; [exact Hp'|]. split; [exact Ht'|].
  rewrite (logf_rescaled c Hc) in D' by assumption. rewrite (logR_rescaled c Hc) in S' by assumption. split; intros v Hv.
  - unfold survival_at in *. rewrite S in Hv. injection Hv as <-. exact S'.
  - unfold density_at in *. rewrite D in Hv. injection Hv as <-. rewrite D'. do 3 f_equal. unfold Rminus. rewrite exp_plus, exp_Ropp, exp_ln by exact Hc. reflexivity.
Qed.
Print Assumptions C110_same_population.
Theorem C110_likelihood c f T_0 T_f T_rc : 0 < c -> has_scale f -> allowed f T_f T_rc ->
  LL (rescaled c f) (map (Rmult c) T_0) (map (Rmult c) T_f) (map (Rmult c) T_rc) = LL f T_0 T_f T_rc + INR (length T_f) * ln c.
Proof. intros Hc Hs (Hp & Hf & Hr). now apply LL_rescaled. Qed.
Print Assumptions C110_likelihood.
(** The best fit to the converted data is the converted best fit. *)
Theorem C110_best_fit c f T_0 T_f T_rc : 0 < c -> has_scale f ->
  best_fit f T_0 T_f T_rc <-> best_fit (rescaled c f) (map (Rmult c) T_0) (map (Rmult c) T_f) (map (Rmult c) T_rc).
Proof.
  intros Hc Hs. split; [now apply best_rescaled|]. intros H.
  assert (has_scale (rescaled c f)) as Hs' by (destruct f; exact Hs).
  apply (best_rescaled (/ c)) in H; [|now apply Rinv_0_lt_compat|exact Hs']. rewrite rescaled_back, !map_back in H by exact Hc. exact H.
Qed.
Print Assumptions C110_best_fit.
(** Any two models are ranked the same way by AICc, by BIC and by log-likelihood. *)
Theorem C110_ranking c f g T_0 T_f T_rc n kf kg : 0 < c -> has_scale f -> has_scale g -> allowed f T_f T_rc -> allowed g T_f T_rc ->
  let G := fun h k => goodness n k (2 * LL h T_0 T_f T_rc) in
  let G' := fun h k => goodness n k (2 * LL (rescaled c h) (map (Rmult c) T_0) (map (Rmult c) T_f) (map (Rmult c) T_rc)) in
  (loglik (G f kf) < loglik (G g kg) <-> loglik (G' f kf) < loglik (G' g kg)) /\
  (BIC (G f kf) < BIC (G g kg) <-> BIC (G' f kf) < BIC (G' g kg)) /\
  (forall x y, AICc (G f kf) = Some x -> AICc (G g kg) = Some y ->
     exists x' y', AICc (G' f kf) = Some x' /\ AICc (G' g kg) = Some y' /\ (x < y <-> x' < y')).
Proof.
  intros Hc Hf Hg Af Ag G G'. unfold G, G'. rewrite !C110_likelihood by assumption. cbn [goodness loglik BIC AICc]. split; [lra|]. split; [lra|].
  intros x y. destruct (0 <? n - kf - 1)%Z; [|discriminate]. destruct (0 <? n - kg - 1)%Z; [|discriminate]. intros [= <-] [= <-]. eexists; eexists. split; [reflexivity|]. split; [reflexivity|]. lra.
Qed.
Print Assumptions C110_ranking.
Example C110_case : let f := Weibull_2P 10 2 in has_scale f /\ allowed f [5; 8] [9] /\ rescaled 24 f = Weibull_2P (24 * 10) 2.
Proof. cbn. split; [exact I|]. split; [|reflexivity]. split; [cbn; lra|]. split; repeat constructor; cbn; lra. Qed.

(** The three-parameter fitters replace a location below 0.01 by 0 and refit with two parameters. This
    threshold is an absolute number of time units, so the fit depends on the unit. est3 and est2 are
    the estimates from the data in the original unit. *)
Definition converted3 (c : R) (q : R * R * R) : R * R * R := (c * fst (fst q), snd (fst q), c * snd q).
Definition converted2 (c : R) (q : R * R) : R * R := (c * fst q, snd q).
Theorem C110_threshold_refuted : exists c est3 est2 method, 0 < c /\
  r_params (fit_three_params (fun m => converted3 c (est3 m)) (fun m => converted2 c (est2 m)) method)
  <> converted3 c (r_params (fit_three_params est3 est2 method)).
Proof.
  exists 1000, (fun _ => (10, 2, 1 / 200)), (fun _ => (11, 3)), M_MLE. split; [lra|]. unfold fit_three_params, converted3, converted2. cbn [fst snd].
  replace (Rltb' (1000 * (1 / 200)) (1 / 100)) with false by (unfold Rltb'; destruct Rlt_dec; [lra|reflexivity]).
  replace (Rltb' (1 / 200) (1 / 100)) with true by (unfold Rltb'; destruct Rlt_dec; [reflexivity|lra]). cbn [r_params fst snd].
  intros E. injection E as E1 E2 E3. lra.
Qed.
Print Assumptions C110_threshold_refuted.
Theorem C110_threshold_partial c est3 est2 method : 0 < c ->
  (snd (est3 method) < 1 / 100 <-> c * snd (est3 method) < 1 / 100) ->
  r_params (fit_three_params (fun m => converted3 c (est3 m)) (fun m => converted2 c (est2 m)) method)
  = converted3 c (r_params (fit_three_params est3 est2 method)).
Proof.
  intros Hc H. unfold fit_three_params, converted3 at 1. cbn [snd]. unfold Rltb'.
  destruct (Rlt_dec (c * snd (est3 method)) (1 / 100)) as [A|A], (Rlt_dec (snd (est3 method)) (1 / 100)) as [B|B]; try tauto; cbn [r_params].
  - unfold converted2, converted3. cbn [fst snd]. now rewrite Rmult_0_r.
Qed.
Print Assumptions C110_threshold_partial.
Example C110_threshold_case : let g := 5 in (g < 1 / 100 <-> 24 * g < 1 / 100).
Proof. cbn. lra. Qed.

(** ** C111 *)
Theorem C111_lognormal m s T_0 T_f T_rc : 0 < s -> Forall (Rlt 0) T_f -> Forall (Rlt 0) T_rc ->
  LL (Lognormal_2P m s) T_0 T_f T_rc = LL (Normal_2P m s) (map ln T_0) (map ln T_f) (map ln T_rc) + rsum (map ln T_f).
Proof.
  intros Hs Hf Hr. rewrite Forall_forall in Hf, Hr. apply (LL_through _ _ ln ln); [reflexivity| |]; intros t Ht; [apply logf_log_normal|apply logR_log_normal]; auto.
Qed.
Print Assumptions C111_lognormal.
Theorem C111_weibull a b T_0 T_f T_rc : 0 < a -> 0 < b -> Forall (Rlt 0) T_f -> Forall (Rlt 0) T_rc ->
  LL (Weibull_2P a b) T_0 T_f T_rc = LL (Gumbel_2P (ln a) (1 / b)) (map ln T_0) (map ln T_f) (map ln T_rc) + rsum (map ln T_f).
Proof.
  intros Ha Hb Hf Hr. rewrite Forall_forall in Hf, Hr. apply (LL_through _ _ ln ln); [reflexivity| |]; intros t Ht; [apply logf_log_weibull|apply logR_log_weibull]; auto.
Qed.
Print Assumptions C111_weibull.
(** So the best lognormal fit is the best normal fit to the logarithms, and the best Weibull fit comes from
    the best Gumbel fit to the logarithms. *)
Theorem C111_lognormal_best m s T_0 T_f T_rc : Forall (Rlt 0) T_f -> Forall (Rlt 0) T_rc ->
  best_fit (Lognormal_2P m s) T_0 T_f T_rc <-> best_fit (Normal_2P m s) (map ln T_0) (map ln T_f) (map ln T_rc).
Proof.
  intros Hf Hr. assert (forall m s, Forall (support (Normal_2P m s)) (map ln T_f) /\ Forall (support (Normal_2P m s)) (map ln T_rc)) as Hn.
  { intros. split; apply Forall_forall; intros; exact I. }
  split; intros [[Hp _] Hb]; (split; [split; [exact Hp|try apply Hn; now split]|]); intros f' Hm Ha; destruct f'; try (destruct Hm; fail).
  - specialize (Hb (Lognormal_2P m0 s0) I ltac:(split; [exact (proj1 Ha)|now split])). rewrite !C111_lognormal in Hb by (try assumption; exact (proj1 Ha)). lra.
  - specialize (Hb (Normal_2P m0 s0) I ltac:(split; [exact (proj1 Ha)|apply Hn])). rewrite !C111_lognormal by (try assumption; exact (proj1 Ha)). lra.
Qed.
Print Assumptions C111_lognormal_best.
Theorem C111_weibull_best a b T_0 T_f T_rc : 0 < a -> 0 < b -> Forall (Rlt 0) T_f -> Forall (Rlt 0) T_rc ->
  best_fit (Weibull_2P a b) T_0 T_f T_rc <-> best_fit (Gumbel_2P (ln a) (1 / b)) (map ln T_0) (map ln T_f) (map ln T_rc).
Proof.
  intros Ha Hb Hf Hr. assert (forall m s, Forall (support (Gumbel_2P m s)) (map ln T_f) /\ Forall (support (Gumbel_2P m s)) (map ln T_rc)) as Hn.
  { intros. split; apply Forall_forall; intros; exact I. }
  assert (0 < 1 / b) by (apply Rdiv_lt_0_compat; lra).
  split; intros [_ H']; (split; [split; [cbn; try split; assumption|try apply Hn; now split]|]); intros f' Hm A; destruct f'; try (destruct Hm; fail); pose proof (proj1 A) as Hp; cbn [params_ok] in Hp.
  - specialize (H' (Weibull_2P (exp m) (1 / s)) I ltac:(split; [split; [apply exp_pos|apply Rdiv_lt_0_compat; lra]|now split])).
    rewrite !C111_weibull in H' by (try assumption; try apply exp_pos; apply Rdiv_lt_0_compat; lra). rewrite ln_exp in H'. replace (1 / (1 / s)) with s in H' by (field; lra). lra.
  - destruct Hp as [Ha0 Hb0]. specialize (H' (Gumbel_2P (ln a0) (1 / b0)) I ltac:(split; [apply Rdiv_lt_0_compat; lra|apply Hn])). rewrite !C111_weibull by assumption. lra.
Qed.
Print Assumptions C111_weibull_best.
(** Fitting three parameters with location g is fitting two parameters to the times counted from g. *)
Theorem C111_location f2 g f3 T_0 T_f T_rc : shifts f2 g f3 ->
  LL f3 T_0 T_f T_rc = LL f2 T_0 (map (fun t => t - g) T_f) (map (fun t => t - g) T_rc) /\
  (allowed f3 T_f T_rc <-> 0 <= g /\ allowed f2 (map (fun t => t - g) T_f) (map (fun t => t - g) T_rc)).
Proof.
  intros H. split; [pose proof (LL_shifted f3 T_0 T_f T_rc) as E; destruct H; exact E|].
  assert (forall T, Forall (support f3) T <-> Forall (support f2) (map (fun t => t - g) T)) as S.
  { intros T. rewrite !Forall_forall. split; intros G t Ht.
    - apply in_map_iff in Ht as (u & <- & Hu). specialize (G u Hu). destruct H; cbn [support] in *; lra.
    - specialize (G (t - g) (in_map (fun t => t - g) _ _ Ht)). destruct H; cbn [support] in *; lra. }
  unfold allowed. rewrite <- !S. destruct H; cbn [params_ok]; tauto.
Qed.
Print Assumptions C111_location.
Example C111_case : Forall (Rlt 0) [5; 8] /\ shifts (Weibull_2P 10 2) 3 (Weibull_3P 10 2 3) /\ allowed (Weibull_3P 10 2 3) [5; 8] [9].
Proof. split; [repeat constructor; lra|]. split; [constructor|]. split; [cbn; lra|]. split; repeat constructor; cbn; lra. Qed.

(** ** C112 *)
(** A special case of a model has the likelihood of the model it is a special case of. *)
Theorem C112_special_case s b T_0 T_f T_rc : nested s b -> T_0 = [] \/ (exists a b' zi, s = Weibull_ZI a b' zi) -> allowed s T_f T_rc -> T_f <> [] ->
  allowed b T_f T_rc /\ LL b T_0 T_f T_rc = LL s T_0 T_f T_rc.
Proof.
  intros Hn H0 Ha Hne. destruct (nested_LL s b T_0 T_f T_rc Hn H0 Ha) as (F & R & E). split; [|exact E]. split; [|now split].
  destruct T_f as [|t T]; [congruence|]. destruct Ha as (Hp & Hf & _). inversion Hf; subst. now apply (nested_terms s b t Hn Hp).
Qed.
Print Assumptions C112_special_case.
(** So the best fit of the larger model is at least as likely as any fit of the smaller. *)
Theorem C112_never_worse s b best T_0 T_f T_rc : nested s b -> T_0 = [] \/ (exists a b' zi, s = Weibull_ZI a b' zi) -> allowed s T_f T_rc -> T_f <> [] ->
  same_model b best -> best_fit best T_0 T_f T_rc -> - LL s T_0 T_f T_rc <= - LL best T_0 T_f T_rc.
Proof.
  intros Hn H0 Ha Hne Hm [_ Hb]. destruct (C112_special_case s b T_0 T_f T_rc Hn H0 Ha Hne) as [A E]. specialize (Hb b (same_model_sym _ _ Hm) A). lra.
Qed.
Print Assumptions C112_never_worse.
Example C112_case : nested (Exponential_1P (1 / 10)) (Weibull_2P (1 / (1 / 10)) 1) /\ allowed (Exponential_1P (1 / 10)) [5; 8] [9].
Proof. split; [constructor|]. split; [cbn; lra|]. split; repeat constructor; cbn; lra. Qed.

(** ** C113 *)
Theorem C113_exactly_one f T_0 T_f T_rc x y : location_scale f -> Forall (support f) T_f -> Forall (support f) T_rc ->
  In x T_f -> In y T_f -> x <> y -> exists! b, same_model f b /\ best_fit b T_0 T_f T_rc.
Proof. apply location_scale_best. Qed.
Print Assumptions C113_exactly_one.
Example C113_case : location_scale (Weibull_2P 1 1) /\ Forall (support (Weibull_2P 1 1)) [5; 8] /\ In 5 [5; 8] /\ In 8 [5; 8] /\ 5 <> 8.
Proof. split; [exact I|]. split; [repeat constructor; cbn; lra|]. cbn. repeat split; auto; lra. Qed.

(** Exponential_1P: failures over total time, censored or not. *)
Theorem C113_exponential l T_0 T_f T_rc : T_f <> [] -> Forall (Rlt 0) T_f -> Forall (Rlt 0) T_rc ->
  best_fit (Exponential_1P l) T_0 T_f T_rc <-> l = INR (length T_f) / (rsum T_f + rsum T_rc).
Proof.
  intros Hne Hf Hr. destruct (rsum_pos_all T_f Hf) as [_ P]. destruct (rsum_pos_all T_rc Hr) as [P' _]. specialize (P Hne).
  assert (0 < INR (length T_f)) as N by (destruct T_f; [congruence|apply lt_0_INR; cbn; lia]). set (A := rsum T_f + rsum T_rc) in *. assert (0 < A) as HA by (unfold A; lra).
  assert (0 < INR (length T_f) / A) as Hl0 by now apply Rdiv_lt_0_compat. split.
  - intros [[Hl _] Hb]. cbn in Hl. destruct (Req_dec l (INR (length T_f) / A)) as [E|E]; [exact E|]. exfalso.
    pose proof (proj2 (exp_max _ A l N HA Hl) E) as Q. specialize (Hb (Exponential_1P (INR (length T_f) / A)) I ltac:(split; [exact Hl0|now split])).
    rewrite !LL_exponential in Hb. fold A in Hb. lra.
  - intros ->. split; [split; [exact Hl0|now split]|]. intros f' Hm Ha. destruct f'; try (destruct Hm; fail). pose proof (proj1 Ha) as Hl. cbn in Hl.
    rewrite !LL_exponential. fold A. pose proof (proj1 (exp_max _ A l N HA Hl)). lra.
Qed.
Print Assumptions C113_exponential.

(** Weibull_2P with a forced shape b: alpha = (sum of t^b / failures)^(1/b) and no other. *)
Theorem C113_forced_beta a b T_f T_rc : T_f <> [] -> Forall (Rlt 0) T_f -> Forall (Rlt 0) T_rc -> 0 < a -> 0 < b ->
  (forall a', 0 < a' -> Weibull_2P_LL_fb a b T_f T_rc <= Weibull_2P_LL_fb a' b T_f T_rc) <->
  a = Rpower (rsum (map (fun t => Rpower t b) (T_f ++ T_rc)) / INR (length T_f)) (1 / b).
Proof.
  intros Hne Hf Hr Ha Hb. set (A := rsum (map (fun t => Rpower t b) (T_f ++ T_rc))).
  assert (0 < A) as HA.
  { apply rsum_pos_all; [apply Forall_forall; intros v Hv; apply in_map_iff in Hv as (t & <- & _); apply exp_pos|destruct T_f; [congruence|discriminate]]. }
  assert (0 < INR (length T_f)) as N by (destruct T_f; [congruence|apply lt_0_INR; cbn; lia]). set (r := INR (length T_f)) in *.
  assert (forall a, 0 < a -> Weibull_2P_LL_fb a b T_f T_rc = - (r * ln (Rpower a (- b)) - Rpower a (- b) * A + (r * ln b + (b - 1) * rsum (map ln T_f)))) as E.
  { intros x Hx. pose proof (LL_weibull_beta x b [] T_f T_rc Hx Hb Hf Hr) as Q. unfold LL in Q. cbn [log0] in Q. unfold Weibull_2P_LL_fb. fold r A in Q. lra. }
  assert (forall x, 0 < x -> (x = Rpower (A / r) (1 / b) <-> Rpower x (- b) = r / A)) as Eq.
  { intros x Hx. assert (0 < A / r) by now apply Rdiv_lt_0_compat. assert (0 < r / A) by now apply Rdiv_lt_0_compat.
    assert (ln (r / A) = - ln (A / r)) as El by (rewrite <- ln_Rinv by assumption; f_equal; field; lra). split; intros Q.
    - rewrite Q, Rpower_mult. replace (1 / b * - b) with (-1) by (field; lra). unfold Rpower. rewrite <- (exp_ln (r / A)) by assumption. rewrite El. f_equal. ring.
    - rewrite <- (exp_ln x) by assumption. unfold Rpower. f_equal. apply (f_equal ln) in Q. unfold Rpower in Q. rewrite ln_exp, El in Q.
      apply (Rmult_eq_reg_l b); [|lra]. replace (b * (1 / b * ln (A / r))) with (ln (A / r)) by (field; lra). lra. }
  split.
  - intros H. apply Eq; [exact Ha|]. destruct (Req_dec (Rpower a (- b)) (r / A)) as [Q|Q]; [exact Q|]. exfalso.
    pose proof (proj2 (exp_max r A (Rpower a (- b)) N HA (rp _ _)) Q) as L. set (a0 := Rpower (A / r) (1 / b)). assert (0 < a0) as Ha0 by apply rp.
    pose proof (proj1 (Eq a0 Ha0) eq_refl) as Q0. specialize (H a0 Ha0). rewrite (E a Ha), (E a0 Ha0), Q0 in H. lra.
  - intros H. apply Eq in H; [|exact Ha]. intros a' Ha'. rewrite (E a Ha), (E a' Ha'), H. pose proof (proj1 (exp_max r A (Rpower a' (- b)) N HA (rp _ _))). lra.
Qed.
Print Assumptions C113_forced_beta.

(** Normal_2P without censoring: the mean and the standard deviation with divisor n. *)
Theorem C113_normal_complete m s T_0 T x y : In x T -> In y T -> x <> y ->
  best_fit (Normal_2P m s) T_0 T [] <-> m = rsum T / INR (length T) /\ s = sqrt (rsum (map (fun t => (t - rsum T / INR (length T)) ^ 2) T) / INR (length T)).
Proof.
  intros Hx Hy Hn. pose proof (sample_var_pos T x y Hx Hy Hn) as V. assert (T <> []) as Hne by (destruct T; [destruct Hx|congruence]).
  change (rsum (map (fun t => (t - rsum T / INR (length T)) ^ 2) T) / INR (length T)) with (sample_var T). change (rsum T / INR (length T)) with (sample_mean T).
  assert (0 < INR (length T)) as N by (destruct T; [congruence|apply lt_0_INR; cbn; lia]). set (v := sample_var T) in *. set (u := sample_mean T).
  assert (forall m s, 0 < s -> allowed (Normal_2P m s) T []) as Al by (intros; split; [assumption|split; apply Forall_forall; intros; exact I]).
  assert (0 < sqrt v) as Hq by now apply sqrt_lt_R0.
  split.
  - intros [[Hs _] Hb]. cbn in Hs. specialize (Hb (Normal_2P u (sqrt v)) I (Al _ _ Hq)). rewrite !LL_normal in Hb by assumption. fold u v in Hb.
    apply Rmult_le_reg_l in Hb; [|exact N]. replace ((v + (u - u) ^ 2) / (2 * sqrt v ^ 2)) with (v / (2 * sqrt v ^ 2)) in Hb by (f_equal; ring).
    pose proof (proj2 (normal_max v (u - m) s V Hs)) as L. destruct (Req_dec s (sqrt v)) as [Es|Ns]; [|specialize (L (or_introl Ns)); lra].
    destruct (Req_dec (u - m) 0) as [Em|Nm]; [|specialize (L (or_intror Nm)); lra]. split; [lra|exact Es].
  - intros [-> ->]. split; [now apply Al|]. intros f' Hm Ha. destruct f'; try (destruct Hm; fail). pose proof (proj1 Ha) as Hs. cbn in Hs.
    rewrite !LL_normal by assumption. fold u v. apply Rmult_le_compat_l; [lra|]. replace ((v + (u - u) ^ 2) / (2 * sqrt v ^ 2)) with (v / (2 * sqrt v ^ 2)) by (f_equal; ring).
    pose proof (proj1 (normal_max v (u - m) s V Hs)). lra.
Qed.
Print Assumptions C113_normal_complete.

(** The three-parameter models have no best fit: Exponential_2P improves whenever the location moves up, and
    the likelihood of Weibull_3P is unbounded when the smallest time is a failure. *)
Theorem C113_exponential_2P_refuted T_0 T_f T_rc : T_f <> [] -> ~ exists l g, best_fit (Exponential_2P l g) T_0 T_f T_rc.
Proof.
  intros Hne (l & g & Ha & Hb). destruct (exp2_better l g T_0 T_f T_rc Hne Ha) as (g' & Ha' & L). specialize (Hb (Exponential_2P l g') I Ha'). lra.
Qed.
Print Assumptions C113_exponential_2P_refuted.
Theorem C113_weibull_3P_refuted T_0 T_f T_rc x : In x T_f -> Forall (Rlt 0) T_f -> Forall (Rlt 0) T_rc -> Forall (Rle x) (T_f ++ T_rc) ->
  (forall M, exists f, same_model (Weibull_3P 1 1 0) f /\ allowed f T_f T_rc /\ M < - LL f T_0 T_f T_rc) /\
  ~ exists a b g, best_fit (Weibull_3P a b g) T_0 T_f T_rc.
Proof.
  intros Hx Hf Hr Hm. split.
  - intros M. destruct (weibull3_unbounded T_0 T_f T_rc x (- M) Hx Hf Hr Hm) as (g & A & L). exists (Weibull_3P 1 (1 / 2) g). split; [exact I|]. split; [exact A|]. lra.
  - intros (a & b & g & _ & Hb). destruct (weibull3_unbounded T_0 T_f T_rc x (LL (Weibull_3P a b g) T_0 T_f T_rc) Hx Hf Hr Hm) as (g' & A & L). specialize (Hb (Weibull_3P 1 (1 / 2) g') I A). lra.
Qed.
Print Assumptions C113_weibull_3P_refuted.
Example C113_3P_case : In 5 [5; 8] /\ Forall (Rlt 0) [5; 8] /\ Forall (Rlt 0) [9] /\ Forall (Rle 5) ([5; 8] ++ [9]).
Proof. cbn. repeat split; auto; repeat constructor; lra. Qed.
