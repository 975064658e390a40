(** Properties C58-C60: likelihood and goodness of fit of the fitters. *)
From Coquelicot Require Import Coquelicot.
From Coq Require Import List Arith Reals Lra Lia Bool ZArith Sorting.Sorted Permutation.
From Verif Require Import Base RealFacts Gauss Ext RList DistModel DistSpec DistProofs CombModel CombSpec CombProofs FitModel FitSpec FitProofs.
Import ListNotations.
Open Scope R_scope.

(** ** C58 *)

(** Term by term, for every fitter: the exponential of the log PDF (log SF) term is what the
    distribution object the fitter returns computes as its PDF (SF) at that time. *)
Theorem C58_terms f t : params_ok f -> support f t ->
  density_at (distribution f) t (exp (logf f t)) /\ survival_at (distribution f) t (exp (logR f t)).
Proof. exact (likelihood_terms f t). Qed.
Print Assumptions C58_terms.
Example C58_terms_case : let f := Weibull_Mixture 10 2 30 (1 / 2) (1 / 4) in params_ok f /\ support f 5.
Proof. cbn. lra. Qed.

(** The fitters without zero inflation. *)
Theorem C58_likelihood f T_f T_rc P S : params_ok f -> ~ zero_inflated f -> Forall (support f) T_f -> Forall (support f) T_rc ->
  Forall2 (density_at (distribution f)) T_f P -> Forall2 (survival_at (distribution f)) T_rc S ->
  - LL f [] T_f T_rc = ln (rprod P * rprod S).
Proof.
  intros Hp _ Hf Hc HP HS. rewrite <- (ln_exp (- LL f [] T_f T_rc)). f_equal.
  rewrite (LL_likelihood f [] T_f T_rc P S Hp (or_introl eq_refl) Hf Hc HP HS). unfold likelihood. cbn [length pow]. ring.
Qed.
Print Assumptions C58_likelihood.
(** Densities and survival probabilities always exist. *)
Theorem C58_likelihood_exists f T : params_ok f -> Forall (support f) T ->
  (exists P, Forall2 (density_at (distribution f)) T P) /\ (exists S, Forall2 (survival_at (distribution f)) T S).
Proof.
  intros Hp HT. split.
  - exists (map (fun t => exp (logf f t)) T). induction HT as [|t T Ht HT IH]; constructor; [now apply likelihood_terms|exact IH].
  - exists (map (fun t => exp (logR f t)) T). induction HT as [|t T Ht HT IH]; constructor; [now apply likelihood_terms|exact IH].
Qed.
Print Assumptions C58_likelihood_exists.

(** Zero inflated fitters: with failures at time zero, the likelihood includes the
    probability of zero for each of them, provided that probability is positive. *)
Theorem C58_zero_inflated_partial f T_0 T_f T_rc P S : params_ok f -> (T_0 = [] \/ 0 < zero_mass f) ->
  Forall (support f) T_f -> Forall (support f) T_rc ->
  Forall2 (density_at (distribution f)) T_f P -> Forall2 (survival_at (distribution f)) T_rc S ->
  - LL f T_0 T_f T_rc = ln (likelihood (zero_mass f) (length T_0) P S).
Proof.
  intros Hp H0 Hf Hc HP HS. rewrite <- (ln_exp (- LL f T_0 T_f T_rc)). f_equal. now apply LL_likelihood.
Qed.
Print Assumptions C58_zero_inflated_partial.
Example C58_zero_inflated_case : let f := Weibull_DSZI 10 2 (9 / 10) (1 / 10) in params_ok f /\ 0 < zero_mass f /\ Forall (support f) [5; 6].
Proof. cbn [params_ok zero_mass]. split; [lra|]. split; [lra|]. apply Forall_cons; [cbn; lra|]. apply Forall_cons; [cbn; lra|]. apply Forall_nil. Qed.

(** With ZI = 0, which the optimizer's bounds allow, the zero failures are left out. The true
    likelihood is 0, yet the objective prefers ZI = 0 to every other value. *)
Theorem C58_zero_inflated_refuted : exists f T_0 T_f, params_ok f /\ Forall (support f) T_f /\
  exists P, Forall2 (density_at (distribution f)) T_f P /\ likelihood (zero_mass f) (length T_0) P [] = 0 /\ 0 < exp (- LL f T_0 T_f []).
Proof.
  exists (Weibull_DSZI 10 2 (9 / 10) 0), [0], [5]. split; [cbn; lra|]. assert (Forall (support (Weibull_DSZI 10 2 (9 / 10) 0)) [5]) as H by (repeat constructor; cbn; lra).
  split; [exact H|]. destruct (C58_likelihood_exists (Weibull_DSZI 10 2 (9 / 10) 0) [5] ltac:(cbn; lra) H) as [[P HP] _].
  exists P. split; [exact HP|]. split; [unfold likelihood; cbn [zero_mass length pow]; ring|apply exp_pos].
Qed.
Print Assumptions C58_zero_inflated_refuted.
Theorem C58_zero_inflation_ignored a b ds zi T_0 T_f T_rc : params_ok (Weibull_DSZI a b ds zi) -> 0 < zi -> T_0 <> [] ->
  Forall (Rlt 0) T_f -> Forall (Rlt 0) T_rc ->
  LL (Weibull_DSZI a b ds 0) T_0 T_f T_rc < LL (Weibull_DSZI a b ds zi) T_0 T_f T_rc.
Proof. exact (zero_mass_refuted a b ds zi T_0 T_f T_rc). Qed.
Print Assumptions C58_zero_inflation_ignored.

(** The functions handed to the optimizers with a forced or inverted parameter are the same
    negative log-likelihood. *)
Theorem C58_variants a b l g T_f T_rc :
  Weibull_2P_LL_fb a b T_f T_rc = LL (Weibull_2P a b) [] T_f T_rc /\ Normal_2P_LL_fs a b T_f T_rc = LL (Normal_2P a b) [] T_f T_rc /\
  Lognormal_2P_LL_fs a b T_f T_rc = LL (Lognormal_2P a b) [] T_f T_rc /\
  (l <> 0 -> Exponential_2P_LL_inv (1 / l) g T_f T_rc = LL (Exponential_2P l g) [] T_f T_rc) /\
  LL (Gamma_2P_mb a b) [] T_f T_rc = LL (Gamma_2P (exp a) b) [] T_f T_rc /\ LL (Gamma_3P_mbg a b g) [] T_f T_rc = LL (Gamma_3P (exp a) b g) [] T_f T_rc.
Proof.
  unfold Weibull_2P_LL_fb, Normal_2P_LL_fs, Lognormal_2P_LL_fs, Exponential_2P_LL_inv, LL. cbn [log0 length].
  repeat split; try (f_equal; ring).
  intros Hl. replace (1 / (1 / l)) with l by (field; exact Hl). f_equal; ring.
Qed.
Print Assumptions C58_variants.

(** ** C59 *)
Theorem C59_order f T_0 T_f T_rc T_0' T_f' T_rc' : Permutation T_0 T_0' -> Permutation T_f T_f' -> Permutation T_rc T_rc' ->
  LL f T_0 T_f T_rc = LL f T_0' T_f' T_rc'.
Proof. exact (LL_perm f T_0 T_f T_rc T_0' T_f' T_rc'). Qed.
Print Assumptions C59_order.

(** Grouped data: quantity many copies of each time after zero; rows at or below zero are dropped. *)
Definition copies (c : category) (df : list row) : list R :=
  concat (map (fun r => if Rlt_dec 0 (row_time r) then if (if c then is_F (row_cat r) else negb (is_F (row_cat r))) then repeat (row_time r) (row_qty r) else [] else []) df).
Lemma copies_F df : copies CatF df = df_failures df.
Proof.
  unfold copies, df_failures, expand, F_rows, kept_rows. induction df as [|r df IH]; [reflexivity|]. cbn [map concat filter]. rewrite IH. clear IH.
  unfold Rltb'. destruct (Rlt_dec 0 (row_time r)); [|reflexivity]. cbn [filter]. destruct (is_F (row_cat r)); reflexivity.
Qed.
Lemma copies_C df : copies CatC df = df_censored df.
Proof.
  unfold copies, df_censored, expand, C_rows, kept_rows. induction df as [|r df IH]; [reflexivity|]. cbn [map concat filter]. rewrite IH. clear IH.
  unfold Rltb'. destruct (Rlt_dec 0 (row_time r)); [|reflexivity]. cbn [filter]. destruct (is_F (row_cat r)); reflexivity.
Qed.
Theorem C59_grouped a b df :
  df_LL a b df = LL (Weibull_2P a b) [] (copies CatF df) (copies CatC df) /\
  df_n df = (length (copies CatF df) + length (copies CatC df))%nat /\
  grouped_LL_fb a b (map row_time (F_rows df)) (map (fun r => INR (row_qty r)) (F_rows df)) (map row_time (C_rows df)) (map (fun r => INR (row_qty r)) (C_rows df))
    = Weibull_2P_LL_fb a b (copies CatF df) (copies CatC df).
Proof.
  rewrite copies_F, copies_C. destruct (df_LL_expanded a b df) as [H1 H2]. split; [exact H1|]. split; [exact H2|].
  change (df_LL a b df = Weibull_2P_LL_fb a b (df_failures df) (df_censored df)). rewrite H1. symmetry. apply (C58_variants a b 0 0).
Qed.
Print Assumptions C59_grouped.
Example C59_grouped_case : copies CatF [(CatF, 5, 2%nat); (CatC, 6, 1%nat); (CatF, 7, 1%nat)] = [5; 5; 7].
Proof. unfold copies. cbn [map concat row_time row_cat row_qty fst snd is_F]. destruct (Rlt_dec 0 5); [|lra]. destruct (Rlt_dec 0 6); [|lra]. destruct (Rlt_dec 0 7); [|lra]. reflexivity. Qed.

(** ** C60 *)
Theorem C60_goodness f forced T_0 T_f T_rc P S : params_ok f -> (T_0 = [] \/ 0 < zero_mass f) ->
  Forall (support f) T_f -> Forall (support f) T_rc ->
  Forall2 (density_at (distribution f)) T_f P -> Forall2 (survival_at (distribution f)) T_rc S ->
  let L := likelihood (zero_mass f) (length T_0) P S in
  let n := (length T_0 + length T_f + length T_rc)%nat in
  let k := free_parameters f forced in
  let g := fit_gof f forced T_0 T_f T_rc in
  loglik g = ln L /\ loglik2 g = - 2 * ln L /\ BIC g = INR k * ln (INR n) - 2 * ln L /\
  ((n > k + 1)%nat -> AICc g = Some (2 * INR k - 2 * ln L + 2 * INR k * (INR k + 1) / (INR n - INR k - 1))) /\
  ((n <= k + 1)%nat -> AICc g = None).
Proof.
  intros Hp H0 Hf Hc HP HS. cbv zeta. pose proof (C58_zero_inflated_partial f T_0 T_f T_rc P S Hp H0 Hf Hc HP HS) as E.
  set (L := likelihood _ _ _ _) in *. assert (LL f T_0 T_f T_rc = - ln L) as EL by lra. clear E.
  assert (k_of f forced = free_parameters f forced) as Ek by (destruct f, forced; reflexivity).
  set (n := (length T_0 + length T_f + length T_rc)%nat). unfold fit_gof. fold n. rewrite EL, Ek. set (k := free_parameters f forced).
  unfold goodness. cbn [loglik loglik2 BIC AICc]. rewrite <- !INR_IZR_INZ. repeat split; try field; try lra.
  - intros Hn. destruct (Z.ltb_spec 0 (Z.of_nat n - Z.of_nat k - 1)); [|lia]. f_equal.
    rewrite !minus_IZR, <- !INR_IZR_INZ. assert (INR n - INR k - 1 > 0) by (apply lt_INR in Hn; rewrite plus_INR in Hn; simpl INR in Hn; lra).
    field. lra.
  - intros Hn. destruct (Z.ltb_spec 0 (Z.of_nat n - Z.of_nat k - 1)); [lia|reflexivity].
Qed.
Print Assumptions C60_goodness.
(** An infinite number of items adds no correction; a larger likelihood is better by both measures. *)
Theorem C60_better n k LL2 LL2' : LL2 < LL2' ->
  BIC (goodness n k LL2) < BIC (goodness n k LL2') /\
  (AICc (goodness n k LL2) = None /\ AICc (goodness n k LL2') = None \/
   exists x y, AICc (goodness n k LL2) = Some x /\ AICc (goodness n k LL2') = Some y /\ x < y).
Proof.
  intros H. unfold goodness. cbn [BIC AICc]. split; [lra|]. destruct (0 <? n - k - 1)%Z; [right|now left].
  do 2 eexists. split; [reflexivity|]. split; [reflexivity|]. lra.
Qed.
Print Assumptions C60_better.
Example C60_case : exists P S, let f := Weibull_2P 10 2 in params_ok f /\ Forall2 (density_at (distribution f)) [5; 6; 7; 8] P /\ Forall2 (survival_at (distribution f)) [9] S
  /\ AICc (fit_gof f false [] [5; 6; 7; 8] [9]) <> None /\ AICc (fit_gof f false [] [5; 6] [9]) = None.
Proof.
  assert (params_ok (Weibull_2P 10 2)) as Hp by (cbn; lra).
  destruct (C58_likelihood_exists (Weibull_2P 10 2) [5; 6; 7; 8] Hp) as [[P HP] _]; [repeat constructor; cbn; lra|].
  destruct (C58_likelihood_exists (Weibull_2P 10 2) [9] Hp) as [_ [S HS]]; [repeat constructor; cbn; lra|].
  exists P, S. repeat split; try lra; try assumption. cbn. discriminate.
Qed.
