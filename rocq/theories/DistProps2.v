(** Property C117: distributions that coincide. *)
From Coquelicot Require Import Coquelicot.
From Coq Require Import List Arith Reals Lra Lia Bool.
From Verif Require Import Base RealFacts Gauss Improper Ext DistModel DistSpec DistProofs DistProofs2 DistProofs3 DistProofs5 PoFProofs PoFProofs2.
Import ListNotations.
Open Scope R_scope.

(** ** C117 *)
(** A Weibull distribution with shape 1 is an Exponential distribution: every method returns the
    same array, and the summary numbers agree. *)
Theorem C117_weibull_exponential : forall alpha gamma, 0 < alpha -> 0 <= gamma ->
  let d := Weibull alpha 1 gamma in let e := Exponential (1 / alpha) gamma in
  (forall X, PDF d X = PDF e X /\ CDF d X = CDF e X /\ SF d X = SF e X /\ HF d X = HF e X /\ CHF d X = CHF e X) /\
  (forall q, 0 < q < 1 -> quantile d q = quantile e q /\ inverse_SF d q = inverse_SF e q) /\
  median d = median e /\ mode d = mode e.
Proof.
  intros a g Ha Hg d e. split; [intros X; now apply w1_methods|]. split; [intros q Hq; now apply w1_ppf|]. split.
  - unfold median, d, e. apply (ppf_same (Weibull a 1 g) (Exponential (1 / a) g)); [simpl; lra| |now apply w1_cdf|lra].
    split; [apply Rdiv_lt_0_compat; lra|assumption].
  - unfold mode, d, e. destruct (Rle_dec 1 1); [|lra]. f_equal. unfold pow0. replace ((1 - 1) / 1) with 0 by field.
    destruct (Rlt_dec 0 0); [lra|]. destruct (Req_EM_T (1 / 1) 0) as [E|E]; [lra|ring].
Qed.
Print Assumptions C117_weibull_exponential.

(** So is a Gamma distribution with shape 1. (The hazard arrays differ in one point: the
    Exponential HF is cut to 0 at x = gamma > 0.) *)
Theorem C117_gamma_exponential : forall alpha gamma, 0 < alpha -> 0 <= gamma ->
  let d := Gamma alpha 1 gamma in let e := Exponential (1 / alpha) gamma in
  (forall X, PDF d X = PDF e X /\ CDF d X = CDF e X /\ SF d X = SF e X) /\
  (forall q, 0 < q < 1 -> quantile d q = quantile e q /\ inverse_SF d q = inverse_SF e q) /\
  median d = median e /\ mode d = mode e.
Proof.
  intros a g Ha Hg d e. split; [intros X; now apply g1_methods|]. split; [intros q Hq; now apply g1_ppf|]. split.
  - unfold median, d, e. apply (ppf_same (Gamma a 1 g) (Exponential (1 / a) g)); [simpl; lra| |now apply g1_cdf|lra].
    split; [apply Rdiv_lt_0_compat; lra|assumption].
  - unfold mode, d, e. destruct (Rle_dec 1 1); [|lra]. f_equal. ring.
Qed.
Print Assumptions C117_gamma_exponential.

(** X is Lognormal exactly if ln (X - gamma) is Normal. *)
Theorem C117_lognormal_normal : forall mu sigma gamma X, 0 < sigma -> 0 <= gamma -> X <> [] -> Forall (fun x => gamma < x) X ->
  let d := Lognormal mu sigma gamma in let e := Normal mu sigma in let Y := map (fun x => ln (x - gamma)) X in
  CDF d X = CDF e Y /\ SF d X = SF e Y /\ CHF d X = CHF e Y /\
  (forall q, 0 < q < 1 -> exists y, quantile e q = Ok y /\ quantile d q = Ok (exp y + gamma)) /\
  (forall q, 0 < q < 1 -> exists y, inverse_SF e q = Ok y /\ inverse_SF d q = Ok (exp y + gamma)).
Proof.
  intros m s g X Hs Hg Hne HX d e Y. rewrite Forall_forall in HX.
  assert (array_ok d X = true) as A.
  { apply array_ok_true; [assumption|right; intros x Hx; specialize (HX x Hx); lra|now left]. }
  assert (array_ok e Y = true) as B. { apply array_ok_true; [destruct X; [contradiction|discriminate]|now left|now left]. }
  unfold CDF, SF, CHF. rewrite A, B. unfold Y.
  rewrite !map_map. repeat split.
  - f_equal. apply map_ext_in. intros x Hx. apply lognormal_log; auto.
  - f_equal. apply map_ext_in. intros x Hx. apply lognormal_log; auto.
  - unfold thresholded, d, e, zeroised. f_equal. apply map_ext_in. intros x Hx. cbn [chf_formula]. f_equal. apply lognormal_log; auto.
  - intros q Hq. exists (ppf e q). unfold quantile. destruct (Rlt_dec q 0); [lra|]. destruct (Rlt_dec 1 q); [lra|]. split; [reflexivity|].
    f_equal. apply (lognormal_log_q m s g q).
  - intros q Hq. exists (isf e q). unfold inverse_SF. destruct (Rlt_dec q 0); [lra|]. destruct (Rlt_dec 1 q); [lra|]. split; [reflexivity|].
    f_equal. apply (lognormal_log_q m s g q).
Qed.
Print Assumptions C117_lognormal_normal.

(** X is Weibull exactly if ln (X - gamma) is Gumbel. *)
Theorem C117_weibull_gumbel : forall alpha beta gamma X, 0 < alpha -> 0 < beta -> 0 <= gamma -> X <> [] -> Forall (fun x => gamma < x) X ->
  let d := Weibull alpha beta gamma in let e := Gumbel (ln alpha) (1 / beta) in let Y := map (fun x => ln (x - gamma)) X in
  CDF d X = CDF e Y /\ SF d X = SF e Y /\ CHF d X = CHF e Y /\
  (forall q, 0 < q < 1 -> exists y, quantile e q = Ok y /\ quantile d q = Ok (exp y + gamma)) /\
  (forall q, 0 < q < 1 -> exists y, inverse_SF e q = Ok y /\ inverse_SF d q = Ok (exp y + gamma)).
Proof.
  intros a b g X Ha Hb Hg Hne HX d e Y. assert (forall x, In x X -> g < x) as HX' by now apply Forall_forall.
  assert (array_ok d X = true) as A.
  { apply array_ok_true; [assumption|right; intros x Hx; specialize (HX' x Hx); lra|now left]. }
  assert (array_ok e Y = true) as B. { apply array_ok_true; [destruct X; [contradiction|discriminate]|now left|now left]. }
  unfold CDF, SF, CHF. rewrite A, B. unfold Y.
  rewrite !map_map. repeat split.
  - f_equal. apply map_ext_in. intros x Hx. apply weibull_log; auto.
  - f_equal. apply map_ext_in. intros x Hx. apply weibull_log; auto.
  - f_equal. unfold thresholded, d, e, zeroised. rewrite zeroise_above by assumption.
    apply map_ext_in. intros x Hx. cbn [chf_formula]. unfold npow. specialize (HX' x Hx).
    destruct (Rlt_dec 0 ((x - g) / a)) as [P|P]; [|exfalso; apply P, scaled_pos; assumption].
    f_equal. unfold Rpower. f_equal. unfold Rdiv at 1. rewrite ln_mult by (try lra; now apply Rinv_0_lt_compat). rewrite ln_Rinv by assumption. field. lra.
  - intros q Hq. exists (ppf e q). unfold quantile. destruct (Rlt_dec q 0); [lra|]. destruct (Rlt_dec 1 q); [lra|]. split; [reflexivity|].
    f_equal. now apply (weibull_log_q a b g q).
  - intros q Hq. exists (isf e q). unfold inverse_SF. destruct (Rlt_dec q 0); [lra|]. destruct (Rlt_dec 1 q); [lra|]. split; [reflexivity|].
    f_equal. now apply (weibull_log_q a b g q).
Qed.
Print Assumptions C117_weibull_gumbel.

(** Beta(1, 1) is the uniform distribution. *)
Theorem C117_beta_uniform : forall X, X <> [] -> Forall (fun x => 0 <= x <= 1) X -> let d := DistModel.Beta 1 1 in
  PDF d X = Ok (map (fun _ => Fin 1) X) /\ CDF d X = Ok X /\ SF d X = Ok (map (fun x => 1 - x) X) /\
  (forall q, 0 < q < 1 -> quantile d q = Ok q /\ inverse_SF d q = Ok (1 - q)).
Proof.
  intros X Hne HX d. rewrite Forall_forall in HX. assert (valid d) as V by (simpl; lra).
  assert (array_ok d X = true) as A by (apply array_ok_true; [assumption|right; intros x Hx|right; intros x Hx]; specialize (HX x Hx); lra).
  unfold PDF, CDF, SF. rewrite A. repeat split.
  - f_equal. apply map_ext_in. intros x Hx. specialize (HX x Hx). unfold d. cbn [pdf]. rewrite beta_fun_11, bk_11. unfold at_end.
    destruct (Rlt_dec x 0); [lra|]. destruct (Rlt_dec 1 x); [lra|]. destruct (Rlt_dec 1 1); [lra|]. destruct (Req_EM_T 1 1); [|lra].
    replace (1 / 1) with 1 by field. destruct (Req_EM_T x 0), (Req_EM_T x 1); reflexivity.
  - f_equal. rewrite <- (map_id X) at 2. apply map_ext_in. intros x Hx. now apply beta_uniform_cdf, HX.
  - f_equal. apply map_ext_in. intros x Hx. rewrite (F_sf d (all_facts d V)). unfold d. rewrite beta_uniform_cdf; [reflexivity|now apply HX].
  - unfold quantile. destruct (Rlt_dec q 0); [lra|]. destruct (Rlt_dec 1 q); [lra|]. f_equal.
    rewrite <- (beta_uniform_cdf q) at 1 by lra. apply (ppf_cdf d V). split; simpl; lra.
  - unfold inverse_SF. destruct (Rlt_dec q 0); [lra|]. destruct (Rlt_dec 1 q); [lra|]. f_equal. rewrite (F_isf d (all_facts d V)) by assumption.
    rewrite <- (beta_uniform_cdf (1 - q)) at 1 by lra. apply (ppf_cdf d V). split; simpl; lra.
Qed.
Print Assumptions C117_beta_uniform.

(** X is Beta(a, b) exactly if 1 - X is Beta(b, a). *)
Theorem C117_beta_mirror : forall a b X, 0 < a -> 0 < b -> X <> [] -> Forall (fun x => 0 <= x <= 1) X ->
  let d := DistModel.Beta a b in let e := DistModel.Beta b a in let Y := map (fun x => 1 - x) X in
  PDF d X = PDF e Y /\ CDF d X = SF e Y /\ SF d X = CDF e Y.
Proof.
  intros a b X Ha Hb Hne HX d e Y. rewrite Forall_forall in HX. assert (valid d) as V by (simpl; lra). assert (valid e) as V' by (simpl; lra).
  assert (array_ok d X = true) as A by (apply array_ok_true; [assumption|right; intros x Hx|right; intros x Hx]; specialize (HX x Hx); lra).
  assert (array_ok e Y = true) as B.
  { apply array_ok_true; [destruct X; [contradiction|discriminate]|right|right]; intros y Hy; apply in_map_iff in Hy; destruct Hy as (x & <- & Hx); specialize (HX x Hx); lra. }
  unfold PDF, CDF, SF. rewrite A, B. unfold Y. rewrite !map_map. repeat split; f_equal; apply map_ext; intros x.
  - apply beta_mirror_pdf.
  - rewrite (F_sf e (all_facts e V')). now apply beta_mirror_cdf.
  - rewrite (F_sf d (all_facts d V)). unfold d. rewrite beta_mirror_cdf by assumption. unfold e. ring.
Qed.
Print Assumptions C117_beta_mirror.

Example C117_example : 0 < 2 /\ 0 <= 3 /\ Forall (fun x => 3 < x) [4; 5] /\ Forall (fun x => 0 <= x <= 1) [0; 1 / 2; 1] /\
  CDF (Weibull 2 1 3) [4; 2] = Ok [1 - exp (- (1 / 2)); 0].
Proof.
  split; [lra|]. split; [lra|]. split; [repeat constructor; lra|]. split; [repeat constructor; lra|].
  unfold CDF. rewrite array_ok_true; [|discriminate|right; simpl; intros x [<-|[<-|[]]]; lra|now left].
  f_equal. cbn [map cdf]. rewrite (on_pos_pos _ _ ((4 - 3) / 2)) by lra. rewrite (on_pos_neg _ _ ((2 - 3) / 2)) by lra. rewrite Rpower_1 by lra.
  repeat f_equal. lra.
Qed.
