(** Distributions that coincide (C117). *)
From Coquelicot Require Import Coquelicot.
From Coq Require Import List Arith Reals Lra Lia Bool Permutation Sorted.
From Verif Require Import Base RealFacts Gauss Improper Ext RList DistModel DistSpec DistIntegrals DistProofs DistProofs2 DistProofs3
  PoFProofs3 FitModel FitProofs2.
Import ListNotations.
Open Scope R_scope.

Lemma ppf_same d d' : valid d -> valid d' -> (forall x, cdf d x = cdf d' x) -> forall q, 0 < q < 1 -> ppf d q = ppf d' q.
Proof.
  intros V V' H q Hq. destruct (F_ppf d (all_facts d V) q Hq) as [I E]. rewrite H in E. set (x := ppf d q) in *. clearbody x.
  rewrite <- E. symmetry. apply ppf_cdf; [assumption|]. destruct (position d' x) as [P|[P|P]]; [|assumption|].
  - rewrite (F_low d' (all_facts d' V') x P) in E. lra.
  - rewrite (F_high d' (all_facts d' V') x P) in E. lra.
Qed.
Lemma isf_same d d' : valid d -> valid d' -> (forall x, cdf d x = cdf d' x) -> forall q, 0 < q < 1 -> isf d q = isf d' q.
Proof.
  intros V V' H q Hq. rewrite (F_isf d (all_facts d V)), (F_isf d' (all_facts d' V')) by assumption. apply ppf_same; try assumption. lra.
Qed.

Lemma inv_inv_mult y a : a <> 0 -> y / (1 / (1 / a)) = y / a.
Proof. intros H. field. assumption. Qed.
Lemma Rpower_1' y : 0 < y -> Rpower y 1 = y.
Proof. apply Rpower_1. Qed.

Section WeibullOne.
  Variables a g : R.
  Hypothesis Ha : 0 < a.
  Let d := Weibull a 1 g.
  Let e := Exponential (1 / a) g.

  Lemma w1_pdf x : pdf d x = pdf e x.
  Proof.
    unfold d, e. cbn [pdf]. rewrite inv_inv_mult by lra. set (y := (x - g) / a).
    destruct (Rlt_dec y 0); [reflexivity|]. destruct (Req_EM_T y 0) as [E|E].
    - unfold at_end. destruct (Rlt_dec 1 1); [lra|]. destruct (Req_EM_T 1 1); [|lra]. rewrite E, Ropp_0, exp_0. f_equal. field. lra.
    - rewrite Rpower_1 by lra. replace (1 - 1) with 0 by ring. rewrite Rpower_0_r. f_equal. field. lra.
  Qed.
  Lemma w1_cdf x : cdf d x = cdf e x.
  Proof.
    unfold d, e. cbn [cdf]. rewrite inv_inv_mult by lra. unfold on_pos. destruct (Rlt_dec 0 ((x - g) / a)); [|reflexivity].
    now rewrite Rpower_1.
  Qed.
  Lemma w1_sf x : sf d x = sf e x.
  Proof.
    unfold d, e. cbn [sf]. rewrite inv_inv_mult by lra. unfold on_pos. destruct (Rlt_dec 0 ((x - g) / a)); [|reflexivity].
    now rewrite Rpower_1.
  Qed.
  Lemma npow_0 y : npow y 0 = Fin 1.
  Proof.
    unfold npow. destruct (Rlt_dec 0 y); [now rewrite Rpower_0_r|]. destruct (Req_EM_T y 0).
    - destruct (Rlt_dec 0 0); [lra|]. destruct (Req_EM_T 0 0); [reflexivity|contradiction].
    - assert (Int_part 0 = 0%Z) as E by exact (Int_part_IZR 0).
      rewrite E. simpl. destruct (Req_EM_T 0 0); [reflexivity|contradiction].
  Qed.
  Lemma npow_1 y : npow y 1 = Fin y.
  Proof.
    unfold npow. destruct (Rlt_dec 0 y); [now rewrite Rpower_1|]. destruct (Req_EM_T y 0) as [->|].
    - destruct (Rlt_dec 0 1); [reflexivity|lra].
    - assert (Int_part 1 = 1%Z) as E by exact (Int_part_IZR 1).
      rewrite E. simpl. destruct (Req_EM_T 1 1); [f_equal; ring|contradiction].
  Qed.
  Lemma w1_hf x : hf_formula d x = hf_formula e x.
  Proof. unfold d, e. cbn [hf_formula]. replace (1 - 1) with 0 by ring. rewrite npow_0. simpl. f_equal. ring. Qed.
  Lemma w1_chf x : chf_formula d x = chf_formula e x.
  Proof. unfold d, e. cbn [chf_formula]. rewrite npow_1. f_equal. field. lra. Qed.

  Lemma w1_methods X : PDF d X = PDF e X /\ CDF d X = CDF e X /\ SF d X = SF e X /\ HF d X = HF e X /\ CHF d X = CHF e X.
  Proof.
    assert (array_ok d X = array_ok e X) as Ea by reflexivity.
    unfold PDF, CDF, SF, HF, CHF. rewrite Ea. destruct (array_ok e X); [|repeat split].
    rewrite (map_ext _ _ w1_pdf), (map_ext _ _ w1_cdf), (map_ext _ _ w1_sf), (map_ext _ _ w1_hf), (map_ext _ _ w1_chf). repeat split.
  Qed.
  Lemma w1_ppf q : 0 <= g -> 0 < q < 1 -> quantile d q = quantile e q /\ inverse_SF d q = inverse_SF e q.
  Proof.
    intros Hg Hq. assert (valid d) as V by (simpl; lra).
    assert (valid e) as V' by (split; [apply Rdiv_lt_0_compat; lra|assumption]).
    unfold quantile, inverse_SF. now rewrite (ppf_same d e V V' w1_cdf q Hq), (isf_same d e V V' w1_cdf q Hq).
  Qed.
End WeibullOne.

Section GammaOne.
  Variables a g : R.
  Hypothesis Ha : 0 < a.
  Hypothesis Hg : 0 <= g.
  Let d := Gamma a 1 g.
  Let e := Exponential (1 / a) g.

  Lemma gk_1 y : gamma_kernel 1 y = exp (- y).
  Proof. unfold gamma_kernel. replace (1 - 1) with 0 by ring. rewrite Rpower_0_r. ring. Qed.
  Lemma g1_pdf x : pdf d x = pdf e x.
  Proof.
    unfold d, e. cbn [pdf]. rewrite inv_inv_mult by lra. set (y := (x - g) / a).
    destruct (Rlt_dec y 0); [reflexivity|]. rewrite gamma_fun_1. destruct (Req_EM_T y 0) as [E|E].
    - unfold at_end. destruct (Rlt_dec 1 1); [lra|]. destruct (Req_EM_T 1 1); [|lra]. rewrite E, Ropp_0, exp_0. f_equal. field. lra.
    - rewrite gk_1. f_equal. field. lra.
  Qed.
  Lemma g1_sf x : sf d x = sf e x.
  Proof.
    unfold d, e. cbn [sf]. rewrite inv_inv_mult by lra. unfold on_pos. destruct (Rlt_dec 0 ((x - g) / a)); [|reflexivity].
    rewrite exp_tail, gamma_fun_1. field.
  Qed.
  Lemma g1_cdf x : cdf d x = cdf e x.
  Proof.
    assert (valid d) as V by (simpl; lra).
    assert (valid e) as V' by (split; [apply Rdiv_lt_0_compat; lra|assumption]).
    pose proof (F_sf d (all_facts d V) x). pose proof (F_sf e (all_facts e V') x). pose proof (g1_sf x). lra.
  Qed.
  Lemma g1_methods X : PDF d X = PDF e X /\ CDF d X = CDF e X /\ SF d X = SF e X.
  Proof.
    assert (array_ok d X = array_ok e X) as Ea by reflexivity.
    unfold PDF, CDF, SF. rewrite Ea. destruct (array_ok e X); [|repeat split].
    rewrite (map_ext _ _ g1_pdf), (map_ext _ _ g1_cdf), (map_ext _ _ g1_sf). repeat split.
  Qed.
  Lemma g1_ppf q : 0 < q < 1 -> quantile d q = quantile e q /\ inverse_SF d q = inverse_SF e q.
  Proof.
    intros Hq. assert (valid d) as V by (simpl; lra).
    assert (valid e) as V' by (split; [apply Rdiv_lt_0_compat; lra|assumption]).
    unfold quantile, inverse_SF. now rewrite (ppf_same d e V V' g1_cdf q Hq), (isf_same d e V V' g1_cdf q Hq).
  Qed.
End GammaOne.

(** ** Logarithms *)
Lemma lognormal_log m s g x : 0 < s -> g < x -> cdf (Lognormal m s g) x = cdf (Normal m s) (ln (x - g)) /\ sf (Lognormal m s g) x = sf (Normal m s) (ln (x - g)).
Proof.
  intros Hs Hx. cbn [cdf sf]. rewrite !on_pos_pos by (apply scaled_pos; [apply exp_pos|assumption]).
  assert (ln ((x - g) / exp m) = ln (x - g) - m) as ->; [|split; reflexivity].
  unfold Rdiv. rewrite ln_mult by (try lra; apply Rinv_0_lt_compat, exp_pos). rewrite ln_Rinv by apply exp_pos. rewrite ln_exp. reflexivity.
Qed.
Lemma lognormal_log_q m s g q : ppf (Lognormal m s g) q = exp (ppf (Normal m s) q) + g /\ isf (Lognormal m s g) q = exp (isf (Normal m s) q) + g.
Proof. cbn [ppf isf]. rewrite !exp_plus, !(Rmult_comm s). split; ring. Qed.

Lemma weibull_log a b g x : 0 < a -> 0 < b -> g < x ->
  cdf (Weibull a b g) x = cdf (Gumbel (ln a) (1 / b)) (ln (x - g)) /\ sf (Weibull a b g) x = sf (Gumbel (ln a) (1 / b)) (ln (x - g)).
Proof.
  intros Ha Hb Hx. cbn [cdf sf]. rewrite !on_pos_pos by (apply scaled_pos; assumption).
  assert (Rpower ((x - g) / a) b = exp ((ln (x - g) - ln a) / (1 / b))) as ->; [|split; reflexivity].
  unfold Rpower. f_equal. unfold Rdiv at 1. rewrite ln_mult by (try lra; now apply Rinv_0_lt_compat). rewrite ln_Rinv by assumption. field. lra.
Qed.
Lemma weibull_log_q a b g q : 0 < a -> 0 < b -> ppf (Weibull a b g) q = exp (ppf (Gumbel (ln a) (1 / b)) q) + g /\
  isf (Weibull a b g) q = exp (isf (Gumbel (ln a) (1 / b)) q) + g.
Proof.
  intros Ha Hb. cbn [ppf isf]. rewrite !exp_plus, !exp_ln by assumption. unfold Rpower. rewrite !(Rmult_comm (1 / b)). split; reflexivity.
Qed.

(** ** Beta *)
Lemma is_lub_Rbar_same (E E' : R -> Prop) : (forall v, E v <-> E' v) -> Lub_Rbar E = Lub_Rbar E'.
Proof. intros H. apply Lub_Rbar_eqset. exact H. Qed.

Lemma bk_sym a b t : beta_kernel b a (1 - t) = beta_kernel a b t.
Proof. unfold beta_kernel. replace (1 - (1 - t)) with t by ring. apply Rmult_comm. Qed.
Lemma bk_mirror a b u v : 0 < u -> u <= v -> v < 1 -> RInt (beta_kernel a b) u v = RInt (beta_kernel b a) (1 - v) (1 - u).
Proof.
  intros Hu Huv Hv.
  assert (ex_RInt (beta_kernel b a) (1 - v) (1 - u)) as X by (apply (pos_ex_RInt (beta_kernel b a) 0 1 (bk_cont b a)); simpl; lra).
  assert (ex_RInt (beta_kernel b a) (- 1 * u + 1) (- 1 * v + 1)) as X'.
  { apply ex_RInt_swap. replace (- 1 * v + 1) with (1 - v) by ring. replace (- 1 * u + 1) with (1 - u) by ring. exact X. }
  pose proof (RInt_comp_lin (beta_kernel b a) (- 1) 1 u v X') as L.
  replace (- 1 * v + 1) with (1 - v) in L by ring. replace (- 1 * u + 1) with (1 - u) in L by ring.
  rewrite <- (opp_RInt_swap (beta_kernel b a) (1 - u) (1 - v)) by now apply ex_RInt_swap. rewrite <- L.
  transitivity (RInt (fun t => opp (scal (- 1) (beta_kernel b a (- 1 * t + 1)))) u v).
  - apply RInt_ext. intros x Hx. unfold scal, opp; simpl. unfold mult; simpl. replace (- 1 * x + 1) with (1 - x) by ring. rewrite bk_sym. ring.
  - apply (RInt_opp (fun t => scal (- 1) (beta_kernel b a (- 1 * t + 1)))). exact (ex_RInt_comp_lin (V := R_NormedModule) (beta_kernel b a) (- 1) 1 u v X').
Qed.
Lemma beta_fun_sym a b : beta_fun a b = beta_fun b a.
Proof.
  unfold beta_fun, int_over. f_equal. apply Lub_Rbar_eqset.
  assert (forall a b x, (exists u v, 0 < u /\ u <= v /\ Rbar_lt v 1 /\ x = RInt (beta_kernel a b) u v) ->
    exists u v, 0 < u /\ u <= v /\ Rbar_lt v 1 /\ x = RInt (beta_kernel b a) u v) as K.
  { clear. intros a b x (u & v & H1 & H2 & H3 & ->). simpl in H3. exists (1 - v), (1 - u). simpl. repeat split; try lra. now apply bk_mirror. }
  intros x. split; apply K.
Qed.
Lemma beta_mirror_pdf a b x : pdf (DistModel.Beta a b) x = pdf (DistModel.Beta b a) (1 - x).
Proof.
  cbn [pdf]. rewrite bk_sym, (beta_fun_sym b a).
  destruct (Rlt_dec x 0), (Rlt_dec (1 - x) 0), (Rlt_dec 1 x), (Rlt_dec 1 (1 - x)); try lra; try reflexivity.
  destruct (Req_EM_T x 0), (Req_EM_T (1 - x) 0), (Req_EM_T x 1), (Req_EM_T (1 - x) 1); try lra; reflexivity.
Qed.
Lemma beta_mirror_cdf a b x : 0 < a -> 0 < b -> cdf (DistModel.Beta a b) x = 1 - cdf (DistModel.Beta b a) (1 - x).
Proof.
  intros Ha Hb. set (d := DistModel.Beta a b). set (e := DistModel.Beta b a).
  assert (valid d) as V by (unfold d, e, inside in *; simpl; lra). assert (valid e) as V' by (unfold d, e, inside in *; simpl; lra).
  destruct (position d x) as [P|[P|P]].
  - rewrite (F_low d (all_facts d V) x P). unfold d, inside in P; simpl in P. rewrite (F_high e (all_facts e V') (1 - x)) by (unfold d, e, inside in *; simpl; lra). ring.
  - unfold d, inside in P; simpl in P. set (D := fun x => cdf d x + cdf e (1 - x)).
    assert (forall x, 0 < x < 1 -> is_derive D x 0) as DD.
    { intros y Hy. unfold D.
      destruct (F_der d (all_facts d V) y) as (p & Ep & _ & Dp); [unfold d, e, inside; simpl; lra|].
      assert (is_derive (fun y => cdf e (1 - y)) y (- p)).
      { assert (is_derive (cdf e) (1 - y) p).
        { destruct (F_der e (all_facts e V') (1 - y)) as (p' & Ep' & _ & Dp'); [unfold d, e, inside; simpl; lra|].
          pose proof (beta_mirror_pdf a b y) as M. fold d e in M. rewrite Ep, Ep' in M. injection M as ->. exact Dp'. }
        replace (- p) with (- 1 * p) by ring. apply (is_derive_comp (cdf e) (fun y => 1 - y) y); [assumption|]. auto_derive; [exact I|ring]. }
      replace 0 with (p + - p) by ring. now apply (is_derive_plus (cdf d) (fun y => cdf e (1 - y))). }
    assert (forall u v, 0 < u < 1 -> 0 < v < 1 -> D u = D v) as C.
    { intros u v Hu Hv. apply const_of_derive_zero. intros z Hz. apply DD. unfold Rmin, Rmax in Hz. destruct (Rle_dec u v); lra. }
    assert (forall q, 0 < q < 1 -> q < D x < q + 1) as B.
    { intros q Hq. destruct (F_ppf d (all_facts d V) q Hq) as [I E]. set (p := ppf d q) in *. clearbody p. unfold d, inside in I; simpl in I. rewrite (C x p) by lra. unfold D. rewrite E.
      assert (inside e (1 - p)) as J by (unfold e, inside; simpl; lra). pose proof (F_in e (all_facts e V') (1 - p) J). lra. }
    assert (D x = 1) as E; [|unfold D in E; lra].
    apply Rle_antisym; apply Rnot_lt_le; intros H.
    + pose proof (B (Rmin (1 / 2) ((D x - 1) / 2))) as K. unfold Rmin in K. destruct (Rle_dec (1 / 2) ((D x - 1) / 2)); lra.
    + pose proof (B (Rmax (1 / 2) ((D x + 1) / 2))) as K. unfold Rmax in K. destruct (Rle_dec (1 / 2) ((D x + 1) / 2)); lra.
  - rewrite (F_high d (all_facts d V) x P). unfold d, inside in P; simpl in P. rewrite (F_low e (all_facts e V') (1 - x)) by (unfold d, e, inside in *; simpl; lra). ring.
Qed.

Lemma bk_11 t : beta_kernel 1 1 t = 1.
Proof. unfold beta_kernel. replace (1 - 1) with 0 by ring. rewrite !Rpower_0_r. ring. Qed.
Lemma RInt_bk_11 u v : RInt (beta_kernel 1 1) u v = v - u.
Proof. rewrite (RInt_ext _ (fun _ => 1)) by (intros; apply bk_11). rewrite RInt_const. unfold scal; simpl. unfold mult; simpl. ring. Qed.
Lemma beta_fun_11 : beta_fun 1 1 = 1.
Proof.
  assert (0 < 1) as P by lra.
  destruct (io_spec (beta_kernel 1 1) 0 1 _ (bk_pos 1 1) (bk_cont 1 1) (bk_bound 1 1 P P) ltac:(simpl; lra)) as [A B].
  fold (beta_fun 1 1) in A, B. apply Rle_antisym.
  - apply B. intros u v Hu Huv Hv. simpl in Hv. rewrite RInt_bk_11. lra.
  - apply Rnot_lt_le. intros H. set (e := (1 - beta_fun 1 1) / 3).
    pose proof (A (Rmin e (1/4)) (1 - Rmin e (1/4))) as K. rewrite RInt_bk_11 in K. simpl in K.
    unfold Rmin, e in K. destruct (Rle_dec ((1 - beta_fun 1 1) / 3) (1/4)); lra.
Qed.
Lemma beta_uniform_cdf x : 0 <= x <= 1 -> cdf (DistModel.Beta 1 1) x = x.
Proof.
  intros Hx. cbn [cdf]. unfold on_pos. destruct (Rlt_dec 0 x); [|lra]. destruct (Rlt_dec x 1); [|lra]. rewrite beta_fun_11, Rdiv_1.
  assert (0 < 1) as P by lra.
  destruct (ib_spec (beta_kernel 1 1) 0 1 _ (bk_bound 1 1 P P) x ltac:(lra) ltac:(simpl; lra)) as [A B].
  apply Rle_antisym.
  - apply B. intros u Hu Huv. rewrite RInt_bk_11. lra.
  - apply Rnot_lt_le. intros H. pose proof (A ((x - int_below (beta_kernel 1 1) 0 x) / 2)) as K. rewrite RInt_bk_11 in K.
    pose proof (ib_nonneg (beta_kernel 1 1) 0 1 _ (bk_bound 1 1 P P) x ltac:(lra) ltac:(simpl; lra)). lra.
Qed.

(** ** Arrays *)
Lemma array_ok_true d X : X <> [] -> (is_signed d = true \/ forall x, In x X -> 0 <= x) -> (is_beta d = false \/ forall x, In x X -> x <= 1) -> array_ok d X = true.
Proof.
  intros Hne H1 H2. unfold array_ok. destruct X as [|x0 X0]; [contradiction|]. set (X := x0 :: X0) in *. clearbody X.
  apply andb_true_intro. split; apply orb_true_intro.
  - destruct H1 as [H1|H1]; [now left|right]. apply forallb_forall. intros x Hx. specialize (H1 x Hx). unfold Rltb'. destruct (Rlt_dec x 0); [lra|reflexivity].
  - destruct H2 as [H2|H2]; [left; now rewrite H2|right]. apply forallb_forall. intros x Hx. specialize (H2 x Hx). unfold Rltb'. destruct (Rlt_dec 1 x); [lra|reflexivity].
Qed.
Lemma zeroise_above X Y g : Forall (fun x => g < x) X -> zeroise_below_gamma X Y g = Y.
Proof.
  intros H. unfold zeroise_below_gamma. destruct (Rlt_dec 0 g); [|reflexivity]. destruct X as [|x X]; [reflexivity|]. destruct Y as [|y Y]; [reflexivity|].
  simpl. inversion H; subst. destruct (Rlt_dec g x); [reflexivity|contradiction].
Qed.
