(** Each distribution: derivative, values and inverse of the distribution function. *)
From Coquelicot Require Import Coquelicot.
From Coq Require Import List Arith Reals Lra Lia.
From Verif Require Import Base RealFacts Gauss Improper Ext DistModel DistSpec DistIntegrals PoFProofs PoFProofs2 PoFProofs3.
Import ListNotations.
Open Scope R_scope.

Record dist_facts (d : dist) : Prop := {
  F_der : forall x, inside d x -> exists v, pdf d x = Fin v /\ 0 < v /\ is_derive (cdf d) x v;
  F_low : forall x : R, Rbar_le x (supp_lo d) -> cdf d x = 0;
  F_high : forall x : R, Rbar_le (supp_hi d) x -> cdf d x = 1;
  F_in : forall x, inside d x -> 0 < cdf d x < 1;
  F_ppf : forall q, 0 < q < 1 -> inside d (ppf d q) /\ cdf d (ppf d q) = q;
  F_sf : forall x, sf d x = 1 - cdf d x;
  F_isf : forall q, 0 < q < 1 -> isf d q = ppf d (1 - q);
  F_out : forall x : R, Rbar_lt x (supp_lo d) \/ Rbar_lt (supp_hi d) x -> pdf d x = Fin 0
}.

Lemma on_pos_pos G c y : 0 < y -> on_pos G c y = G y.
Proof. intros H. unfold on_pos. destruct (Rlt_dec 0 y); [reflexivity|contradiction]. Qed.
Lemma on_pos_neg G c y : y <= 0 -> on_pos G c y = c.
Proof. intros H. unfold on_pos. destruct (Rlt_dec 0 y); [lra|reflexivity]. Qed.

Lemma scaled_pos x g a : 0 < a -> g < x -> 0 < (x - g) / a.
Proof. intros. apply Rdiv_lt_0_compat; lra. Qed.
Lemma scaled_neg x g a : 0 < a -> x <= g -> (x - g) / a <= 0.
Proof. intros Ha H. unfold Rdiv. assert (0 < / a) by now apply Rinv_0_lt_compat. assert ((x - g) * / a <= 0 * / a) by (apply Rmult_le_compat_r; lra). lra. Qed.
Lemma scaled_lt x g a : 0 < a -> x < g -> (x - g) / a < 0.
Proof. intros Ha H. unfold Rdiv. assert (0 < / a) by now apply Rinv_0_lt_compat. assert ((x - g) * / a < 0 * / a) by (apply Rmult_lt_compat_r; lra). lra. Qed.
Lemma unscale y a g : 0 < a -> (y * a + g - g) / a = y.
Proof. intros. field. lra. Qed.

Lemma scaled_derive x g a : is_derive (fun x => (x - g) / a) x (/ a).
Proof. auto_derive; [exact I|]. unfold Rdiv. ring. Qed.

Lemma on_pos_derive (G : R -> R) v g a x : 0 < a -> g < x -> is_derive G ((x - g) / a) v ->
  is_derive (fun x => on_pos G 0 ((x - g) / a)) x (v / a).
Proof.
  intros Ha Hx HG. apply (is_derive_ext_loc (fun x => G ((x - g) / a))).
  - exists (mkposreal (x - g) ltac:(lra)). intros y Hy. apply Rabs_def2 in Hy. simpl in Hy. unfold minus, plus, opp in Hy; simpl in Hy.
    rewrite on_pos_pos; [reflexivity|]. apply scaled_pos; lra.
  - replace (v / a) with (/ a * v) by (unfold Rdiv; ring).
    exact (is_derive_comp G (fun x => (x - g) / a) x v (/ a) HG (scaled_derive x g a)).
Qed.

(** A family on (g, inf) with scale a, standard distribution function G with density g0
    and inverse P. *)
Lemma pos_family (d : dist) (G g0 P : R -> R) a g :
  0 < a -> supp_lo d = Finite g -> supp_hi d = p_infty ->
  (forall x, cdf d x = on_pos G 0 ((x - g) / a)) ->
  (forall x, g < x -> pdf d x = Fin (g0 ((x - g) / a) / a)) ->
  (forall x, x < g -> pdf d x = Fin 0) ->
  (forall y, 0 < y -> 0 < g0 y /\ is_derive G y (g0 y)) ->
  (forall y, 0 < y -> 0 < G y < 1) ->
  (forall q, 0 < q < 1 -> ppf d q = P q * a + g /\ 0 < P q /\ G (P q) = q) ->
  (forall x, sf d x = on_pos (fun y => 1 - G y) 1 ((x - g) / a)) ->
  (forall q, 0 < q < 1 -> isf d q = ppf d (1 - q)) ->
  dist_facts d.
Proof.
  intros Ha HL HH Hcdf Hpdf Hpdf0 HG HGr HP Hsf Hisf.
  assert (forall x, inside d x -> g < x) as Hin by (intros x [H _]; rewrite HL in H; exact H).
  split.
  - intros x Hx. specialize (Hin x Hx). destruct (HG ((x - g) / a)) as [G1 G2]; [now apply scaled_pos|].
    exists (g0 ((x - g) / a) / a). split; [now apply Hpdf|split; [apply Rdiv_lt_0_compat; lra|]].
    apply (is_derive_ext (fun x => on_pos G 0 ((x - g) / a))); [intros t; symmetry; apply Hcdf|].
    now apply on_pos_derive.
  - intros x Hx. rewrite HL in Hx. simpl in Hx. rewrite Hcdf, on_pos_neg; [reflexivity|].
    now apply scaled_neg.
  - intros x Hx. rewrite HH in Hx. destruct Hx.
  - intros x Hx. specialize (Hin x Hx). rewrite Hcdf, on_pos_pos by now apply scaled_pos. apply HGr. now apply scaled_pos.
  - intros q Hq. destruct (HP q Hq) as (E & P1 & P2). rewrite E. split.
    + split; [rewrite HL|rewrite HH; exact I]. simpl. assert (0 < P q * a) by (apply Rmult_lt_0_compat; lra). lra.
    + rewrite Hcdf, unscale by exact Ha. rewrite on_pos_pos by exact P1. exact P2.
  - intros x. rewrite Hsf, Hcdf. unfold on_pos. destruct (Rlt_dec 0 ((x - g) / a)); lra.
  - exact Hisf.
  - intros x [H|H]; [rewrite HL in H|rewrite HH in H; destruct H]. now apply Hpdf0.
Qed.

Ltac inner y := destruct (Rlt_dec y 0) as [?H|?H]; [exfalso|destruct (Req_EM_T y 0) as [?H|?H]; [exfalso|]].

Lemma neg_ln_pos q : 0 < q < 1 -> 0 < - ln q.
Proof. intros Hq. assert (ln q < 0); [|lra]. rewrite <- ln_1. apply ln_increasing; lra. Qed.

Lemma exp_neg_range y : 0 < y -> 0 < exp (- y) < 1.
Proof. intros H. split; [apply exp_pos|]. apply Rlt_le_trans with (exp 0); [apply exp_increasing; lra|rewrite exp_0; lra]. Qed.

Lemma weibull_facts a b g : valid (Weibull a b g) -> dist_facts (Weibull a b g).
Proof.
  intros (Ha & Hb & Hg).
  apply (pos_family _ (fun y => 1 - exp (- Rpower y b)) (fun y => b * Rpower y (b - 1) * exp (- Rpower y b))
    (fun q => Rpower (- ln (1 - q)) (1 / b)) a g); try reflexivity; try assumption.
  - intros x Hx. pose proof (scaled_pos x g a Ha Hx). cbn [pdf]. cbv zeta. inner ((x - g) / a); [lra|lra|reflexivity].
  - intros x Hx. pose proof (scaled_lt x g a Ha Hx). cbn [pdf]. cbv zeta. destruct (Rlt_dec ((x - g) / a) 0); [reflexivity|contradiction].
  - intros y Hy. split.
    + apply Rmult_lt_0_compat; [|apply exp_pos]. apply Rmult_lt_0_compat; [lra|apply Rpower_gt_0].
    + pose proof (is_derive_Rpower_x b y Hy) as D.
      replace (b * Rpower y (b - 1) * exp (- Rpower y b)) with ((b * Rpower y (b - 1)) * exp (- Rpower y b)) by ring.
      apply (is_derive_comp (fun z => 1 - exp (- z)) (fun z => Rpower z b) y _ _); [|exact D].
      auto_derive; [exact I|ring].
  - intros y Hy. pose proof (exp_neg_range (Rpower y b) (Rpower_gt_0 _ _)). lra.
  - intros q Hq. split; [reflexivity|]. split; [apply Rpower_gt_0|].
    rewrite Rpower_solve; [|apply neg_ln_pos; lra|lra]. rewrite Ropp_involutive, exp_ln by lra. ring.
  - intros x. cbn [sf]. unfold on_pos. destruct (Rlt_dec 0 ((x - g) / a)); [ring|reflexivity].
  - intros q Hq. cbn [isf ppf]. replace (1 - (1 - q)) with q by ring. reflexivity.
Qed.

Lemma exponential_facts l g : valid (Exponential l g) -> dist_facts (Exponential l g).
Proof.
  intros (Hl & Hg). assert (0 < 1 / l) as Ha by (apply Rdiv_lt_0_compat; lra).
  apply (pos_family _ (fun y => 1 - exp (- y)) (fun y => exp (- y)) (fun q => - ln (1 - q)) (1 / l) g); try reflexivity; try assumption.
  - intros x Hx. pose proof (scaled_pos x g _ Ha Hx). cbn [pdf]. cbv zeta. destruct (Rlt_dec ((x - g) / (1 / l)) 0); [lra|reflexivity].
  - intros x Hx. pose proof (scaled_lt x g _ Ha Hx). cbn [pdf]. cbv zeta. destruct (Rlt_dec ((x - g) / (1 / l)) 0); [reflexivity|contradiction].
  - intros y Hy. split; [apply exp_pos|]. auto_derive; [exact I|ring].
  - intros y Hy. pose proof (exp_neg_range y Hy). lra.
  - intros q Hq. split; [reflexivity|]. split; [apply neg_ln_pos; lra|]. rewrite Ropp_involutive, exp_ln by lra. ring.
  - intros x. cbn [sf]. unfold on_pos. destruct (Rlt_dec 0 ((x - g) / (1 / l))); [ring|reflexivity].
  - intros q Hq. cbn [isf ppf]. replace (1 - (1 - q)) with q by ring. reflexivity.
Qed.

Lemma lognormal_facts m s g : valid (Lognormal m s g) -> dist_facts (Lognormal m s g).
Proof.
  intros (Hs & Hg). assert (0 < exp m) as Ha by apply exp_pos.
  apply (pos_family _ (fun y => Phi (ln y / s)) (fun y => phi (ln y / s) / (s * y)) (fun q => exp (s * norm_ppf q)) (exp m) g); try reflexivity; try assumption.
  - intros x Hx. pose proof (scaled_pos x g _ Ha Hx). cbn [pdf]. cbv zeta. destruct (Rle_dec ((x - g) / exp m) 0); [lra|reflexivity].
  - intros x Hx. pose proof (scaled_lt x g _ Ha Hx). cbn [pdf]. cbv zeta. destruct (Rle_dec ((x - g) / exp m) 0); [reflexivity|lra].
  - intros y Hy. split; [apply Rdiv_lt_0_compat; [apply phi_pos|now apply Rmult_lt_0_compat]|].
    replace (phi (ln y / s) / (s * y)) with (/ (s * y) * phi (ln y / s)) by (unfold Rdiv; ring).
    apply (is_derive_comp Phi (fun z => ln z / s) y); [apply Phi_derive|]. auto_derive; [exact Hy|]. field. lra.
  - intros y Hy. split; [apply Phi_gt_0|apply Phi_lt_1].
  - intros q Hq. split; [reflexivity|]. split; [apply exp_pos|]. rewrite ln_exp. replace (s * norm_ppf q / s) with (norm_ppf q) by (field; lra). now apply Phi_norm_ppf.
  - intros x. cbn [sf]. unfold on_pos. destruct (Rlt_dec 0 ((x - g) / exp m)); [apply Phi_sym|reflexivity].
  - intros q Hq. cbn [isf ppf]. rewrite norm_ppf_sym by lra. reflexivity.
Qed.

Lemma loglogistic_facts a b g : valid (Loglogistic a b g) -> dist_facts (Loglogistic a b g).
Proof.
  intros (Ha & Hb & Hg).
  apply (pos_family _ (fun y => 1 / (1 + Rpower y (- b))) (fun y => b * Rpower y (b - 1) / (1 + Rpower y b) ^ 2)
    (fun q => Rpower (/ q - 1) (- (1 / b))) a g); try reflexivity; try assumption.
  - intros x Hx. pose proof (scaled_pos x g a Ha Hx). cbn [pdf]. cbv zeta. inner ((x - g) / a); [lra|lra|reflexivity].
  - intros x Hx. pose proof (scaled_lt x g a Ha Hx). cbn [pdf]. cbv zeta. destruct (Rlt_dec ((x - g) / a) 0); [reflexivity|contradiction].
  - intros y Hy. assert (0 < Rpower y b) as Hp by apply Rpower_gt_0. split.
    + apply Rdiv_lt_0_compat; [apply Rmult_lt_0_compat; [lra|apply Rpower_gt_0]|]. apply pow_lt. lra.
    + pose proof (is_derive_Rpower_x (- b) y Hy) as D.
      assert (0 < Rpower y (- b)) as Hn by apply Rpower_gt_0.
      replace (b * Rpower y (b - 1) / (1 + Rpower y b) ^ 2) with ((- b * Rpower y (- b - 1)) * (- / (1 + Rpower y (- b)) ^ 2)).
      * apply (is_derive_comp (fun z => 1 / (1 + z)) (fun z => Rpower z (- b)) y _ _); [|exact D].
        auto_derive; [lra|]. field. lra.
      * rewrite Rpower_Ropp. replace (Rpower y (- b - 1)) with (/ Rpower y b / y).
        replace (Rpower y (b - 1)) with (Rpower y b / y).
        field. repeat split; try lra.
        -- unfold Rminus. rewrite Rpower_plus, Rpower_Ropp, Rpower_1 by exact Hy. reflexivity.
        -- unfold Rminus. rewrite Rpower_plus, (Rpower_Ropp y 1), Rpower_1, Rpower_Ropp by exact Hy. reflexivity.
  - intros y Hy. assert (0 < Rpower y (- b)) as Hn by apply Rpower_gt_0. split; [apply Rdiv_lt_0_compat; lra|].
    apply Rmult_lt_reg_r with (1 + Rpower y (- b)); [lra|]. unfold Rdiv. rewrite Rmult_assoc, Rinv_l by lra. lra.
  - intros q Hq. split; [reflexivity|]. split; [apply Rpower_gt_0|].
    assert (1 < / q) by (rewrite <- Rinv_1 at 1; apply Rinv_lt_contravar; lra).
    rewrite Rpower_mult. replace (- (1 / b) * - b) with 1 by (field; lra). rewrite Rpower_1 by lra. field. lra.
  - intros x. cbn [sf]. unfold on_pos. destruct (Rlt_dec 0 ((x - g) / a)); [|reflexivity]. rewrite Rpower_Ropp.
    assert (0 < Rpower ((x - g) / a) b) by apply Rpower_gt_0. field. lra.
  - intros q Hq. cbn [isf ppf]. replace (q / (1 - q)) with (/ (1 - q) - 1) by (field; lra). reflexivity.
Qed.

Lemma full_family (d : dist) (G g0 P : R -> R) a g :
  0 < a -> supp_lo d = m_infty -> supp_hi d = p_infty ->
  (forall x, cdf d x = G ((x - g) / a)) -> (forall x, pdf d x = Fin (g0 ((x - g) / a) / a)) ->
  (forall y, 0 < g0 y /\ is_derive G y (g0 y)) -> (forall y, 0 < G y < 1) ->
  (forall q, 0 < q < 1 -> ppf d q = P q * a + g /\ G (P q) = q) ->
  (forall x, sf d x = 1 - cdf d x) -> (forall q, 0 < q < 1 -> isf d q = ppf d (1 - q)) ->
  dist_facts d.
Proof.
  intros Ha HL HH Hcdf Hpdf HG HGr HP Hsf Hisf. split.
  - intros x Hx. destruct (HG ((x - g) / a)) as [G1 G2].
    exists (g0 ((x - g) / a) / a). split; [apply Hpdf|split; [apply Rdiv_lt_0_compat; lra|]].
    apply (is_derive_ext (fun x => G ((x - g) / a))); [intros t; symmetry; apply Hcdf|].
    replace (g0 ((x - g) / a) / a) with (/ a * g0 ((x - g) / a)) by (unfold Rdiv; ring).
    exact (is_derive_comp G (fun x => (x - g) / a) x _ (/ a) G2 (scaled_derive x g a)).
  - intros x Hx. rewrite HL in Hx. destruct Hx.
  - intros x Hx. rewrite HH in Hx. destruct Hx.
  - intros x _. rewrite Hcdf. apply HGr.
  - intros q Hq. destruct (HP q Hq) as [E P2]. split; [split; [rewrite HL|rewrite HH]; exact I|].
    rewrite E, Hcdf, unscale by exact Ha. exact P2.
  - exact Hsf.
  - exact Hisf.
  - intros x [H|H]; [rewrite HL in H|rewrite HH in H]; destruct H.
Qed.

Lemma normal_facts m s : valid (Normal m s) -> dist_facts (Normal m s).
Proof.
  intros Hs. apply (full_family _ Phi phi norm_ppf s m); try reflexivity; try assumption.
  - intros y. split; [apply phi_pos|apply Phi_derive].
  - intros y. split; [apply Phi_gt_0|apply Phi_lt_1].
  - intros q Hq. split; [reflexivity|now apply Phi_norm_ppf].
  - intros x. apply Phi_sym.
  - intros q Hq. cbn [isf ppf]. now rewrite norm_ppf_sym by lra.
Qed.

Lemma gumbel_facts m s : valid (Gumbel m s) -> dist_facts (Gumbel m s).
Proof.
  intros Hs. apply (full_family _ (fun y => 1 - exp (- exp y)) (fun y => exp (y - exp y)) (fun q => ln (- ln (1 - q))) s m); try reflexivity; try assumption.
  - intros y. split; [apply exp_pos|]. auto_derive; [exact I|]. unfold Rminus. rewrite exp_plus. ring.
  - intros y. pose proof (exp_neg_range (exp y) (exp_pos y)). lra.
  - intros q Hq. split; [reflexivity|]. rewrite exp_ln by (apply neg_ln_pos; lra). rewrite Ropp_involutive, exp_ln by lra. ring.
  - intros x. cbn [sf cdf]. ring.
  - intros q Hq. cbn [isf ppf]. replace (1 - (1 - q)) with q by ring. reflexivity.
Qed.

(** ** Gamma and Beta *)

Lemma gamma_fun_pos b : 0 < b -> 0 < gamma_fun b.
Proof. intros Hb. exact (over_pos (gamma_kernel b) 0 p_infty _ (gk_pos b) (gk_cont b) (gk_bound b Hb) I). Qed.
Lemma beta_fun_pos a b : 0 < a -> 0 < b -> 0 < beta_fun a b.
Proof. intros Ha Hb. apply (over_pos (beta_kernel a b) 0 1 _ (bk_pos a b) (bk_cont a b) (bk_bound a b Ha Hb)). simpl. lra. Qed.

(** A value between two values of a function with derivative on the interval. *)
Lemma ivt_derive (f df : R -> R) u v q : u < v -> (forall x, u <= x <= v -> is_derive f x (df x)) ->
  f u < q < f v -> exists x, u < x < v /\ f x = q.
Proof.
  intros Huv Hd [H1 H2].
  destruct (Ranalysis5.f_interv_is_interv f u v q Huv ltac:(lra)) as (x & Hx & E).
  - intros c Hc. apply continuity_pt_filterlim. apply (ex_derive_continuous f c). exists (df c). now apply Hd.
  - exists x. split; [|exact E]. destruct Hx as [[A|A] [B|B]]; subst; lra.
Qed.

Lemma gamma_std b q : 0 < b -> 0 < q < 1 -> exists y, 0 < y /\ int_below (gamma_kernel b) 0 y / gamma_fun b = q.
Proof.
  intros Hb Hq. pose proof (gamma_fun_pos b Hb) as HG.
  pose proof (gk_pos b) as Hp. pose proof (gk_cont b) as Hc. pose proof (gk_bound b Hb) as HM.
  destruct (ib_large _ 0 p_infty _ Hp Hc HM (gamma_fun b * (1 - q)) ltac:(apply Rmult_lt_0_compat; lra) I) as (v & V1 & _ & V3).
  destruct (ib_small _ 0 p_infty _ Hp Hc HM (gamma_fun b * q) v ltac:(apply Rmult_lt_0_compat; lra) V1 I) as (u & U1 & U2).
  fold (gamma_fun b) in V3.
  assert (u < v) as Huv. { destruct (proj2 U1) as [L|E]; [exact L|subst]. lra. }
  destruct (ivt_derive (int_below (gamma_kernel b) 0) (gamma_kernel b) u v (gamma_fun b * q) Huv) as (y & Hy & E).
  - intros x Hx. apply (ib_derive _ 0 p_infty _ Hp Hc HM); [lra|exact I].
  - lra.
  - exists y. split; [lra|]. rewrite E. field. lra.
Qed.

Lemma beta_std a b q : 0 < a -> 0 < b -> 0 < q < 1 -> exists y, 0 < y < 1 /\ int_below (beta_kernel a b) 0 y / beta_fun a b = q.
Proof.
  intros Ha Hb Hq. pose proof (beta_fun_pos a b Ha Hb) as HG.
  pose proof (bk_pos a b) as Hp. pose proof (bk_cont a b) as Hc. pose proof (bk_bound a b Ha Hb) as HM.
  assert (Rbar_lt 0 1) as H01 by (simpl; lra).
  destruct (ib_large _ 0 1 _ Hp Hc HM (beta_fun a b * (1 - q)) ltac:(apply Rmult_lt_0_compat; lra) H01) as (v & V1 & V2 & V3).
  destruct (ib_small _ 0 1 _ Hp Hc HM (beta_fun a b * q) v ltac:(apply Rmult_lt_0_compat; lra) V1 V2) as (u & U1 & U2).
  fold (beta_fun a b) in V3. simpl in V2.
  assert (u < v) as Huv. { destruct (proj2 U1) as [L|E]; [exact L|subst]. lra. }
  destruct (ivt_derive (int_below (beta_kernel a b) 0) (beta_kernel a b) u v (beta_fun a b * q) Huv) as (y & Hy & E).
  - intros x Hx. apply (ib_derive _ 0 1 _ Hp Hc HM); simpl; lra.
  - lra.
  - exists y. split; [lra|]. rewrite E. field. lra.
Qed.

Lemma gamma_facts a b g : valid (Gamma a b g) -> dist_facts (Gamma a b g).
Proof.
  intros (Ha & Hb & Hg). pose proof (gamma_fun_pos b Hb) as HG.
  pose proof (gk_pos b) as Hp. pose proof (gk_cont b) as Hc. pose proof (gk_bound b Hb) as HM.
  set (G := fun y => int_below (gamma_kernel b) 0 y / gamma_fun b).
  assert (forall y, 0 < y -> 0 < G y < 1) as HGr.
  { intros y Hy. unfold G. pose proof (ib_pos _ 0 p_infty _ Hp Hc HM y Hy I). pose proof (ib_lt_over _ 0 p_infty _ Hp Hc HM y Hy I) as L. fold (gamma_fun b) in L.
    split; [now apply Rdiv_lt_0_compat|]. apply Rmult_lt_reg_r with (gamma_fun b); [exact HG|]. unfold Rdiv. rewrite Rmult_assoc, Rinv_l by lra. lra. }
  assert (forall y z, 0 < y -> y < z -> G y < G z) as HGi.
  { intros y z Hy Hz. unfold G, Rdiv. apply Rmult_lt_compat_r; [now apply Rinv_0_lt_compat|]. now apply (ib_incr _ 0 p_infty _ Hp Hc HM). }
  apply (pos_family _ G (fun y => gamma_kernel b y / gamma_fun b) (fun q => (ppf (Gamma a b g) q - g) / a) a g); try reflexivity; try assumption.
  - intros x Hx. pose proof (scaled_pos x g a Ha Hx). cbn [pdf]. cbv zeta. inner ((x - g) / a); [lra|lra|reflexivity].
  - intros x Hx. pose proof (scaled_lt x g a Ha Hx). cbn [pdf]. cbv zeta. destruct (Rlt_dec ((x - g) / a) 0); [reflexivity|contradiction].
  - intros y Hy. split; [apply Rdiv_lt_0_compat; [apply Hp; [exact Hy|exact I]|exact HG]|].
    unfold G. apply (is_derive_ext (fun y => / gamma_fun b * int_below (gamma_kernel b) 0 y)); [intros t; as_R; unfold Rdiv; ring|].
    replace (gamma_kernel b y / gamma_fun b) with (/ gamma_fun b * gamma_kernel b y) by (unfold Rdiv; ring).
    apply is_derive_scal. apply (ib_derive _ 0 p_infty _ Hp Hc HM); [exact Hy|exact I].
  - intros q Hq. split; [field; lra|].
    destruct (gamma_std b q Hb Hq) as (y & Hy & E). fold (G y) in E.
    assert (ppf (Gamma a b g) q = y * a + g) as ->.
    { cbn [ppf]. apply inverse_of_eq.
      - cbn [cdf]. rewrite unscale, on_pos_pos by assumption. exact E.
      - intros x Hx. cbn [cdf] in Hx. fold G in Hx. apply Rnot_lt_le. intros Hlt.
        assert (y < (x - g) / a) as Hy2.
        { apply Rmult_lt_reg_r with a; [exact Ha|]. replace ((x - g) / a * a) with (x - g) by (field; lra). lra. }
        rewrite on_pos_pos in Hx by lra. pose proof (HGi y _ Hy Hy2). fold (G ((x - g) / a)) in Hx. lra. }
    rewrite unscale by exact Ha. split; [exact Hy|exact E].
  - intros x. cbn [sf]. unfold on_pos. destruct (Rlt_dec 0 ((x - g) / a)) as [H|H]; [|reflexivity].
    rewrite (io_above _ 0 p_infty _ _ Hp Hc HM H I). unfold G. fold (gamma_fun b). field. lra.
Qed.

Lemma beta_facts a b : valid (Beta a b) -> dist_facts (Beta a b).
Proof.
  intros (Ha & Hb). pose proof (beta_fun_pos a b Ha Hb) as HG.
  pose proof (bk_pos a b) as Hp. pose proof (bk_cont a b) as Hc. pose proof (bk_bound a b Ha Hb) as HM.
  set (G := fun y => int_below (beta_kernel a b) 0 y / beta_fun a b).
  assert (forall y, 0 < y -> y < 1 -> 0 < G y < 1) as HGr.
  { intros y Hy H1. unfold G. pose proof (ib_pos _ 0 1 _ Hp Hc HM y Hy H1). pose proof (ib_lt_over _ 0 1 _ Hp Hc HM y Hy H1) as L. fold (beta_fun a b) in L.
    split; [now apply Rdiv_lt_0_compat|]. apply Rmult_lt_reg_r with (beta_fun a b); [exact HG|]. unfold Rdiv. rewrite Rmult_assoc, Rinv_l by lra. lra. }
  assert (forall y z, 0 < y -> y < z -> z < 1 -> G y < G z) as HGi.
  { intros y z Hy Hz H1. unfold G, Rdiv. apply Rmult_lt_compat_r; [now apply Rinv_0_lt_compat|]. now apply (ib_incr _ 0 1 _ Hp Hc HM). }
  assert (forall x, 0 < x < 1 -> cdf (Beta a b) x = G x) as Hin.
  { intros x Hx. cbn [cdf]. rewrite on_pos_pos by lra. destruct (Rlt_dec x 1); [reflexivity|lra]. }
  assert (forall x, 1 <= x -> cdf (Beta a b) x = 1) as Hhi.
  { intros x Hx. cbn [cdf]. rewrite on_pos_pos by lra. destruct (Rlt_dec x 1); [lra|reflexivity]. }
  assert (forall x, x <= 0 -> cdf (Beta a b) x = 0) as Hlo by (intros x Hx; cbn [cdf]; now rewrite on_pos_neg by lra).
  assert (forall x, 0 < x < 1 -> is_derive (cdf (Beta a b)) x (beta_kernel a b x / beta_fun a b)) as Hder.
  { intros x [X1 X2]. apply (is_derive_ext_loc (fun y => / beta_fun a b * int_below (beta_kernel a b) 0 y)).
    - assert (0 < Rmin x (1 - x)) as Hm by (apply Rmin_glb_lt; lra).
      exists (mkposreal _ Hm). intros y Hy. apply Rabs_def2 in Hy. simpl in Hy. unfold minus, plus, opp in Hy; simpl in Hy.
      pose proof (Rmin_l x (1 - x)). pose proof (Rmin_r x (1 - x)). rewrite Hin by lra. unfold G, Rdiv. as_R. ring.
    - replace (beta_kernel a b x / beta_fun a b) with (/ beta_fun a b * beta_kernel a b x) by (unfold Rdiv; ring).
      apply is_derive_scal. now apply (ib_derive _ 0 1 _ Hp Hc HM). }
  assert (forall q, 0 < q < 1 -> 0 < ppf (Beta a b) q < 1 /\ cdf (Beta a b) (ppf (Beta a b) q) = q) as Hppf.
  { intros q Hq. destruct (beta_std a b q Ha Hb Hq) as (y & Hy & E). fold (G y) in E.
    assert (ppf (Beta a b) q = y) as ->; [|split; [exact Hy|rewrite Hin by exact Hy; exact E]].
    cbn [ppf]. apply inverse_of_eq; [rewrite Hin by exact Hy; exact E|].
    intros x Hx. apply Rnot_lt_le. intros Hlt. destruct (Rlt_le_dec x 1) as [L|L].
    - rewrite Hin in Hx by lra. pose proof (HGi y x ltac:(lra) Hlt L). lra.
    - rewrite Hhi in Hx by exact L. lra. }
  split.
  - intros x [X1 X2]. simpl in X1, X2. exists (beta_kernel a b x / beta_fun a b). split; [|split].
    + cbn [pdf]. destruct (Rlt_dec x 0); [lra|]. destruct (Rlt_dec 1 x); [lra|]. destruct (Req_EM_T x 0); [lra|]. destruct (Req_EM_T x 1); [lra|reflexivity].
    + apply Rdiv_lt_0_compat; [apply Hp; simpl; lra|exact HG].
    + apply Hder. lra.
  - intros x Hx. now apply Hlo.
  - intros x Hx. now apply Hhi.
  - intros x [X1 X2]. simpl in X1, X2. rewrite Hin by lra. apply HGr; lra.
  - intros q Hq. destruct (Hppf q Hq) as [A B]. split; [split; [exact (proj1 A)|exact (proj2 A)]|exact B].
  - intros x. cbn [sf]. destruct (Rle_lt_dec x 0) as [L|L]; [rewrite on_pos_neg, Hlo by lra; ring|]. rewrite on_pos_pos by exact L.
    destruct (Rlt_dec x 1) as [H|H]; [|rewrite Hhi by lra; ring].
    rewrite Hin by lra. rewrite (io_above _ 0 1 _ _ Hp Hc HM L H). unfold G. fold (beta_fun a b). field. lra.
  - reflexivity.
  - intros x H. cbn [pdf]. simpl in H. destruct (Rlt_dec x 0); [reflexivity|]. destruct (Rlt_dec 1 x); [reflexivity|destruct H; lra].
Qed.

Theorem all_facts d : valid d -> dist_facts d.
Proof.
  destruct d; intros H; [now apply weibull_facts|now apply normal_facts|now apply lognormal_facts|now apply exponential_facts
    |now apply gamma_facts|now apply beta_facts|now apply loglogistic_facts|now apply gumbel_facts].
Qed.
