(** C119: the mean residual life. *)
From Coquelicot Require Import Coquelicot.
From Coq Require Import List Arith Reals Lra Lia.
From Verif Require Import Base RealFacts Gauss Improper Ext DistModel DistSpec DistIntegrals DistProofs PoFProofs2 DistProofs2 FitProofs2 DistProofs4 DistProofs5 ExpectSpec Expect MomentModel MomentSpec MomentProofs MomentProofs2 MomentProofs3 MomentProofs4 GumbelMean MRLProofs MRLProofs2 MRLProofs3.
Import ListNotations.
Open Scope R_scope.

(** A quadrature that is right whenever the integral exists: used in the examples. *)
Lemma some_quad_right : exists quad, quad_right quad.
Proof.
  exists (fun f t => real (Lim_seq (fun n => RInt f (t + / (INR n + 1)) (t + INR n)))).
  intros f t v K. assert (is_lim_seq (fun n => RInt f (t + / (INR n + 1)) (t + INR n)) v) as L; [|now rewrite (is_lim_seq_unique _ _ L)].
  apply is_lim_seq_spec. intros eps. destruct (K eps (cond_pos eps)) as (a0 & b0 & [Ia _] & [Ib _] & _ & F). simpl in Ia, Ib.
  destruct (archimed_cor1 (a0 - t) ltac:(lra)) as (N1 & E1 & P1). destruct (nfloor_ex (Rmax (b0 - t) 0) (Rmax_r _ _)) as (N2 & E2).
  pose proof (Rmax_l (b0 - t) 0) as M. exists (N1 + N2 + 1)%nat. intros n Hn.
  assert (INR N1 <= INR n) as H1 by (apply le_INR; lia). assert (INR N2 + 1 <= INR n) as H2. { rewrite <- S_INR. apply le_INR. lia. }
  assert (0 < INR N1) as H0 by (apply lt_0_INR; lia). assert (/ (INR n + 1) <= / INR N1) as H3 by (apply Rinv_le_contravar; lra).
  assert (0 < / (INR n + 1)) as H4 by (apply Rinv_0_lt_compat; lra). pose proof (pos_INR N2).
  destruct (F (t + / (INR n + 1)) (t + INR n)) as (J & RJ & D); [split; simpl; [lra|exact I]|split; simpl; [lra|exact I]|lra|lra|].
  rewrite (is_RInt_unique _ _ _ _ RJ). exact D.
Qed.

(** The mean residual life at a time the unit can survive to is positive and is the
    conditional expectation of the remaining life: the integral of (x - t) times the density
    over the times after t, divided by the probability of surviving to t. *)
Theorem C119_remaining quad d m (t : R) :
  quad_right quad -> valid d -> mean d = Some m -> Rbar_lt t (supp_hi d) ->
  exists v, remaining d t v /\ mean_residual_life quad d t = v / (1 - cdf d t) /\ 0 < mean_residual_life quad d t.
Proof.
  intros Q V M Ht. pose proof (mean_is_expectation d m V M) as E. destruct (remaining_exists d m t V Ht E) as (v & K). exists v. split; [assumption|].
  rewrite (mrl_right quad d t v Q V Ht K), <- (sf_cdf d V). split; [reflexivity|]. apply Rdiv_lt_0_compat; [now apply (remaining_pos d t)|now apply sf_pos].
Qed.
Print Assumptions C119_remaining.

(** Before the first possible failure the mean residual life is the mean less the age. *)
Theorem C119_new quad d m (t : R) :
  quad_right quad -> valid d -> mean d = Some m -> Rbar_le t (supp_lo d) ->
  mean_residual_life quad d t = m - t.
Proof.
  intros Q V M L. pose proof (mean_is_expectation d m V M) as E.
  assert (Rbar_lt t (supp_hi d)) as Ht. { destruct (two_inside d V) as (x & _ & [X1 X2] & _). apply Rbar_le_lt_trans with (supp_lo d); [assumption|]. now apply Rbar_lt_trans with x. }
  rewrite (mrl_right quad d t (m - t) Q V Ht (remaining_new d m t V L E)), (sf_below d V t L). field.
Qed.
Print Assumptions C119_new.

(** The expected age at failure, age plus mean residual life, never falls with the age. *)
Theorem C119_ageing quad d m (t1 t2 : R) :
  quad_right quad -> valid d -> mean d = Some m -> t1 <= t2 -> Rbar_lt t2 (supp_hi d) ->
  t1 + mean_residual_life quad d t1 <= t2 + mean_residual_life quad d t2.
Proof.
  intros Q V M L H2. pose proof (mean_is_expectation d m V M) as E. assert (Rbar_lt t1 (supp_hi d)) as H1 by (apply Rbar_le_lt_trans with t2; assumption).
  destruct (remaining_exists d m t1 V H1 E) as (v1 & K1), (remaining_exists d m t2 V H2 E) as (v2 & K2).
  rewrite (mrl_right quad d t1 v1 Q V H1 K1), (mrl_right quad d t2 v2 Q V H2 K2).
  apply ageing; [assumption|assumption|assumption|now apply (remaining_pos d t2)|now apply remaining_integral|now apply remaining_integral].
Qed.
Print Assumptions C119_ageing.

(** An exponential unit does not age. *)
Theorem C119_exponential quad l g t :
  quad_right quad -> valid (Exponential l g) -> g <= t ->
  mean_residual_life quad (Exponential l g) t = 1 / l.
Proof.
  intros Q V L. assert (0 < l) as Hl by (simpl in V; lra). unfold mean_residual_life. rewrite (Q _ _ _ (exp_tail l g t Hl L)).
  pose proof (sf_pos (Exponential l g) V t I). field. lra.
Qed.
Print Assumptions C119_exponential.

(** A Weibull unit wears out if beta >= 1 and improves if beta <= 1. *)
Theorem C119_weibull quad a b g t1 t2 :
  quad_right quad -> valid (Weibull a b g) -> g <= t1 -> t1 <= t2 ->
  (1 <= b -> mean_residual_life quad (Weibull a b g) t2 <= mean_residual_life quad (Weibull a b g) t1)
  /\ (b <= 1 -> mean_residual_life quad (Weibull a b g) t1 <= mean_residual_life quad (Weibull a b g) t2).
Proof.
  intros Q V L1 L2. assert (0 < a /\ 0 < b) as [Ha Hb] by (simpl in V; tauto). set (d := Weibull a b g) in *.
  assert (mean d = Some (scipy_mean d)) as M by reflexivity. pose proof (mean_is_expectation d _ V M) as E. assert (forall t : R, Rbar_lt t (supp_hi d)) as HH by (intros; exact I).
  destruct (remaining_exists d _ t1 V (HH t1) E) as (v1 & K1), (remaining_exists d _ t2 V (HH t2) E) as (v2 & K2).
  rewrite (mrl_right quad d t1 v1 Q V (HH t1) K1), (mrl_right quad d t2 v2 Q V (HH t2) K2). apply remaining_integral in K1, K2; try assumption; try exact I.
  split; intros Hb1; apply compare_ages; try assumption; try exact I; intros x Px; unfold d; rewrite !weibull_cum, <- !exp_plus; apply exp_le.
  - pose proof (cum_grow a b g t1 t2 x Ha Hb1 L1 L2 Px). lra.
  - pose proof (cum_shrink a b g t1 t2 x Ha ltac:(lra) L1 L2 Px). lra.
Qed.
Print Assumptions C119_weibull.

(** Only a Loglogistic distribution with beta <= 1 has no mean, and there the integral of the
    survival function that the program asks the quadrature for does not exist. *)
Theorem C119_no_mean d t v :
  valid d -> mean d = None -> ~ integral_over (sf d) (Finite t) p_infty v.
Proof.
  intros V M. destruct d; try discriminate M. apply loglogistic_no_tail; [assumption|]. cbn [mean reported] in M. destruct Rlt_dec in M; [discriminate|]. lra.
Qed.
Print Assumptions C119_no_mean.

(** The hypotheses hold: a Weibull wear-out distribution, an Exponential one, a Beta one with
    its bounded support, a Loglogistic one without a mean. *)
Example C119_applies :
  (exists quad, quad_right quad) /\
  valid (Weibull 100 2 10) /\ (exists m, mean (Weibull 100 2 10) = Some m) /\ Rbar_lt 50 (supp_hi (Weibull 100 2 10)) /\
  valid (Exponential (1 / 5) 3) /\ mean (Exponential (1 / 5) 3) = Some (1 * (1 / (1 / 5)) + 3) /\
  valid (DistModel.Beta 2 3) /\ Rbar_lt (1 / 2) (supp_hi (DistModel.Beta 2 3)) /\
  valid (Loglogistic 10 (1 / 2) 0) /\ mean (Loglogistic 10 (1 / 2) 0) = None /\ mean (Loglogistic 10 2 0) <> None.
Proof.
  split; [exact some_quad_right|]. simpl. destruct Rlt_dec; [lra|]. destruct Rlt_dec; [|lra]. repeat split; try lra; try eexists; try reflexivity; try discriminate.
Qed.
