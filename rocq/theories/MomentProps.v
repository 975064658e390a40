(** C120: mean, variance, standard deviation, skewness, kurtosis, b5 and b95. *)
From Coquelicot Require Import Coquelicot.
From Coq Require Import List Arith Reals Lra Lia.
From Verif Require Import Base RealFacts Gauss Improper Ext DistModel DistSpec DistIntegrals DistProofs PoFProofs2 DistProofs2 FitProofs2 DistProofs4 DistProofs5 ExpectSpec Expect MomentModel MomentSpec MomentProofs MomentProofs2 MomentProofs3 MomentProofs4 GumbelMean GumbelMoments MRLProofs MRLProofs2 MRLProofs3.
Import ListNotations.
Open Scope R_scope.

(** The reported mean is the expectation, for every distribution. *)
Theorem C120_mean d m : valid d -> mean d = Some m -> expectation d (fun x => x) m.
Proof. apply mean_is_expectation. Qed.
Print Assumptions C120_mean.

(** The reported variance is the expected squared distance from the reported mean, it is
    positive, and the reported standard deviation is its square root. *)
Theorem C120_variance d v :
  valid d -> variance d = Some v ->
  exists m, mean d = Some m /\ expectation d (fun x => (x - m) ^ 2) v /\ 0 < v /\ standard_deviation d = Some (sqrt v).
Proof.
  intros V E. destruct (variance_right d V (all_moments d V) (all_right d V) v E) as (m & M & P & X). exists m. split; [assumption|]. split; [assumption|]. split; [assumption|].
  rewrite sd_eq by assumption. rewrite variance_eq in E. destruct (reported d 2); [|discriminate]. f_equal. assert (scipy_var d = v) as -> by congruence. now apply Rpower_half.
Qed.
Print Assumptions C120_variance.

(** The reported skewness and kurtosis are the third and fourth moments of the standardised
    lifetime; the excess kurtosis is 3 less. *)
Theorem C120_shape d :
  valid d ->
  (forall k, skewness d = Some k ->
     exists m s, mean d = Some m /\ standard_deviation d = Some s /\ expectation d (fun x => ((x - m) / s) ^ 3) k) /\
  (forall k, kurtosis d = Some k ->
     exists m s, mean d = Some m /\ standard_deviation d = Some s /\ expectation d (fun x => ((x - m) / s) ^ 4) k).
Proof.
  intros V. pose proof (all_moments d V). pose proof (all_right d V). split; intros k E; [now apply skewness_right|now apply kurtosis_right].
Qed.
Print Assumptions C120_shape.

Theorem C120_excess d :
  match kurtosis d, excess_kurtosis d with Some k, Some e => k = e + 3 | None, None => True | _, _ => False end.
Proof. rewrite kurtosis_eq, excess_eq. destruct (reported d 4); [reflexivity|exact I]. Qed.
Print Assumptions C120_excess.

(** A message instead of a number is given exactly when the moment does not exist, whatever
    the centre. *)
Theorem C120_missing d :
  valid d ->
  (mean d = None -> forall c v, ~ expectation d (fun x => (x - c) ^ 1) v) /\
  (variance d = None -> forall c v, ~ expectation d (fun x => (x - c) ^ 2) v) /\
  (standard_deviation d = None <-> variance d = None) /\
  (skewness d = None -> forall c v, ~ expectation d (fun x => (x - c) ^ 3) v) /\
  (kurtosis d = None -> forall c v, ~ expectation d (fun x => (x - c) ^ 4) v).
Proof.
  intros V. rewrite mean_eq, variance_eq, sd_eq, skewness_eq, kurtosis_eq by assumption.
  assert (forall n r, r = INR n -> (1 <= n)%nat -> reported d r = false -> forall c v, ~ expectation d (fun x => (x - c) ^ n) v) as K.
  { intros n r -> Hn E c v. destruct (unreported d n E) as (a & b & g & -> & L). now apply loglogistic_no_moment. }
  split; [destruct (reported d 1) eqn:E; [discriminate|intros _; apply (K 1%nat 1); [simpl; ring|lia|assumption]]|].
  split; [destruct (reported d 2) eqn:E; [discriminate|intros _; apply (K 2%nat 2); [simpl; ring|lia|assumption]]|].
  split; [destruct (reported d 2); split; intros; (reflexivity || discriminate)|].
  split; [destruct (reported d 3) eqn:E; [discriminate|intros _; apply (K 3%nat 3); [simpl; ring|lia|assumption]]|].
  destruct (reported d 4) eqn:E; [discriminate|intros _; apply (K 4%nat 4); [simpl; ring|lia|assumption]].
Qed.
Print Assumptions C120_missing.

(** 5 per cent fail before b5 and 95 per cent before b95. *)
Theorem C120_percentiles d :
  valid d -> inside d (b5 d) /\ inside d (b95 d) /\ b5 d < b95 d /\ cdf d (b5 d) = 5 / 100 /\ cdf d (b95 d) = 95 / 100.
Proof.
  intros V. unfold b5, b95. destruct (F_ppf d (all_facts d V) (5 / 100) ltac:(lra)) as [I1 E1], (F_ppf d (all_facts d V) (95 / 100) ltac:(lra)) as [I2 E2].
  split; [assumption|]. split; [assumption|]. split; [|now split].
  destruct (Rlt_le_dec (ppf d (5 / 100)) (ppf d (95 / 100))) as [L|L]; [assumption|]. pose proof (cdf_incr d V _ _ L). lra.
Qed.
Print Assumptions C120_percentiles.

(** The hypotheses hold: skewness and kurtosis reported for a Gamma distribution; a
    Loglogistic one with a mean but no variance. *)
Example C120_applies :
  valid (Gamma 10 4 5) /\ mean (Gamma 10 4 5) = Some 45 /\ variance (Gamma 10 4 5) = Some 400 /\ kurtosis (Gamma 10 4 5) = Some (6 / 4 + 3) /\
  valid (Loglogistic 10 (3 / 2) 0) /\ mean (Loglogistic 10 (3 / 2) 0) <> None /\ variance (Loglogistic 10 (3 / 2) 0) = None /\
  valid (Gumbel 50 5) /\ mean (Gumbel 50 5) = Some (- euler_gamma * 5 + 50) /\ variance (Gumbel 50 5) = Some (PI * PI / 6 * 25) /\
  kurtosis (Gumbel 50 5) = Some (12 / 5 + 3).
Proof.
  simpl. destruct Rlt_dec; [|lra]. destruct Rlt_dec; [lra|]. repeat split; try lra; try reflexivity; try discriminate; f_equal; unfold scipy_mean, scipy_var; simpl; lra.
Qed.
