(** C141: numbers in titles, legends and printed results. *)
From Coq Require Import ZArith Reals Lra Lia Bool.
From Coq Require Import String.
From Coq Require Import List.
From Verif Require Import Base Ext DistModel RoundModel RoundSpec RoundProofs.
Import ListNotations.
Open Scope R_scope.

(** Every number is shown as a number: integers exactly, a number of ordinary size to within half a
    unit of the last decimal place asked for, other numbers with as many digits after the first. A
    negative number of decimals counts as none. *)
Theorem C141_accuracy d x : exists v, says (shown_number d x) = Some v /\
  (integral x -> v = x) /\
  (ordinary x -> Rabs (v - x) <= / 10 ^ Z.to_nat d / 2) /\
  (~ ordinary x -> Rabs (v - x) <= Rabs x * / 10 ^ Z.to_nat d / 2).
Proof.
  destruct (shown_total d x) as [v H]. exists v. split; [exact H|]. split.
  - intros I. rewrite shown_integral in H by exact I. now injection H.
  - exact (shown_err d x v H).
Qed.
Print Assumptions C141_accuracy.

(** How a number is written: integers with all their digits, numbers of ordinary size with the decimals
    asked for, the others in scientific notation with one digit other than zero before the point. *)
Theorem C141_form d x :
  (integral x -> exists z, shown_number d x = Whole z) /\
  (~ integral x -> ordinary x -> exists z, shown_number d x = Places (Z.to_nat d) z) /\
  (~ integral x -> ~ ordinary x -> exists z e, shown_number d x = Sci (Z.to_nat d) z e /\ (10 ^ Z.of_nat (Z.to_nat d) <= Z.abs z < 10 ^ (Z.of_nat (Z.to_nat d) + 1))%Z).
Proof.
  change (Z.to_nat d) with (places d). unfold shown_number, round_and_string. rewrite k_places. split; [|split].
  - intros I. apply integral_frac in I. destruct (Req_EM_T (frac_part x) 0); [|contradiction].
    destruct (Req_EM_T x 0); [eexists; reflexivity|]. destruct (_ || _); eexists; reflexivity.
  - intros I [O1 O2]. destruct (Req_EM_T (frac_part x) 0) as [E|E]; [apply integral_frac in E; contradiction|].
    destruct (Req_EM_T x 0) as [->|N]; [exfalso; apply I; now exists 0%Z|].
    destruct (Rle_dec (10 ^ 9) (Rabs x)); [lra|]. destruct (Rle_dec (Rabs x) (/ 10 ^ 4)); [lra|]. eexists; reflexivity.
  - intros I O. destruct (Req_EM_T (frac_part x) 0) as [E|E]; [apply integral_frac in E; contradiction|].
    destruct (Req_EM_T x 0) as [->|N]; [exfalso; apply I; now exists 0%Z|].
    assert ((if Rle_dec (10 ^ 9) (Rabs x) then true else false) || (if Rle_dec (Rabs x) (/ 10 ^ 4) then true else false) = true) as ->.
    { destruct (Rle_dec (10 ^ 9) (Rabs x)); [reflexivity|]. destruct (Rle_dec (Rabs x) (/ 10 ^ 4)); [reflexivity|].
      exfalso. apply O. split; lra. }
    unfold sci. fold (ten (exponent x - Z.of_nat (places d))).
    pose proof (exponent_spec x N) as [L U]. set (k := places d) in *. set (u := ten (exponent x - Z.of_nat k)).
    assert (0 < u) as P by apply ten_pos.
    assert (10 ^ Z.of_nat k <= Z.abs (rne (x / u)) <= 10 ^ (Z.of_nat k + 1))%Z as [B1 B2].
    { assert (Z.abs (rne (x / u)) = rne (Rabs x / u)) as ->.
      { destruct (Rle_dec 0 x) as [S1|S1].
        - rewrite Rabs_pos_eq by exact S1. apply Z.abs_eq. rewrite <- (rne_IZR 0). apply rne_mono.
          apply Rmult_le_pos; [exact S1|]. apply Rlt_le, Rinv_0_lt_compat, P.
        - rewrite Rabs_left by lra. replace (- x / u) with (- (x / u)) by (unfold Rdiv; ring). rewrite rne_opp.
          rewrite Z.abs_neq; [reflexivity|]. rewrite <- (rne_IZR 0). apply rne_mono.
          assert (0 < / u) by now apply Rinv_0_lt_compat. unfold Rdiv. nra. }
      assert (forall b, (0 <= b + Z.of_nat k)%Z -> ten (exponent x + b) = IZR (10 ^ (b + Z.of_nat k)) * u) as T.
      { intros b Hb. rewrite <- ten_IZR by exact Hb. unfold u. rewrite <- ten_add. f_equal. lia. }
      split.
      - rewrite <- (rne_IZR (10 ^ Z.of_nat k)). apply rne_mono. apply Rmult_le_reg_r with u; [exact P|].
        replace (Rabs x / u * u) with (Rabs x) by (field; lra). specialize (T 0%Z ltac:(lia)).
        rewrite Z.add_0_r, Z.add_0_l in T. rewrite <- T. exact L.
      - rewrite <- (rne_IZR (10 ^ (Z.of_nat k + 1))). apply rne_mono. apply Rmult_le_reg_r with u; [exact P|].
        replace (Rabs x / u * u) with (Rabs x) by (field; lra). specialize (T 1%Z ltac:(lia)).
        rewrite (Z.add_comm 1 (Z.of_nat k)) in T. rewrite <- T. lra. }
    destruct (Z.eqb (Z.abs (rne (x / u))) (10 ^ (Z.of_nat k + 1))) eqn:Q; (eexists; eexists; split; [reflexivity|]).
    + apply Z.eqb_eq in Q. rewrite Z.pow_add_r in Q |- * by lia. change (10 ^ 1)%Z with 10%Z in *.
      pose proof (Z.pow_pos_nonneg 10 (Z.of_nat k) ltac:(lia) ltac:(lia)).
      assert (rne (x / u) = 10 ^ Z.of_nat k * 10 \/ rne (x / u) = - (10 ^ Z.of_nat k) * 10)%Z as [-> | ->] by lia;
        rewrite Z.div_mul by lia; lia.
    + apply Z.eqb_neq in Q. lia.
Qed.
Print Assumptions C141_form.

(** The relative error of a number shown with d decimals is at most 10^(4-d)/2: 5 percent with the
    default of 5 decimals, 50 percent with the 4 decimals of the titles of distributions. *)
Theorem C141_relative d x : exists v, says (shown_number d x) = Some v /\
  Rabs (v - x) <= Rabs x * (10 ^ 4 / 10 ^ Z.to_nat d) / 2.
Proof.
  destruct (shown_total d x) as [v H]. exists v. split; [exact H|]. destruct (shown_err d x v H) as [A B]. change (Z.to_nat d) with (places d).
  assert (0 < / 10 ^ places d) as P by (apply Rinv_0_lt_compat, pow_lt; lra).
  destruct (Rlt_dec (/ 10 ^ 4) (Rabs x)) as [C|C].
  - destruct (Rlt_dec (Rabs x) (10 ^ 9)) as [C'|C'].
    + eapply Rle_trans; [apply A; now split|]. apply Rmult_le_compat_r; [lra|]. unfold Rdiv. rewrite <- Rmult_assoc.
      rewrite <- (Rmult_1_l (/ 10 ^ places d)) at 1. apply Rmult_le_compat_r; [lra|].
      apply Rlt_le. apply Rmult_lt_reg_l with (/ 10 ^ 4); [apply Rinv_0_lt_compat; lra|].
      replace (/ 10 ^ 4 * (Rabs x * 10 ^ 4)) with (Rabs x) by (field; lra). lra.
    + eapply Rle_trans; [apply B; intros [? ?]; lra|]. apply Rmult_le_compat_r; [lra|]. apply Rmult_le_compat_l; [apply Rabs_pos|].
      unfold Rdiv. rewrite <- (Rmult_1_l (/ 10 ^ places d)) at 1. apply Rmult_le_compat_r; lra.
  - eapply Rle_trans; [apply B; intros [? ?]; lra|]. apply Rmult_le_compat_r; [lra|]. apply Rmult_le_compat_l; [apply Rabs_pos|].
    unfold Rdiv. rewrite <- (Rmult_1_l (/ 10 ^ places d)) at 1. apply Rmult_le_compat_r; lra.
Qed.
Print Assumptions C141_relative.

Lemma four_tenthousandths : shown_number 3 (4 / 10 ^ 4) = Places 3 0.
Proof.
  unfold shown_number, round_and_string. rewrite k_places. change (places 3) with 3%nat.
  assert (Int_part (4 / 10 ^ 4) = 0%Z) as I by (apply Int_part_eq; cbn; lra).
  unfold frac_part. rewrite I. destruct (Req_EM_T (4 / 10 ^ 4 - 0) 0); [lra|]. destruct (Req_EM_T (4 / 10 ^ 4) 0); [lra|].
  rewrite Rabs_pos_eq by lra. destruct (Rle_dec (10 ^ 9) (4 / 10 ^ 4)); [lra|]. destruct (Rle_dec (4 / 10 ^ 4) (/ 10 ^ 4)); [lra|].
  cbn [orb andb]. f_equal. apply rne_near. change (powerRZ 10 (Z.of_nat 3)) with (10 ^ 3). apply Rabs_def1; lra.
Qed.
(** With at least 4 decimals a number that is not zero is never shown as zero or with the other sign ... *)
Theorem C141_sign_partial d x v : (4 <= d)%Z -> says (shown_number d x) = Some v ->
  (0 < x -> 0 < v) /\ (x < 0 -> v < 0) /\ (x = 0 -> v = 0).
Proof.
  intros D H. assert (forall y w, says (shown_number d y) = Some w -> 0 < y -> 0 < w) as A.
  { intros y w Hw P. assert (0 < / 10 ^ 4) by (apply Rinv_0_lt_compat; lra).
    destruct (Rle_dec y (/ 10 ^ 4)) as [C|C].
    - destruct (small_pos d y w P ltac:(unfold small; rewrite Rabs_pos_eq; lra) Hw). lra.
    - destruct (Rlt_dec y (10 ^ 9)) as [C'|C'].
      + pose proof (ordinary_pos d y w D ltac:(lra) ltac:(unfold ordinary; rewrite Rabs_pos_eq; lra) Hw). lra.
      + destruct (shown_err d y w Hw) as [_ B]. specialize (B ltac:(unfold ordinary; rewrite Rabs_pos_eq; lra)).
        rewrite (Rabs_pos_eq y) in B by lra. assert (/ 10 ^ places d <= 1).
        { rewrite <- Rinv_1. apply Rinv_le_contravar; [lra|]. apply pow_R1_Rle. lra. }
        pose proof (Rle_abs (- (w - y))) as Q. rewrite Rabs_Ropp in Q. nra. }
  split; [now apply A|]. split.
  - intros N. pose proof (A (- x) (- v) (shown_opp d x v H)). lra.
  - intros ->. rewrite shown_0 in H. now injection H.
Qed.
Print Assumptions C141_sign_partial.
(** ... but with 3 decimals, as in the legends of the probability plots, a failure rate of 0.0004 is shown as 0.0. *)
Theorem C141_sign_refuted : legend false (Exponential (4 / 10 ^ 4) 0) = [("lambda"%string, Places 3 0)].
Proof. unfold legend, label. cbn [gamma_of own_params map fst snd]. now rewrite four_tenthousandths. Qed.
Print Assumptions C141_sign_refuted.

(** The sign of a number does not affect its digits, and showing a shown number changes nothing. *)
Theorem C141_opposite d x v : says (shown_number d x) = Some v -> says (shown_number d (- x)) = Some (- v).
Proof. apply shown_opp. Qed.
Print Assumptions C141_opposite.
Theorem C141_again d x v : says (shown_number d x) = Some v -> says (shown_number d v) = Some v.
Proof.
  intros H. destruct (Rtotal_order x 0) as [N|[->|P]].
  - pose proof (again_pos d (- x) (- v) ltac:(lra) (shown_opp d x v H)) as A. apply shown_opp in A. now rewrite Ropp_involutive in A.
  - rewrite shown_0 in H. injection H as <-. apply shown_0.
  - now apply again_pos with x.
Qed.
Print Assumptions C141_again.

(** Numbers below 10^9 shown with at least 4 decimals keep their order ... *)
Theorem C141_order_partial d x y v w : (4 <= d)%Z -> Rabs x < 10 ^ 9 -> Rabs y < 10 ^ 9 -> x <= y ->
  says (shown_number d x) = Some v -> says (shown_number d y) = Some w -> v <= w.
Proof.
  intros D X Y H Hv Hw. apply Rabs_def2 in X. apply Rabs_def2 in Y.
  destruct (Rle_dec 0 x) as [A|A].
  - now apply (order_pos d x y v w D A H).
  - destruct (Rle_dec y 0) as [B|B].
    + assert (0 <= - w <= - v); [|lra]. apply (order_pos d (- y) (- x)); try lra; [exact D|now apply shown_opp|now apply shown_opp].
    + assert (v <= 0).
      { apply shown_opp in Hv. pose proof (order_pos d 0 (- x) 0 (- v) D ltac:(lra) ltac:(lra) ltac:(lra) (shown_0 d) Hv). lra. }
      pose proof (order_pos d 0 y 0 w D ltac:(lra) ltac:(lra) ltac:(lra) (shown_0 d) Hw). lra.
Qed.
Print Assumptions C141_order_partial.
(** ... with 3 decimals a smaller number may look larger: 0.00005 is shown as 5e-05 and 0.0004 as 0.0. And
    from 10^9 on 1000004999.5 (shown as 1e+09) looks smaller than 1000000001, which is shown with all its digits. *)
Lemma sci_value d x e z : ~ ordinary x -> ten e <= Rabs x < ten (e + 1) -> ~ integral x ->
  Rabs (x / ten (e - Z.of_nat (places d)) - IZR z) < 1 / 2 ->
  says (shown_number d x) = Some (IZR z * ten (e - Z.of_nat (places d))).
Proof.
  intros O E I H. assert (x <> 0) as N by now apply not_integral_0. apply exponent_iff in E; [|exact N].
  rewrite shown_sci by assumption. rewrite E. unfold on_grid. now rewrite (rne_near _ z).
Qed.
Lemma between_not_integral x z : IZR z < x < IZR z + 1 -> ~ integral x.
Proof.
  intros H [w ->]. assert (z < w)%Z by (apply lt_IZR; lra). assert (w < z + 1)%Z by (apply lt_IZR; rewrite plus_IZR; lra). lia.
Qed.
Theorem C141_order_refuted :
  (exists v w, says (shown_number 3 (5 / 10 ^ 5)) = Some v /\ says (shown_number 3 (4 / 10 ^ 4)) = Some w /\ w < v) /\
  (exists v w, says (shown_number 5 1000000001) = Some v /\ says (shown_number 5 (10000049995 / 10)) = Some w /\ w < v).
Proof.
  split.
  - exists (5 / 10 ^ 5), 0. split; [|split; [|lra]].
    + rewrite (sci_value 3 (5 / 10 ^ 5) (-5) 5000).
      * change (places 3) with 3%nat. f_equal. rewrite ten_sub, ten_nat. change (-5)%Z with (- Z.of_nat 5)%Z. rewrite ten_opp, ten_nat. lra.
      * unfold ordinary. rewrite Rabs_pos_eq by lra. lra.
      * rewrite Rabs_pos_eq by lra. change (-5 + 1)%Z with (- Z.of_nat 4)%Z. change (-5)%Z with (- Z.of_nat 5)%Z. rewrite !ten_opp, !ten_nat. lra.
      * apply (between_not_integral _ 0). lra.
      * change (places 3) with 3%nat. rewrite ten_sub, ten_nat. change (-5)%Z with (- Z.of_nat 5)%Z. rewrite ten_opp, ten_nat.
        replace (5 / 10 ^ 5 / (/ 10 ^ 5 / 10 ^ 3)) with 5000 by (field; lra). apply Rabs_def1; lra.
    + rewrite four_tenthousandths. cbn [says]. f_equal. unfold Rdiv. ring.
  - exists 1000000001, (10 ^ 9). split; [apply shown_integral; now exists 1000000001%Z|]. split; [|lra].
    rewrite (sci_value 5 (10000049995 / 10) 9 100000).
    + change (places 5) with 5%nat. f_equal. change 9%Z with (Z.of_nat 9). rewrite ten_sub, !ten_nat. lra.
    + unfold ordinary. rewrite Rabs_pos_eq by lra. lra.
    + rewrite Rabs_pos_eq by lra. change (9 + 1)%Z with (Z.of_nat 10). change 9%Z with (Z.of_nat 9). rewrite !ten_nat. lra.
    + apply (between_not_integral _ 1000004999). lra.
    + change (places 5) with 5%nat. change 9%Z with (Z.of_nat 9). rewrite ten_sub, !ten_nat.
      replace (10000049995 / 10 / (10 ^ 9 / 10 ^ 5)) with (10000049995 / 100000) by (field; lra). apply Rabs_def1; lra.
Qed.
Print Assumptions C141_order_refuted.

(** The examples of the documentation are right except for the two of size 10^20, which are said to be
    shown as 1e+20 but are shown with all their digits. *)
Lemma sci_form d x e z : ~ ordinary x -> ten e <= Rabs x < ten (e + 1) -> ~ integral x ->
  Rabs (x / ten (e - Z.of_nat (places d)) - IZR z) < 1 / 2 -> (Z.abs z < 10 ^ (Z.of_nat (places d) + 1))%Z ->
  shown_number d x = Sci (places d) z e.
Proof.
  intros O E I H B. assert (x <> 0) as N by now apply not_integral_0. apply exponent_iff in E; [|exact N].
  unfold shown_number, round_and_string. rewrite k_places.
  destruct (Req_EM_T (frac_part x) 0) as [F|F]; [apply integral_frac in F; contradiction|].
  destruct (Req_EM_T x 0); [contradiction|].
  assert ((if Rle_dec (10 ^ 9) (Rabs x) then true else false) || (if Rle_dec (Rabs x) (/ 10 ^ 4) then true else false) = true) as ->.
  { destruct (Rle_dec (10 ^ 9) (Rabs x)); [reflexivity|]. destruct (Rle_dec (Rabs x) (/ 10 ^ 4)); [reflexivity|].
    exfalso. apply O. split; lra. }
  unfold sci. rewrite E. fold (ten (e - Z.of_nat (places d))). rewrite (rne_near _ z H).
  destruct (Z.eqb_spec (Z.abs z) (10 ^ (Z.of_nat (places d) + 1))); [lia|reflexivity].
Qed.
Lemma whole_form d z : shown_number d (IZR z) = Whole z.
Proof.
  destruct (C141_form d (IZR z)) as [A _]. destruct (A ltac:(now exists z)) as [w E]. rewrite E. f_equal.
  pose proof (shown_integral d (IZR z) ltac:(now exists z)) as Q. rewrite E in Q. injection Q as Q. now apply eq_IZR.
Qed.
Lemma pow_inv_le n : 0 < / 10 ^ n.
Proof. apply Rinv_0_lt_compat, pow_lt. lra. Qed.
Theorem C141_documented_partial x s : In (x, s) documented -> Rabs x <> 10 ^ 20 -> shown_number 5 x = s.
Proof.
  assert (shown_number 5 (54857485 / 10 ^ 12) = Sci 5 548575 (-5)) as S1.
  { apply (sci_form 5 _ (-5) 548575).
    - unfold ordinary. rewrite Rabs_pos_eq by lra. lra.
    - rewrite Rabs_pos_eq by lra. change (-5 + 1)%Z with (- Z.of_nat 4)%Z. change (-5)%Z with (- Z.of_nat 5)%Z. rewrite !ten_opp, !ten_nat. lra.
    - apply (between_not_integral _ 0). lra.
    - change (places 5) with 5%nat. rewrite ten_sub, ten_nat. change (-5)%Z with (- Z.of_nat 5)%Z. rewrite ten_opp, ten_nat.
      replace (54857485 / 10 ^ 12 / (/ 10 ^ 5 / 10 ^ 5)) with (54857485 / 100) by (field; lra). apply Rabs_def1; lra.
    - reflexivity. }
  assert (shown_number 5 (254875415 / 10 ^ 24) = Sci 5 254875 (-16)) as S2.
  { apply (sci_form 5 _ (-16) 254875).
    - unfold ordinary. rewrite Rabs_pos_eq by lra. lra.
    - rewrite Rabs_pos_eq by lra. change (-16 + 1)%Z with (- Z.of_nat 15)%Z. change (-16)%Z with (- Z.of_nat 16)%Z. rewrite !ten_opp, !ten_nat. lra.
    - apply (between_not_integral _ 0). lra.
    - change (places 5) with 5%nat. rewrite ten_sub, ten_nat. change (-16)%Z with (- Z.of_nat 16)%Z. rewrite ten_opp, ten_nat.
      replace (254875415 / 10 ^ 24 / (/ 10 ^ 16 / 10 ^ 5)) with (254875415 / 1000) by (field; lra). apply Rabs_def1; lra.
    - reflexivity. }
  assert (forall x k z e, shown_number 5 x = Sci k z e -> says (shown_number 5 (- x)) = Some (- (IZR z / 10 ^ k * powerRZ 10 e))) as O.
  { intros y k z e H. apply shown_opp. now rewrite H. }
  assert (shown_number 5 (- (54857485 / 10 ^ 12)) = Sci 5 (-548575) (-5)) as S3.
  { apply (sci_form 5 _ (-5) (-548575)).
    - rewrite ordinary_opp. unfold ordinary. rewrite Rabs_pos_eq by lra. lra.
    - rewrite Rabs_Ropp, Rabs_pos_eq by lra. change (-5 + 1)%Z with (- Z.of_nat 4)%Z. change (-5)%Z with (- Z.of_nat 5)%Z. rewrite !ten_opp, !ten_nat. lra.
    - apply (between_not_integral _ (-1)). lra.
    - change (places 5) with 5%nat. rewrite ten_sub, ten_nat. change (-5)%Z with (- Z.of_nat 5)%Z. rewrite ten_opp, ten_nat.
      replace (- (54857485 / 10 ^ 12) / (/ 10 ^ 5 / 10 ^ 5)) with (- (54857485 / 100)) by (field; lra). apply Rabs_def1; lra.
    - reflexivity. }
  assert (shown_number 5 (- (254875415 / 10 ^ 24)) = Sci 5 (-254875) (-16)) as S4.
  { apply (sci_form 5 _ (-16) (-254875)).
    - rewrite ordinary_opp. unfold ordinary. rewrite Rabs_pos_eq by lra. lra.
    - rewrite Rabs_Ropp, Rabs_pos_eq by lra. change (-16 + 1)%Z with (- Z.of_nat 15)%Z. change (-16)%Z with (- Z.of_nat 16)%Z. rewrite !ten_opp, !ten_nat. lra.
    - apply (between_not_integral _ (-1)). lra.
    - change (places 5) with 5%nat. rewrite ten_sub, ten_nat. change (-16)%Z with (- Z.of_nat 16)%Z. rewrite ten_opp, ten_nat.
      replace (- (254875415 / 10 ^ 24) / (/ 10 ^ 16 / 10 ^ 5)) with (- (254875415 / 1000)) by (field; lra). apply Rabs_def1; lra.
    - reflexivity. }
  clear O. intros H N. unfold documented in H. cbn [In] in H.
  repeat destruct H as [H|H]; try contradiction; apply pair_equal_spec in H; destruct H as [<- <-]; try assumption.
  - exfalso. apply N. rewrite Rabs_Ropp, Rabs_pos_eq; [reflexivity|apply pow_le; lra].
  - replace (- 10 ^ 8) with (IZR (-100000000)) by lra. apply whole_form.
  - replace (- (10)) with (IZR (-10)) by lra. apply whole_form.
  - apply whole_form.
  - apply whole_form.
  - replace (10 ^ 8) with (IZR 100000000) by lra. apply whole_form.
  - exfalso. apply N. rewrite Rabs_pos_eq; [reflexivity|apply pow_le; lra].
Qed.
Print Assumptions C141_documented_partial.
Theorem C141_documented_refuted : In (10 ^ 20, Sci 0 1 20) documented /\ shown_number 5 (10 ^ 20) = Whole (10 ^ 20).
Proof.
  split; [cbn [documented In]; tauto|]. replace (10 ^ 20) with (IZR (10 ^ 20)) by (symmetry; exact (pow_IZR 10 20)). apply whole_form.
Qed.
Print Assumptions C141_documented_refuted.

(** The other arguments: whatever the limits for scientific notation, and whether integers are shown
    without a point or not, a finite number is shown to within half a unit of the last place asked for or
    of as many digits after the first; nan and infinity are passed through. *)
Theorem C141_options d ints large small x : exists v, says (round_and_string (Fin x) d ints large small) = Some v /\
  (Rabs (v - x) <= / 10 ^ Z.to_nat d / 2 \/ Rabs (v - x) <= Rabs x * / 10 ^ Z.to_nat d / 2) /\ (integral x -> v = x).
Proof.
  change (Z.to_nat d) with (places d). unfold round_and_string. rewrite k_places.
  assert (0 < / 10 ^ places d) as P by apply pow_inv_le.
  assert (forall v, v = x -> (Rabs (v - x) <= / 10 ^ places d / 2 \/ Rabs (v - x) <= Rabs x * / 10 ^ places d / 2) /\ (integral x -> v = x)) as A.
  { intros v ->. split; [left; rewrite Rminus_diag_eq, Rabs_R0 by reflexivity; lra|auto]. }
  assert (frac_part x = 0 -> IZR (Int_part x) = x) as B by (unfold frac_part; lra).
  destruct (Req_EM_T x 0) as [E|N].
  { destruct (_ && _); eexists; (split; [reflexivity|apply A]); [|reflexivity]. rewrite E. now rewrite (Int_part_IZR 0). }
  destruct (_ || _).
  - destruct (Req_EM_T (frac_part x) 0) as [F|F].
    + destruct ints; eexists; (split; [reflexivity|apply A]); auto.
    + rewrite sci_says. eexists. split; [reflexivity|]. split; [right|intros I; apply integral_frac in I; contradiction].
      pose proof (on_grid_err (ten (exponent x - Z.of_nat (places d))) x (ten_pos _)) as E. unfold on_grid in E.
      pose proof (exponent_spec x N) as [L _]. eapply Rle_trans; [exact E|].
      replace (ten (exponent x - Z.of_nat (places d)) / 2) with (ten (exponent x) * / 10 ^ places d / 2)
        by (rewrite ten_sub, ten_nat; unfold Rdiv; ring).
      apply Rmult_le_compat_r; [lra|]. apply Rmult_le_compat_r; lra.
  - assert (says (Places (places d) (rne (x * powerRZ 10 (Z.of_nat (places d))))) = Some (on_grid (ten (- Z.of_nat (places d))) x)) as Q.
    { cbn [says]. f_equal. unfold on_grid. rewrite ten_opp, ten_nat. fold (ten (Z.of_nat (places d))). rewrite ten_nat.
      unfold Rdiv. rewrite Rinv_inv. reflexivity. }
    destruct (ints && _) eqn:W.
    + apply andb_prop in W. destruct W as [_ W]. destruct (Req_EM_T (frac_part x) 0) as [F|F]; [|discriminate].
      eexists; split; [reflexivity|]. apply A. auto.
    + eexists. split; [exact Q|]. split; [left|intros I; now apply integral_grid].
      pose proof (on_grid_err (ten (- Z.of_nat (places d))) x (ten_pos _)) as E. rewrite ten_opp, ten_nat in E. rewrite ten_opp, ten_nat. exact E.
Qed.
Print Assumptions C141_options.
Theorem C141_special d ints large small x : (forall r, x <> Fin r) -> round_and_string x d ints large small = Special x.
Proof. intros H. destruct x as [r| |]; [exfalso; now apply (H r)|reflexivity|reflexivity]. Qed.
Print Assumptions C141_special.

(** The title of a distribution names its parameters in the order of its arguments, gamma only if it is
    not zero, each with its sign and with an error of at most half. *)
Theorem C141_titles d : map fst (param_title d) =
    map fst (own_params d) ++ (match gamma_of d with Some g => if Req_EM_T g 0 then [] else ["gamma"%string] | None => [] end) /\
  Forall2 (fun p s => exists v, says (snd s) = Some v /\ Rabs (v - snd p) <= Rabs (snd p) / 2)
    (own_params d ++ match gamma_of d with Some g => if Req_EM_T g 0 then [] else [("gamma"%string, g)] | None => [] end) (param_title d).
Proof.
  assert (forall l, Forall2 (fun p s => exists v, says (snd s) = Some v /\ Rabs (v - snd p) <= Rabs (snd p) / 2) l (label 4 l)) as A.
  { induction l as [|p l IH]; cbn [label map]; constructor; [|exact IH]. cbn [snd].
    destruct (C141_relative 4 (snd p)) as [v [H B]]. exists v. split; [exact H|]. change (Z.to_nat 4) with 4%nat in B.
    replace (10 ^ 4 / 10 ^ 4) with 1 in B by (field; lra). lra. }
  assert (forall l, map fst (label 4 l) = map fst l) as F.
  { intros l. unfold label. rewrite map_map. reflexivity. }
  unfold param_title. destruct (gamma_of d) as [g|]; [destruct (Req_EM_T g 0)|]; rewrite F, ?map_app, ?app_nil_r; (split; [reflexivity|apply A]).
Qed.
Print Assumptions C141_titles.

(** A case: a Weibull distribution with a location, in its title. *)
Example C141_case : param_title (Weibull 100 (/ 3) 20) = [("alpha", Whole 100); ("beta", Places 4 3333); ("gamma", Whole 20)]%string /\
  says (Places 4 3333) = Some (3333 / 10 ^ 4).
Proof.
  split; [|reflexivity]. unfold param_title. cbn [gamma_of]. destruct (Req_EM_T 20 0); [lra|]. unfold label. cbn [own_params app map fst snd].
  rewrite (whole_form 4 100), (whole_form 4 20). repeat f_equal.
  destruct (C141_form 4 (/ 3)) as [_ [A _]].
  destruct A as [z E]; [apply (between_not_integral _ 0); lra|unfold ordinary; rewrite Rabs_pos_eq; lra|].
  rewrite E. change (Z.to_nat 4) with 4%nat in *. f_equal.
  pose proof (shown_ordinary 4 (/ 3) ltac:(unfold ordinary; rewrite Rabs_pos_eq; lra)) as Q. rewrite E in Q. cbn [says] in Q.
  assert (forall a b : R, Some a = Some b -> a = b) as J by (intros a b H; now inversion H). apply J in Q.
  unfold on_grid in Q. change (places 4) with 4%nat in Q. rewrite (rne_near _ 3333) in Q.
  - rewrite ten_opp, ten_nat in Q. apply eq_IZR. apply Rmult_eq_reg_r with (/ 10 ^ 4); [exact Q|]. pose proof (pow_inv_le 4). lra.
  - rewrite ten_opp, ten_nat. replace (/ 3 / / 10 ^ 4) with (10000 / 3) by (field; lra). apply Rabs_def1; lra.
Qed.
