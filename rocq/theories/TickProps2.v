(** Property C161: the labels of the ticks of probability plots, and the choice of the tick locator. *)
From Coquelicot Require Import Coquelicot.
From Coq Require Import ZArith Reals Lra Lia Psatz.
From Coq Require Import String.
From Coq Require Import List Bool.
From Verif Require Import Base RealFacts RoundModel RoundSpec RoundProofs TickModel TickSpec TickProps.
Import ListNotations.
Open Scope R_scope.

(** ** The percent labels of the y axis *)
Section Percent.
  Variable v : R.
  Hypothesis v0 : 0 <= v.
  Let w := Int_part v.
  Let f := frac_part v.
  Let d := rne (f * 10 ^ 8).

  Lemma w_f : v = IZR w + f /\ 0 <= f < 1 /\ (0 <= w)%Z.
  Proof.
    pose proof (parts v) as P. unfold f, frac_part, w in *. repeat split; try lra.
    assert (-1 < Int_part v)%Z by (apply lt_IZR; lra). lia.
  Qed.
  Lemma d_err : Rabs (IZR d - f * 10 ^ 8) <= 1 / 2. Proof. apply rne_err. Qed.
  Lemma d_range : (0 <= d <= 10 ^ 8)%Z.
  Proof.
    destruct w_f as (_ & F & _). unfold d. split.
    - rewrite <- (rne_IZR 0). apply rne_mono. nra.
    - rewrite <- (rne_IZR (10 ^ 8)). apply rne_mono. change (IZR (10 ^ 8)) with 100000000. lra.
  Qed.

  Definition whole_part : Z := if Rle_dec (IZR d) (f * 10 ^ 8) then w else (Z.max 0 (w - 1)).

  Lemma percent_says : says (percent_of v) = Some (IZR whole_part + IZR d / 10 ^ 8).
  Proof.
    destruct w_f as (Ev & F & W). pose proof d_err as DE. pose proof d_range as DR.
    unfold percent_of. fold f d. set (x := v - IZR d / 10 ^ 8). cbv zeta.
    assert (Hw : (if Rlt_dec x 0 then (if Req_EM_T (frac_part x) 0 then Int_part x else (Int_part x + 1)%Z) else Int_part x) = whole_part).
    { unfold whole_part. apply Rabs_le_between in DE. assert (x = IZR w + (f - IZR d / 10 ^ 8)) as Ex by (unfold x; lra).
      assert (IZR d <= 10 ^ 8) as D8 by (replace (10 ^ 8) with (IZR (10 ^ 8)) by (cbn; lra); apply IZR_le; lia).
      assert (0 <= IZR d) as D0 by (apply IZR_le; lia).
      destruct (Rle_dec (IZR d) (f * 10 ^ 8)) as [L|L].
      - assert (0 <= f - IZR d / 10 ^ 8 < 1) as B by lra. assert (0 <= IZR w) by (apply IZR_le; lia).
        destruct (Rlt_dec x 0); [lra|]. apply Int_part_eq. lra.
      - apply Rnot_le_lt in L. assert (-1 <= f - IZR d / 10 ^ 8 < 0) as B by lra.
        destruct (Z.eq_dec w 0) as [E0|N0].
        + rewrite E0 in *. destruct (Rlt_dec x 0); [|lra]. assert (-1 < x) as X1 by lra.
          rewrite (Int_part_eq x (-1)) by lra. destruct (Req_EM_T (frac_part x) 0) as [E|N]; [|reflexivity].
          unfold frac_part in E. rewrite (Int_part_eq x (-1)) in E by lra. lra.
        + assert (1 <= IZR w) by (apply IZR_le; lia). destruct (Rlt_dec x 0); [lra|].
          rewrite Z.max_r by lia. apply Int_part_eq. rewrite minus_IZR. lra. }
    rewrite Hw. destruct (Z.eqb_spec d 0) as [E|N]; cbn [says].
    - rewrite E. f_equal. lra.
    - f_equal. rewrite plus_IZR, mult_IZR. change (IZR (10 ^ 8)) with 100000000. lra.
  Qed.
End Percent.

(** A label of a probability of at least 0: the percentage to 8 decimals, exactly if it has no more, as long as it is below 1% or is
    not rounded up; it is never more than half a unit of the last decimal too high. *)
Theorem C161_percent_partial v : 0 <= v -> exists s, says (percent_label v) = Some s /\
  s <= v * 100 + / 2 * / 10 ^ 8 /\
  (integral (v * 100 * 10 ^ 8) -> s = v * 100) /\
  (v * 100 < 1 \/ frac_part (v * 100 * 10 ^ 8) < 1 / 2 -> Rabs (s - v * 100) <= / 2 * / 10 ^ 8).
Proof.
  intros H. assert (0 <= v * 100) as V0 by lra. unfold percent_label. set (x := v * 100) in *.
  rewrite percent_says by exact V0. destruct (w_f x V0) as (Ex & F & W). pose proof (d_err x) as DE. pose proof (d_range x V0) as DR.
  eexists. split; [reflexivity|]. unfold whole_part. set (w := Int_part x) in *. set (f := frac_part x) in *. set (d := rne (f * 10 ^ 8)) in *.
  assert (0 <= IZR w) as W' by (apply IZR_le; lia). apply Rabs_le_between in DE.
  split; [|split].
  - destruct (Rle_dec (IZR d) (f * 10 ^ 8)) as [L|L]; [lra|]. assert (Z.max 0 (w - 1) <= w)%Z as M by lia. apply IZR_le in M. lra.
  - intros (z & Hz). assert (d = z - w * 10 ^ 8)%Z as E.
    { unfold d. replace (f * 10 ^ 8) with (IZR (z - w * 10 ^ 8)); [apply rne_IZR|]. rewrite minus_IZR, mult_IZR. change (IZR (10 ^ 8)) with 100000000. lra. }
    assert (IZR d = f * 10 ^ 8) as E'. { rewrite E, minus_IZR, mult_IZR. change (IZR (10 ^ 8)) with 100000000. lra. }
    destruct (Rle_dec (IZR d) (f * 10 ^ 8)) as [L|L]; [|lra]. lra.
  - intros C. destruct (Rle_dec (IZR d) (f * 10 ^ 8)) as [L|L]; [apply Rabs_le_between; lra|].
    destruct (Z.eq_dec w 0) as [E0|N0].
    + rewrite E0 in *. cbn. apply Rabs_le_between. lra.
    + exfalso. assert (1 <= IZR w) by (apply IZR_le; lia). destruct C as [C|C]; [lra|].
      apply L. pose proof (parts (x * 10 ^ 8)) as P. unfold frac_part in C. set (z := Int_part (x * 10 ^ 8)) in *.
      assert (d = z - w * 10 ^ 8)%Z as E.
      { apply rne_near. rewrite minus_IZR, mult_IZR. change (IZR (10 ^ 8)) with 100000000. apply Rabs_def1; lra. }
      rewrite E, minus_IZR, mult_IZR. change (IZR (10 ^ 8)) with 100000000. lra.
Qed.
Print Assumptions C161_percent_partial.

(** From 1%, every percentage that rounding to 8 decimals raises is labelled 1 too low. *)
Theorem C161_percent_refuted v z : 1 <= v * 100 -> 0 < IZR z - v * 100 * 10 ^ 8 < 1 / 2 -> says (percent_label v) = Some (IZR z / 10 ^ 8 - 1).
Proof.
  intros H Hz. assert (0 <= v * 100) as V0 by lra. unfold percent_label. set (x := v * 100) in *.
  rewrite percent_says by exact V0. destruct (w_f x V0) as (Ex & F & W). unfold whole_part. set (w := Int_part x) in *. set (f := frac_part x) in *.
  assert (rne (f * 10 ^ 8) = z - w * 10 ^ 8)%Z as E.
  { apply rne_near. rewrite minus_IZR, mult_IZR. change (IZR (10 ^ 8)) with 100000000. apply Rabs_def1; lra. }
  rewrite E. assert (IZR (z - w * 10 ^ 8) = IZR z - IZR w * 100000000) as E2 by (rewrite minus_IZR, mult_IZR; change (IZR (10 ^ 8)) with 100000000; ring).
  rewrite E2. destruct (Rle_dec (IZR z - IZR w * 100000000) (f * 10 ^ 8)) as [L|L]; [lra|].
  assert (1 <= w)%Z. { assert (0 < w)%Z; [|lia]. apply lt_IZR. lra. }
  rewrite Z.max_r by lia. rewrite minus_IZR. f_equal. lra.
Qed.
Print Assumptions C161_percent_refuted.

(** Two thirds are labelled 65.66666667%. *)
Theorem C161_two_thirds_refuted : says (percent_label (2 / 3)) = Some (65 + 66666667 / 10 ^ 8).
Proof. rewrite (C161_percent_refuted (2 / 3) 6666666667) by lra. f_equal. lra. Qed.
Print Assumptions C161_two_thirds_refuted.

(** The ticks the plots use unless others are given are labelled exactly. *)
Theorem C161_default_ticks t : In t default_yticks -> says (percent_label t) = Some (t * 100).
Proof.
  intros H. assert (0 <= t /\ integral (t * 100 * 10 ^ 8)) as [T0 TI].
  { assert (forall z, (0 <= z)%Z -> t * 100 * 10 ^ 8 = IZR z -> 0 <= t /\ integral (t * 100 * 10 ^ 8)) as K.
    { intros z Hz E. split; [apply IZR_le in Hz; lra|now exists z]. }
    unfold default_yticks in H. cbn [In] in H.
    repeat (destruct H as [<-|H];
      [match goal with |- 0 <= ?n / ?d /\ _ => match n with IZR ?zn => match d with IZR ?zd =>
         let r := eval vm_compute in (zn * 10000000000 / zd)%Z in apply (K r); [lia|lra] end end end|]).
    destruct H. }
  destruct (C161_percent_partial t T0) as (s & E & _ & X & _). rewrite E. f_equal. now apply X.
Qed.
Print Assumptions C161_default_ticks.

(** ** The labels of the x axis *)
Lemma sci_rel x : x <> 0 -> exists s, says (sci 5 x) = Some s /\ Rabs (s - x) <= Rabs x * (5 / 10 ^ 6) /\ (integral (x / ten (exponent x - 5)) -> s = x).
Proof.
  intros N. rewrite sci_says. eexists. split; [reflexivity|]. change (Z.of_nat 5) with 5%Z. set (g := ten (exponent x - 5)).
  assert (0 < g) as G by apply ten_pos. change (IZR (rne (x / g)) * g) with (on_grid g x). split.
  - pose proof (on_grid_err g x G) as E. pose proof (proj1 (exponent_spec x N)) as B.
    assert (g = ten (exponent x) * / 10 ^ 5) as Eg by (unfold g; rewrite ten_sub; change (ten 5) with (ten (Z.of_nat 5)); rewrite ten_nat; reflexivity).
    rewrite Eg in E at 2. lra.
  - intros (z & Hz). replace x with (IZR z * g) by (rewrite <- Hz; field; lra). apply on_grid_fix. exact G.
Qed.

Lemma exponent_one m : 1 <= m < 10 -> exponent m = 0%Z.
Proof.
  intros M. apply exponent_iff; [lra|]. rewrite Rabs_pos_eq by lra. change (ten 0) with 1. change (ten (0 + 1)) with (10 * 1). lra.
Qed.

(** The multiplier of a number in scientific notation. *)
Lemma mult_range v : 0 < v -> 1 <= v / powerRZ 10 (exponent v) < 10.
Proof.
  intros V. fold (ten (exponent v)). pose proof (exponent_spec v ltac:(lra)) as B. rewrite Rabs_pos_eq in B by lra.
  rewrite ten_add in B. change (ten 1) with (10 * 1) in B. pose proof (ten_pos (exponent v)) as T.
  split; [apply Rmult_le_reg_r with (ten (exponent v))|apply Rmult_lt_reg_r with (ten (exponent v))]; try exact T; unfold Rdiv; rewrite Rmult_assoc, Rinv_l by lra; lra.
Qed.

Lemma power_says negative v : 0 < v ->
  let m := v / powerRZ 10 (exponent v) in
  exists s, label_says (if Rlt_dec (frac_part m) (/ 10 ^ 7) then L_power negative (if Z.eqb (Int_part m) 1 then None else Some (Whole (Int_part m))) (exponent v)
                        else L_power negative (Some (sci 5 m)) (exponent v)) = Some ((if negative then -1 else 1) * s) /\
    Rabs (s - v) <= v * (5 / 10 ^ 6) /\ (integral (v / ten (exponent v - 5)) -> s = v).
Proof.
  intros V m. pose proof (mult_range v V) as M. fold m in M. pose proof (ten_pos (exponent v)) as T.
  assert (v = m * powerRZ 10 (exponent v)) as Ev by (unfold m; fold (ten (exponent v)) in *; field; lra).
  assert (v / ten (exponent v - 5) = m * 10 ^ 5) as E5.
  { rewrite ten_sub. change (ten 5) with (ten (Z.of_nat 5)). rewrite ten_nat. unfold m. fold (ten (exponent v)). field. lra. }
  fold (ten (exponent v)) in *. set (p := ten (exponent v)) in *.
  destruct (Rlt_dec (frac_part m) (/ 10 ^ 7)) as [L|L].
  - exists (IZR (Int_part m) * p). split.
    + cbn [label_says]. fold (ten (exponent v)). fold p. destruct (Z.eqb_spec (Int_part m) 1) as [E|E]; cbn [says]; f_equal; [rewrite E|]; ring.
    + pose proof (parts m) as P. unfold frac_part in L. split.
      * rewrite Ev. replace (IZR (Int_part m) * p - m * p) with (- ((m - IZR (Int_part m)) * p)) by ring. rewrite Rabs_Ropp, Rabs_pos_eq by nra.
        apply Rle_trans with (/ 10 ^ 7 * p); [apply Rmult_le_compat_r; lra|]. apply Rle_trans with (1 * p * (5 / 10 ^ 6)); [lra|]. apply Rmult_le_compat_r; [lra|]. apply Rmult_le_compat_r; lra.
      * rewrite E5. intros (z & Hz). rewrite Ev. f_equal.
        assert (z = Int_part m * 10 ^ 5)%Z as Ez.
        { assert (-1 < z - Int_part m * 10 ^ 5 < 1)%Z; [|lia]. split; apply lt_IZR; rewrite minus_IZR, mult_IZR, <- Hz; change (IZR (10 ^ 5)) with 100000; lra. }
        rewrite Ez, mult_IZR in Hz. change (IZR (10 ^ 5)) with 100000 in Hz. lra.
  - destruct (sci_rel m ltac:(lra)) as (s & Es & Er & Ei). exists (s * p). split.
    + cbn [label_says]. rewrite Es. fold (ten (exponent v)). fold p. f_equal. ring.
    + rewrite (exponent_one m M) in Ei. rewrite (Rabs_pos_eq m) in Er by lra. split.
      * rewrite Ev. replace (s * p - m * p) with ((s - m) * p) by ring. rewrite Rabs_mult, (Rabs_pos_eq p) by lra.
        replace (m * p * (5 / 10 ^ 6)) with (m * (5 / 10 ^ 6) * p) by ring. apply Rmult_le_compat_r; lra.
      * rewrite E5. intros I. rewrite Ev. f_equal. apply Ei. replace (m / ten (0 - 5)) with (m * 10 ^ 5); [exact I|].
        change (0 - 5)%Z with (- (5))%Z. rewrite ten_opp. change (ten 5) with (ten (Z.of_nat 5)). rewrite ten_nat. unfold Rdiv. now rewrite Rinv_inv.
Qed.

(** Every tick of the x axis is labelled with its value to six significant digits: exactly if it has no more. *)
Theorem C161_x_label v : exists s, label_says (x_label v) = Some s /\ Rabs (s - v) <= Rabs v * (5 / 10 ^ 6) /\
  ((exists z, v = IZR z * powerRZ 10 (exponent v - 5)) -> s = v).
Proof.
  assert (forall x, (exists z, x = IZR z * powerRZ 10 (exponent x - 5)) -> integral (x / ten (exponent x - 5))) as K.
  { intros x (z & Hz). exists z. rewrite Hz at 1. fold (ten (exponent x - 5)). field. pose proof (ten_pos (exponent x - 5)). lra. }
  unfold x_label. destruct (Req_EM_T v 0) as [->|N].
  { exists 0. cbn. split; [reflexivity|]. rewrite Rminus_0_r, Rabs_R0. split; [lra|auto]. }
  destruct (orb _ _).
  - destruct (Rlt_dec v 0) as [L|L].
    + assert (0 < v * -1) as V by lra. destruct (power_says true _ V) as (s & Es & Er & Ei). exists (-1 * s). split; [exact Es|].
      assert (exponent (v * -1) = exponent v) as EE. { unfold exponent. do 3 f_equal. replace (v * -1) with (- v) by ring. apply Rabs_Ropp. }
      split.
      * replace (-1 * s - v) with (- (s - v * -1)) by ring. rewrite Rabs_Ropp, (Rabs_left v) by lra. replace (- v) with (v * -1) by ring. exact Er.
      * intros (z & Hz). rewrite Ei; [ring|]. apply K. exists (- z)%Z. rewrite EE, opp_IZR. rewrite Hz at 1. ring.
    + assert (0 < v) as V by lra. destruct (power_says false _ V) as (s & Es & Er & Ei). exists (1 * s). split; [exact Es|]. rewrite Rmult_1_l.
      split; [rewrite (Rabs_pos_eq v) by lra; exact Er|auto].
  - destruct (sci_rel v N) as (s & Es & Er & Ei). exists s. split; [exact Es|]. split; [exact Er|auto].
Qed.
Print Assumptions C161_x_label.

(** So zero is labelled 0, labels have the sign of the value, and ticks that differ by more than 0.002% have labels in their order. *)
Theorem C161_x_order v w s t : label_says (x_label v) = Some s -> label_says (x_label w) = Some t ->
  (v = 0 <-> s = 0) /\ (0 < v <-> 0 < s) /\ (0 < v -> v * (1 + 2 / 10 ^ 5) <= w -> s < t) /\ (w < 0 -> v <= w * (1 + 2 / 10 ^ 5) -> s < t).
Proof.
  intros Es Et. destruct (C161_x_label v) as (s' & Es' & Er & _). destruct (C161_x_label w) as (t' & Et' & Er' & _).
  assert (s' = s) by congruence. assert (t' = t) by congruence. subst s' t'.
  apply Rabs_le_between in Er. apply Rabs_le_between in Er'.
  split; [|split; [|split]].
  - split; intros E.
    + rewrite E, Rabs_R0 in Er. lra.
    + destruct (Rle_lt_dec 0 v) as [L|L]; [rewrite Rabs_pos_eq in Er by exact L|rewrite Rabs_left in Er by exact L]; lra.
  - split; intros E; destruct (Rle_lt_dec 0 v) as [L|L]; [rewrite Rabs_pos_eq in Er by exact L| |rewrite Rabs_pos_eq in Er by exact L|rewrite Rabs_left in Er by exact L]; lra.
  - intros V L. rewrite Rabs_pos_eq in Er by lra. rewrite Rabs_pos_eq in Er' by lra. lra.
  - intros W L. rewrite Rabs_left in Er by lra. rewrite Rabs_left in Er' by lra. lra.
Qed.
Print Assumptions C161_x_order.

(** ** The locator *)
Lemma edge_free shows a locator : drawable shows a ->
  free_ends (fraction a) (filter (fun t => (if Rle_dec (lim_1 a) t then true else false) && (if Rle_dec t (lim_2 a) then true else false)) (locator (lim_1 a) (lim_2 a))) (edge_distances a locator).
Proof.
  intros D. unfold edge_distances. fold (ticks_shown locator (lim_1 a) (lim_2 a)).
  destruct (ticks_shown locator (lim_1 a) (lim_2 a)) as [|t [|t2 r]]; cbn [length Nat.ltb Nat.leb free_ends]; try reflexivity.
  unfold forward_x. rewrite !(forward_fraction shows a D). destruct (fraction_ends shows a D) as [F0 F1]. rewrite F0, F1. cbn [hd].
  change (last (t :: t2 :: r) 0) with (last (t2 :: r) 0). ring.
Qed.

(** The locator that is used leaves at most half of the axis without ticks at its ends, or no more than the other one. *)
Theorem C161_locator shows a maxn logl : drawable shows a ->
  let shown (l : R -> R -> list R) := filter (fun t => (if Rle_dec (lim_1 a) t then true else false) && (if Rle_dec t (lim_2 a) then true else false)) (l (lim_1 a) (lim_2 a)) in
  exists d_max d_log, free_ends (fraction a) (shown maxn) d_max /\ free_ends (fraction a) (shown logl) d_log /\
    let d := match x_locator a maxn logl with MaxN => d_max | Log => d_log end in
    d <= 1 / 2 \/ d <= Rmin d_max d_log.
Proof.
  intros D shown. exists (edge_distances a maxn), (edge_distances a logl). split; [now apply edge_free with shows|]. split; [now apply edge_free with shows|].
  unfold x_locator. destruct (Rlt_dec (5 / 10) _) as [L|L].
  - right. destruct (Rlt_dec _ _) as [L'|L']; cbv zeta; unfold Rmin; destruct (Rle_dec _ _); lra.
  - left. apply Rnot_lt_le in L. cbv zeta. destruct (first_locator (lim_1 a) (lim_2 a)); lra.
Qed.
Print Assumptions C161_locator.

Example C161_case : says (percent_label (999 / 1000)) = Some (99 + 9 / 10) /\ label_says (x_label 20000) = Some 20000.
Proof.
  split.
  - rewrite C161_default_ticks by (unfold default_yticks; cbn; tauto). f_equal. lra.
  - destruct (C161_x_label 20000) as (s & E & _ & H). rewrite E. f_equal. apply H.
    assert (exponent 20000 = 4%Z) as X.
    { apply exponent_iff; [lra|]. rewrite Rabs_pos_eq by lra. change (ten 4) with (ten (Z.of_nat 4)). change (ten (4 + 1)) with (ten (Z.of_nat 5)). rewrite !ten_nat. lra. }
    exists 200000%Z. rewrite X. change (powerRZ 10 (4 - 5)) with (ten (- (1))). rewrite ten_opp. change (ten 1) with (10 * 1). lra.
Qed.
