From Coq Require Import ZArith Reals Lra Lia Bool.
From Coq Require Import String.
From Coq Require Import List.
From Verif Require Import Base Ext DistModel RoundModel RoundSpec.
Import ListNotations.
Open Scope R_scope.

(** Integer and fractional parts. *)
Lemma parts x : IZR (Int_part x) <= x < IZR (Int_part x) + 1.
Proof. destruct (base_Int_part x). lra. Qed.
Lemma Int_part_eq x z : IZR z <= x < IZR z + 1 -> Int_part x = z.
Proof.
  intros H. pose proof (parts x) as P.
  assert (Int_part x < z + 1)%Z by (apply lt_IZR; rewrite plus_IZR; lra).
  assert (z < Int_part x + 1)%Z by (apply lt_IZR; rewrite plus_IZR; lra). lia.
Qed.
Lemma Int_part_IZR z : Int_part (IZR z) = z.
Proof. apply Int_part_eq. lra. Qed.
Lemma integral_frac x : integral x <-> frac_part x = 0.
Proof.
  unfold frac_part. split.
  - intros [z ->]. rewrite Int_part_IZR. lra.
  - intros E. exists (Int_part x). lra.
Qed.

(** Rounding half to even. *)
Lemma rne_err x : Rabs (IZR (rne x) - x) <= 1 / 2.
Proof.
  pose proof (parts x) as P. unfold rne, frac_part.
  destruct (Rlt_dec (x - IZR (Int_part x)) (1 / 2)); [apply Rabs_le; lra|].
  destruct (Rlt_dec (1 / 2) (x - IZR (Int_part x))); [rewrite plus_IZR; apply Rabs_le; lra|].
  destruct (Z.even _); rewrite ?plus_IZR; apply Rabs_le; lra.
Qed.
Lemma rne_IZR z : rne (IZR z) = z.
Proof.
  unfold rne, frac_part. rewrite Int_part_IZR.
  destruct (Rlt_dec _ _) as [|N]; [reflexivity|]. exfalso. lra.
Qed.
Lemma rne_mono x y : x <= y -> (rne x <= rne y)%Z.
Proof.
  intros H. pose proof (parts x) as P. pose proof (parts y) as Q.
  assert (Int_part x < Int_part y + 1)%Z as A by (apply lt_IZR; rewrite plus_IZR; lra).
  destruct (Z.eq_dec (Int_part x) (Int_part y)) as [E|E].
  - unfold rne, frac_part. rewrite E in *.
    repeat match goal with |- context [Rlt_dec ?a ?b] => destruct (Rlt_dec a b) end;
      try destruct (Z.even (Int_part y)); try lia; lra.
  - assert (rne x <= Int_part x + 1)%Z.
    { unfold rne. destruct (Rlt_dec _ _); [lia|]. destruct (Rlt_dec _ _); [lia|]. destruct (Z.even _); lia. }
    assert (Int_part y <= rne y)%Z.
    { unfold rne. destruct (Rlt_dec _ _); [lia|]. destruct (Rlt_dec _ _); [lia|]. destruct (Z.even _); lia. }
    lia.
Qed.
Lemma rne_near x z : Rabs (x - IZR z) < 1 / 2 -> rne x = z.
Proof.
  intros H. pose proof (rne_err x) as E. apply Rabs_def2 in H. pose proof (Rle_abs (IZR (rne x) - x)). pose proof (Rle_abs (- (IZR (rne x) - x))) as B. rewrite Rabs_Ropp in B.
  assert (rne x < z + 1)%Z by (apply lt_IZR; rewrite plus_IZR; lra);
    assert (z < rne x + 1)%Z by (apply lt_IZR; rewrite plus_IZR; lra); lia.
Qed.

(** Powers of ten. *)
Definition ten (e : Z) : R := powerRZ 10 e.
Lemma ten_pos e : 0 < ten e.
Proof. apply powerRZ_lt. lra. Qed.
Lemma ten_add a b : ten (a + b) = ten a * ten b.
Proof. apply powerRZ_add. lra. Qed.
Lemma ten_nat n : ten (Z.of_nat n) = 10 ^ n.
Proof. symmetry. apply pow_powerRZ. Qed.
Lemma ten_opp e : ten (- e) = / ten e.
Proof. apply powerRZ_neg'. Qed.
Lemma ten_sub a b : ten (a - b) = ten a / ten b.
Proof. unfold Z.sub. rewrite ten_add, ten_opp. reflexivity. Qed.
Lemma ten_IZR e : (0 <= e)%Z -> ten e = IZR (10 ^ e).
Proof. intros H. rewrite <- (Z2Nat.id e H), ten_nat. apply pow_IZR. Qed.
Lemma ten_exp e : ten e = exp (IZR e * ln 10).
Proof.
  unfold ten. rewrite powerRZ_Rpower by lra. reflexivity.
Qed.
Lemma ln10 : 0 < ln 10.
Proof. rewrite <- ln_1. apply ln_increasing; lra. Qed.
Lemma ten_lt a b : (a < b)%Z -> ten a < ten b.
Proof. intros H. rewrite !ten_exp. apply exp_increasing. apply Rmult_lt_compat_r; [apply ln10|now apply IZR_lt]. Qed.
Lemma ten_le a b : (a <= b)%Z -> ten a <= ten b.
Proof. intros H. destruct (Z.eq_dec a b) as [->|N]; [lra|]. apply Rlt_le, ten_lt. lia. Qed.

(** The exponent of a number. *)
Lemma exponent_iff x e : x <> 0 -> (exponent x = e <-> ten e <= Rabs x < ten (e + 1)).
Proof.
  intros N. pose proof (Rabs_pos_lt x N) as P. pose proof ln10 as L.
  assert (forall z, ten z <= Rabs x <-> IZR z <= ln (Rabs x) / ln 10) as A.
  { intros z. rewrite ten_exp. split; intros H.
    - apply Rmult_le_reg_r with (ln 10); [exact L|].
      replace (ln (Rabs x) / ln 10 * ln 10) with (ln (Rabs x)) by (field; lra).
      rewrite <- (ln_exp (IZR z * ln 10)). destruct (Req_dec (exp (IZR z * ln 10)) (Rabs x)) as [->|D]; [lra|].
      apply Rlt_le, ln_increasing; [apply exp_pos|lra].
    - rewrite <- (exp_ln (Rabs x)) by exact P.
      assert (IZR z * ln 10 <= ln (Rabs x)) as Q.
      { apply Rmult_le_compat_r with (r := ln 10) in H; [|lra].
        replace (ln (Rabs x) / ln 10 * ln 10) with (ln (Rabs x)) in H by (field; lra). exact H. }
      destruct Q as [Q|Q]; [apply Rlt_le, exp_increasing; exact Q|rewrite Q; lra]. }
  unfold exponent. split.
  - intros <-. pose proof (parts (ln (Rabs x) / ln 10)) as Q. split; [apply A; lra|].
    apply Rnot_le_lt. intros H. apply A in H. rewrite plus_IZR in H. lra.
  - intros [H1 H2]. apply Int_part_eq. apply A in H1. split; [exact H1|].
    apply Rnot_le_lt. intros H. rewrite <- plus_IZR in H. apply A in H. lra.
Qed.
Lemma exponent_spec x : x <> 0 -> ten (exponent x) <= Rabs x < ten (exponent x + 1).
Proof. intros N. now apply exponent_iff. Qed.

(** The number in scientific notation. *)
Lemma sci_says k x : says (sci k x) = Some (IZR (rne (x / ten (exponent x - Z.of_nat k))) * ten (exponent x - Z.of_nat k)).
Proof.
  unfold sci. fold (ten (exponent x - Z.of_nat k)). set (e := exponent x). set (m := rne _).
  destruct (Z.eqb (Z.abs m) (10 ^ (Z.of_nat k + 1))) eqn:E; cbn [says]; fold (ten (e + 1)); fold (ten e); f_equal.
  - apply Z.eqb_eq in E.
    assert (IZR (m / 10) * 10 = IZR m) as M.
    { rewrite <- mult_IZR. f_equal. assert (m mod 10 = 0)%Z.
      { rewrite Z.pow_add_r in E by lia.
        assert (m = 10 ^ Z.of_nat k * 10 \/ m = - (10 ^ Z.of_nat k) * 10)%Z as [-> | ->] by (cbn in E; lia); apply Z_mod_mult. }
      pose proof (Z_div_mod_eq_full m 10). lia. }
    rewrite <- M, ten_add, ten_sub, ten_nat. unfold ten at 2. rewrite powerRZ_1. field. apply pow_nonzero. lra.
  - rewrite ten_sub, ten_nat. field. apply pow_nonzero. lra.
Qed.

(** Rounding to multiples of a unit. *)
Definition on_grid (u x : R) : R := IZR (rne (x / u)) * u.
Lemma on_grid_err u x : 0 < u -> Rabs (on_grid u x - x) <= u / 2.
Proof.
  intros U. unfold on_grid. replace (IZR (rne (x / u)) * u - x) with ((IZR (rne (x / u)) - x / u) * u) by (field; lra).
  rewrite Rabs_mult, (Rabs_pos_eq u) by lra. pose proof (rne_err (x / u)). nra.
Qed.
Lemma on_grid_mono u x y : 0 < u -> x <= y -> on_grid u x <= on_grid u y.
Proof.
  intros U H. unfold on_grid. apply Rmult_le_compat_r; [lra|]. apply IZR_le, rne_mono.
  apply Rmult_le_compat_r; [apply Rlt_le, Rinv_0_lt_compat; exact U|exact H].
Qed.
Lemma on_grid_fix u z : 0 < u -> on_grid u (IZR z * u) = IZR z * u.
Proof. intros U. unfold on_grid. replace (IZR z * u / u) with (IZR z) by (field; lra). now rewrite rne_IZR. Qed.
Lemma on_grid_ten a b : (a <= b)%Z -> on_grid (ten a) (ten b) = ten b.
Proof.
  intros H. assert (ten b = IZR (10 ^ (b - a)) * ten a) as -> by (rewrite <- ten_IZR, <- ten_add by lia; f_equal; lia).
  apply on_grid_fix, ten_pos.
Qed.
Lemma rne_opp x : rne (- x) = (- rne x)%Z.
Proof.
  pose proof (parts x) as P. destruct (Req_dec (frac_part x) 0) as [Z0|N].
  - apply integral_frac in Z0. destruct Z0 as [z ->]. rewrite <- opp_IZR, !rne_IZR. reflexivity.
  - unfold frac_part in N. assert (Int_part (- x) = - Int_part x - 1)%Z as E.
    { apply Int_part_eq. rewrite minus_IZR, opp_IZR. lra. }
    unfold rne, frac_part. rewrite E, minus_IZR, opp_IZR.
    assert (Z.even (- Int_part x - 1) = negb (Z.even (Int_part x))) as V.
    { rewrite Z.even_sub, Z.even_opp. now destruct (Z.even (Int_part x)). }
    rewrite V.
    repeat match goal with |- context [Rlt_dec ?a ?b] => destruct (Rlt_dec a b) end;
      try destruct (Z.even (Int_part x)); cbn [negb]; try lia; lra.
Qed.
Lemma on_grid_opp u x : on_grid u (- x) = - on_grid u x.
Proof.
  unfold on_grid. replace (- x / u) with (- (x / u)) by (unfold Rdiv; ring). rewrite rne_opp, opp_IZR. ring.
Qed.

(** What each kind of number is shown as. *)
Definition places (d : Z) : nat := Z.to_nat d.
Lemma k_places d : (if (d <? 1)%Z then O else Z.to_nat d) = places d.
Proof. unfold places. destruct (d <? 1)%Z eqn:E; [apply Z.ltb_lt in E; destruct d; cbn; try reflexivity; lia|reflexivity]. Qed.
Lemma ten_m4 : ten (-4) = / 10 ^ 4.
Proof. replace (-4)%Z with (- Z.of_nat 4)%Z by reflexivity. now rewrite ten_opp, ten_nat. Qed.
Lemma ten_9 : ten 9 = 10 ^ 9.
Proof. replace 9%Z with (Z.of_nat 9) by reflexivity. apply ten_nat. Qed.
Lemma shown_integral d x : integral x -> says (shown_number d x) = Some x.
Proof.
  intros H. pose proof (proj1 (integral_frac x) H) as F. destruct H as [z Hz].
  unfold shown_number, round_and_string. rewrite k_places. rewrite Hz in *. rewrite Int_part_IZR.
  destruct (Req_EM_T (frac_part (IZR z)) 0); [|contradiction].
  destruct (Req_EM_T (IZR z) 0); [reflexivity|]. destruct (_ || _); reflexivity.
Qed.
Lemma integral_grid k x : integral x -> on_grid (ten (- Z.of_nat k)) x = x.
Proof.
  intros [z ->]. assert (IZR z = IZR (z * 10 ^ Z.of_nat k) * ten (- Z.of_nat k)) as E.
  { rewrite mult_IZR, <- ten_IZR by lia. rewrite Rmult_assoc, <- ten_add.
    replace (Z.of_nat k + - Z.of_nat k)%Z with 0%Z by lia. unfold ten. cbn. ring. }
  rewrite E. apply on_grid_fix, ten_pos.
Qed.
Lemma shown_ordinary d x : ordinary x -> says (shown_number d x) = Some (on_grid (ten (- Z.of_nat (places d))) x).
Proof.
  intros O. destruct (Req_dec (frac_part x) 0) as [I|I].
  { apply integral_frac in I. rewrite integral_grid by exact I. now apply shown_integral. }
  destruct O as [O1 O2]. unfold shown_number, round_and_string. rewrite k_places.
  destruct (Req_EM_T (frac_part x) 0); [contradiction|].
  destruct (Req_EM_T x 0) as [->|N]; [exfalso; apply I; apply integral_frac; now exists 0%Z|].
  destruct (Rle_dec (10 ^ 9) (Rabs x)); [lra|]. destruct (Rle_dec (Rabs x) (/ 10 ^ 4)); [lra|].
  cbn [orb andb says]. f_equal. unfold on_grid. rewrite ten_opp, ten_nat.
  fold (ten (Z.of_nat (places d))). rewrite ten_nat. unfold Rdiv. rewrite Rinv_inv. reflexivity.
Qed.
Lemma shown_sci d x : ~ integral x -> ~ ordinary x ->
  says (shown_number d x) = Some (on_grid (ten (exponent x - Z.of_nat (places d))) x).
Proof.
  intros I O. unfold shown_number, round_and_string. rewrite k_places.
  destruct (Req_EM_T (frac_part x) 0) as [E|E]; [apply integral_frac in E; contradiction|].
  destruct (Req_EM_T x 0) as [->|N]; [exfalso; apply I; now exists 0%Z|].
  assert ((if Rle_dec (10 ^ 9) (Rabs x) then true else false) || (if Rle_dec (Rabs x) (/ 10 ^ 4) then true else false) = true) as ->.
  { destruct (Rle_dec (10 ^ 9) (Rabs x)); [reflexivity|]. destruct (Rle_dec (Rabs x) (/ 10 ^ 4)); [reflexivity|].
    exfalso. apply O. split; lra. }
  apply sci_says.
Qed.
(** The number shown, as a function. *)
Lemma three x : integral x \/ (~ integral x /\ ordinary x) \/ (~ integral x /\ ~ ordinary x).
Proof.
  destruct (Req_dec (frac_part x) 0) as [E|E]; [left; now apply integral_frac|right].
  assert (~ integral x) by (intros H; apply E; now apply integral_frac).
  destruct (Rlt_dec (/ 10 ^ 4) (Rabs x)); [|right; split; [assumption|intros [? ?]; lra]].
  destruct (Rlt_dec (Rabs x) (10 ^ 9)); [left|right]; (split; [assumption|]).
  - now split.
  - intros [? ?]; lra.
Qed.
Lemma not_integral_0 x : ~ integral x -> x <> 0.
Proof. intros H E. apply H. exists 0%Z. exact E. Qed.
Lemma shown_total d x : exists v, says (shown_number d x) = Some v.
Proof.
  destruct (three x) as [I|[[I O]|[I O]]]; eexists; [now apply shown_integral|now apply shown_ordinary|now apply shown_sci].
Qed.
Lemma shown_err d x v : says (shown_number d x) = Some v ->
  (ordinary x -> Rabs (v - x) <= / 10 ^ places d / 2) /\ (~ ordinary x -> Rabs (v - x) <= Rabs x * / 10 ^ places d / 2).
Proof.
  intros H. assert (0 < / 10 ^ places d) as P by (apply Rinv_0_lt_compat, pow_lt; lra). split; intros O.
  - rewrite shown_ordinary in H by exact O. injection H as <-. pose proof (on_grid_err (ten (- Z.of_nat (places d))) x (ten_pos _)) as E.
    rewrite ten_opp, ten_nat in E. rewrite ten_opp, ten_nat. exact E.
  - destruct (three x) as [I|[[I O']|[I _]]]; [|contradiction|].
    + rewrite shown_integral in H by exact I. injection H as <-. rewrite Rminus_diag_eq, Rabs_R0 by reflexivity. pose proof (Rabs_pos x). nra.
    + rewrite shown_sci in H by assumption. injection H as <-.
      pose proof (on_grid_err (ten (exponent x - Z.of_nat (places d))) x (ten_pos _)) as E.
      pose proof (exponent_spec x (not_integral_0 x I)) as [L _].
      replace (ten (exponent x - Z.of_nat (places d)) / 2) with (ten (exponent x) * / 10 ^ places d / 2) in E
        by (rewrite ten_sub, ten_nat; unfold Rdiv; ring).
      eapply Rle_trans; [exact E|]. apply Rmult_le_compat_r; [lra|]. apply Rmult_le_compat_r; lra.
Qed.

(** Signs. *)
Lemma integral_opp x : integral x -> integral (- x).
Proof. intros [z ->]. exists (- z)%Z. now rewrite opp_IZR. Qed.
Lemma ordinary_opp x : ordinary (- x) <-> ordinary x.
Proof. unfold ordinary. now rewrite Rabs_Ropp. Qed.
Lemma shown_opp d x v : says (shown_number d x) = Some v -> says (shown_number d (- x)) = Some (- v).
Proof.
  intros H. destruct (three x) as [I|[[I O]|[I O]]].
  - rewrite shown_integral in H by exact I. injection H as <-. now apply shown_integral, integral_opp.
  - rewrite shown_ordinary in H by exact O. injection H as <-.
    rewrite shown_ordinary by now apply ordinary_opp. now rewrite on_grid_opp.
  - rewrite shown_sci in H by assumption. injection H as <-.
    rewrite shown_sci.
    + unfold exponent at 1. rewrite Rabs_Ropp. fold (exponent x). now rewrite on_grid_opp.
    + intros J. apply I. rewrite <- (Ropp_involutive x). now apply integral_opp.
    + intros J. apply O. now apply ordinary_opp.
Qed.

(** Order. *)
Definition small (x : R) : Prop := Rabs x <= / 10 ^ 4.
Lemma small_integral x : small x -> integral x -> x = 0.
Proof.
  intros S1 [z ->]. unfold small in S1. assert (/ 10 ^ 4 < 1) by (apply Rmult_lt_reg_l with (10 ^ 4); [lra|]; rewrite Rinv_r; lra).
  rewrite <- abs_IZR in S1. assert (Z.abs z < 1)%Z by (apply lt_IZR; lra). replace z with 0%Z by lia. reflexivity.
Qed.
Lemma exponent_mono x y : x <> 0 -> Rabs x <= Rabs y -> (exponent x <= exponent y)%Z.
Proof.
  intros N H. assert (y <> 0) as M by (intros ->; rewrite Rabs_R0 in H; pose proof (Rabs_pos_lt x N); lra).
  pose proof (exponent_spec x N) as [A _]. pose proof (exponent_spec y M) as [_ B].
  apply Z.nlt_ge. intros L. pose proof (ten_le (exponent y + 1) (exponent x) ltac:(lia)). lra.
Qed.
Lemma small_exponent x : x <> 0 -> small x -> (exponent x <= -4)%Z.
Proof.
  intros N H. unfold small in H. rewrite <- ten_m4 in H. pose proof (exponent_spec x N) as [A _].
  apply Z.nlt_ge. intros L. pose proof (ten_lt (-4) (exponent x) ltac:(lia)). lra.
Qed.
(** positive numbers in scientific notation *)
Definition sv (k : nat) (x : R) : R := on_grid (ten (exponent x - Z.of_nat k)) x.
Lemma sv_bounds k x : 0 < x -> ten (exponent x) <= sv k x <= ten (exponent x + 1).
Proof.
  intros P. pose proof (exponent_spec x ltac:(lra)) as [A B]. rewrite Rabs_pos_eq in A, B by lra. unfold sv. split.
  - rewrite <- (on_grid_ten (exponent x - Z.of_nat k) (exponent x)) at 1 by lia. apply on_grid_mono; [apply ten_pos|exact A].
  - rewrite <- (on_grid_ten (exponent x - Z.of_nat k) (exponent x + 1)) by lia. apply on_grid_mono; [apply ten_pos|lra].
Qed.
Lemma sv_mono k x y : 0 < x -> x <= y -> sv k x <= sv k y.
Proof.
  intros P H. pose proof (sv_bounds k x P) as [_ A]. pose proof (sv_bounds k y ltac:(lra)) as [B _].
  assert (exponent x <= exponent y)%Z as E by (apply exponent_mono; [lra|rewrite !Rabs_pos_eq; lra]).
  destruct (Z.eq_dec (exponent x) (exponent y)) as [Q|Q].
  - unfold sv. rewrite Q. apply on_grid_mono; [apply ten_pos|exact H].
  - pose proof (ten_le (exponent x + 1) (exponent y) ltac:(lia)). lra.
Qed.
Lemma shown_0 d : says (shown_number d 0) = Some 0.
Proof. apply shown_integral. now exists 0%Z. Qed.
Lemma small_not_ordinary x : small x -> ~ ordinary x.
Proof. unfold small, ordinary. lra. Qed.
Lemma small_pos d x v : 0 < x -> small x -> says (shown_number d x) = Some v -> v = sv (places d) x /\ 0 < v <= / 10 ^ 4.
Proof.
  intros P S1 H. assert (~ integral x) as I by (intros J; apply small_integral in J; [lra|exact S1]).
  rewrite shown_sci in H by (try exact I; now apply small_not_ordinary). injection H as <-. split; [reflexivity|].
  change (0 < sv (places d) x <= / 10 ^ 4). pose proof (sv_bounds (places d) x P) as [A _]. split; [pose proof (ten_pos (exponent x)); lra|].
  unfold small in S1. rewrite Rabs_pos_eq, <- ten_m4 in S1 by lra. rewrite <- ten_m4.
  pose proof (small_exponent x ltac:(lra) ltac:(unfold small; rewrite Rabs_pos_eq, <- ten_m4; lra)).
  unfold sv. rewrite <- (on_grid_ten (exponent x - Z.of_nat (places d)) (-4)) by lia. apply on_grid_mono; [apply ten_pos|exact S1].
Qed.
Lemma ordinary_pos d x v : (4 <= d)%Z -> / 10 ^ 4 < x -> ordinary x -> says (shown_number d x) = Some v -> / 10 ^ 4 <= v.
Proof.
  intros D L O H. rewrite shown_ordinary in H by exact O. injection H as <-. rewrite <- ten_m4 in *.
  rewrite <- (on_grid_ten (- Z.of_nat (places d)) (-4)) at 1 by (unfold places; lia). apply on_grid_mono; [apply ten_pos|lra].
Qed.
Lemma order_pos d x y v w : (4 <= d)%Z -> 0 <= x -> x <= y -> y < 10 ^ 9 ->
  says (shown_number d x) = Some v -> says (shown_number d y) = Some w -> 0 <= v <= w.
Proof.
  intros D P H B Hv Hw. destruct P as [P|<-].
  - destruct (Rle_dec y (/ 10 ^ 4)) as [C|C].
    + assert (small x) as Sx by (unfold small; rewrite Rabs_pos_eq; lra).
      assert (small y) as Sy by (unfold small; rewrite Rabs_pos_eq; lra).
      destruct (small_pos d x v P Sx Hv) as [-> V]. destruct (small_pos d y w ltac:(lra) Sy Hw) as [-> W].
      split; [lra|]. now apply sv_mono.
    + assert (ordinary y) as Oy by (unfold ordinary; rewrite Rabs_pos_eq; lra).
      destruct (Rle_dec x (/ 10 ^ 4)) as [C'|C'].
      * assert (small x) as Sx by (unfold small; rewrite Rabs_pos_eq; lra).
        destruct (small_pos d x v P Sx Hv) as [-> V]. pose proof (ordinary_pos d y w D ltac:(lra) Oy Hw). lra.
      * assert (ordinary x) as Ox by (unfold ordinary; rewrite Rabs_pos_eq; lra).
        pose proof (ordinary_pos d x v D ltac:(lra) Ox Hv).
        rewrite shown_ordinary in Hv by exact Ox. rewrite shown_ordinary in Hw by exact Oy. injection Hv as <-. injection Hw as <-.
        split; [assert (0 < / 10 ^ 4) by (apply Rinv_0_lt_compat; lra); lra|]. apply on_grid_mono; [apply ten_pos|exact H].
  - rewrite shown_0 in Hv. injection Hv as <-. split; [lra|]. destruct H as [H|<-]; [|rewrite shown_0 in Hw; injection Hw as <-; lra].
    assert (0 < / 10 ^ 4) by (apply Rinv_0_lt_compat; lra).
    destruct (Rle_dec y (/ 10 ^ 4)) as [C|C].
    + destruct (small_pos d y w H ltac:(unfold small; rewrite Rabs_pos_eq; lra) Hw). lra.
    + pose proof (ordinary_pos d y w D ltac:(lra) ltac:(unfold ordinary; rewrite Rabs_pos_eq; lra) Hw). lra.
Qed.

(** Showing a number that was shown. *)
Lemma on_grid_multiple a b x z : (a <= b)%Z -> x = IZR z * ten b -> on_grid (ten a) x = x.
Proof.
  intros H ->. assert (ten b = IZR (10 ^ (b - a)) * ten a) as -> by (rewrite <- ten_IZR, <- ten_add by lia; f_equal; lia).
  rewrite <- Rmult_assoc, <- mult_IZR. apply on_grid_fix, ten_pos.
Qed.
Lemma again_pos d x v : 0 < x -> says (shown_number d x) = Some v -> says (shown_number d v) = Some v.
Proof.
  intros P H. destruct (three v) as [I|[[I O]|[I O]]]; [now apply shown_integral| |].
  - rewrite shown_ordinary by exact O. f_equal. destruct (three x) as [J|[[J Q]|[J Q]]].
    + rewrite shown_integral in H by exact J. injection H as <-. contradiction.
    + rewrite shown_ordinary in H by exact Q. injection H as <-.
      eapply on_grid_multiple; [apply Z.le_refl|]. unfold on_grid. reflexivity.
    + destruct (Rle_dec x (/ 10 ^ 4)) as [C|C].
      * destruct (small_pos d x v P ltac:(unfold small; rewrite Rabs_pos_eq; lra) H) as [_ V].
        destruct O as [O _]. rewrite Rabs_pos_eq in O; lra.
      * rewrite shown_sci in H by assumption. injection H as <-. fold (sv (places d) x) in *.
        exfalso. assert (10 ^ 9 <= x) as L by (apply Rnot_lt_le; intros L; apply Q; unfold ordinary; rewrite Rabs_pos_eq; lra).
        assert (9 <= exponent x)%Z as E.
        { apply Z.nlt_ge. intros M. pose proof (exponent_spec x ltac:(lra)) as [_ B]. rewrite Rabs_pos_eq, <- ten_9 in * by lra.
          pose proof (ten_le (exponent x + 1) 9 ltac:(lia)). lra. }
        pose proof (sv_bounds (places d) x P) as [B _]. pose proof (ten_le 9 (exponent x) E). rewrite ten_9 in *.
        destruct O as [_ O]. rewrite Rabs_pos_eq in O; lra.
  - assert (v <> 0) as N by now apply not_integral_0. pose proof (exponent_spec v N) as [E1 E2].
    rewrite shown_sci by assumption. f_equal. destruct (three x) as [J|[[J Q]|[J Q]]].
    + rewrite shown_integral in H by exact J. injection H as <-. contradiction.
    + rewrite shown_ordinary in H by exact Q. injection H as H.
      eapply on_grid_multiple; [|rewrite <- H; unfold on_grid; reflexivity].
      apply Z.nlt_ge. intros L. apply O. split.
      * rewrite <- ten_m4. eapply Rlt_le_trans; [|exact E1]. apply ten_lt. lia.
      * assert (v <= ten 9) as U.
        { rewrite <- H, <- (on_grid_ten (- Z.of_nat (places d)) 9) by lia. apply on_grid_mono; [apply ten_pos|]. rewrite ten_9.
          destruct Q as [_ Q]. rewrite Rabs_pos_eq in Q; lra. }
        assert (0 <= v) as U0.
        { replace 0 with (on_grid (ten (- Z.of_nat (places d))) (IZR 0 * ten (- Z.of_nat (places d)))) by (rewrite on_grid_fix by apply ten_pos; ring).
          rewrite <- H. apply on_grid_mono; [apply ten_pos|]. lra. }
        rewrite Rabs_pos_eq by exact U0. destruct U as [U|U]; [now rewrite <- ten_9|].
        exfalso. apply I. rewrite U, ten_9. exists (10 ^ 9)%Z. exact (pow_IZR 10 9).
    + rewrite shown_sci in H by assumption. injection H as <-. fold (sv (places d) x) in *.
      pose proof (sv_bounds (places d) x P) as [B1 B2].
      assert (0 < sv (places d) x) as V by (pose proof (ten_pos (exponent x)); lra).
      rewrite Rabs_pos_eq in E1, E2 by lra.
      assert (exponent (sv (places d) x) = exponent x \/ sv (places d) x = ten (exponent x + 1)) as [E|E].
      { destruct B2 as [B2|B2]; [left|now right]. apply exponent_iff; [exact N|]. rewrite Rabs_pos_eq; lra. }
      * rewrite E. eapply on_grid_multiple; [apply Z.le_refl|]. unfold sv, on_grid. reflexivity.
      * apply (on_grid_multiple _ (exponent x + 1) _ 1); [|rewrite E; ring].
        apply Z.nlt_ge. intros L. pose proof (ten_lt (exponent x + 1) (exponent (sv (places d) x)) ltac:(lia)). lra.
Qed.
