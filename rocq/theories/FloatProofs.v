From Flocq Require Import Core Relative.
From Coq Require Import List Arith Reals Bool Lra Lia Psatz.
From Verif Require Import Base FloatModel FloatSpec.
Import ListNotations.
Open Scope R_scope.

Notation fexp := (FLT_exp (-1074) 53).
Notation fmt := (generic_format radix2 fexp).

Local Instance prec53 : Prec_gt_0 53. Proof. reflexivity. Qed.
Local Instance vexp : Valid_exp fexp. Proof. apply FLT_exp_valid. exact prec53. Qed.

Definition u : R := / 2 ^ 53.

Lemma u_pos : 0 < u. Proof. unfold u. apply Rinv_0_lt_compat, pow_lt. lra. Qed.

Lemma rnd_le x y : x <= y -> rnd x <= rnd y.
Proof. intros H. unfold rnd. apply round_le; [apply vexp|apply valid_rnd_N|exact H]. Qed.

Lemma rnd_fmt x : fmt (rnd x).
Proof. unfold rnd. apply generic_format_round; [apply vexp|apply valid_rnd_N]. Qed.

Lemma rnd_id x : fmt x -> rnd x = x.
Proof. intros H. unfold rnd. apply round_generic; [apply valid_rnd_N|exact H]. Qed.

Lemma fmt_0 : fmt 0. Proof. apply generic_format_0. Qed.

Lemma fmt_Z z : (Z.abs z <= 2 ^ 53)%Z -> fmt (IZR z).
Proof.
  intros H. destruct (Z.eq_dec (Z.abs z) (2 ^ 53)) as [E|E].
  - assert (fmt (bpow radix2 53)) as HB.
    { apply generic_format_FLT_bpow; [exact prec53|lia]. }
    assert (bpow radix2 53 = IZR (2 ^ 53)) as EB by reflexivity.
    destruct (Z.abs_spec z) as [[_ Ez]|[_ Ez]]; rewrite Ez in E.
    + rewrite E, <- EB. exact HB.
    + replace z with (- 2 ^ 53)%Z by lia. rewrite opp_IZR, <- EB. apply generic_format_opp. exact HB.
  - apply generic_format_FLT. exists (Float radix2 z 0).
    + unfold F2R. simpl. lra.
    + simpl. change (Z.pow_pos 2 53) with (2 ^ 53)%Z. lia.
    + simpl. lia.
Qed.

Lemma fmt_INR n : INR n <= 2 ^ 53 -> fmt (INR n).
Proof.
  intros H. rewrite INR_IZR_INZ. apply fmt_Z. rewrite Z.abs_eq by lia.
  apply le_IZR. rewrite <- INR_IZR_INZ. rewrite (pow_IZR 2 53) in H. exact H.
Qed.

Lemma fmt_1 : fmt 1. Proof. apply (fmt_Z 1). lia. Qed.

Lemma float_of_eq n : INR n <= 2 ^ 53 -> float_of n = INR n.
Proof. intros H. unfold float_of. apply rnd_id, fmt_INR, H. Qed.

Lemma rnd_0 : rnd 0 = 0. Proof. apply rnd_id, fmt_0. Qed.
Lemma rnd_1 : rnd 1 = 1. Proof. apply rnd_id, fmt_1. Qed.

Lemma fmt_double x : fmt x -> double x.
Proof.
  intros H. destruct (FLT_format_generic radix2 (-1074) 53 x H) as [[m e] E Hm He].
  exists m, e. split; [|split; assumption]. rewrite E. unfold F2R. simpl. f_equal.
  apply (bpow_powerRZ radix2 e).
Qed.

(** Small numbers stay normal. *)
Lemma tiny : bpow radix2 (-1074 + 53 - 1) <= / 2 ^ 60.
Proof.
  replace (/ 2 ^ 60) with (bpow radix2 (-60)).
  - apply bpow_le. lia.
  - rewrite (pow_IZR 2 60). reflexivity.
Qed.

Lemma rnd_normal x : bpow radix2 (-1074 + 53 - 1) <= x -> x * (1 - u) <= rnd x <= x * (1 + u).
Proof.
  intros H. pose proof (bpow_gt_0 radix2 (-1074 + 53 - 1)) as T.
  pose proof (relative_error_N_FLT radix2 (-1074) 53 prec53 (fun n => negb (Z.even n)) x) as E.
  assert (/ 2 * bpow radix2 (- (53) + 1) = u) as EU.
  { unfold u. rewrite (pow_IZR 2 53). replace (bpow radix2 (- (53) + 1)) with (/ IZR (2 ^ 52)) by reflexivity.
    rewrite <- Rinv_mult, <- mult_IZR. reflexivity. }
  rewrite EU in E. rewrite (Rabs_pos_eq x) in E by lra. specialize (E ltac:(lra)).
  fold (rnd x) in E. apply Rabs_le_inv in E. lra.
Qed.

Lemma rnd_rel x : / 2 ^ 60 <= x -> x * (1 - u) <= rnd x <= x * (1 + u).
Proof. intros H. apply rnd_normal. pose proof tiny. lra. Qed.

Lemma rnd_ge_0 x : 0 <= x -> 0 <= rnd x.
Proof. intros H. rewrite <- rnd_0. apply rnd_le, H. Qed.

(** * Powers *)
Lemma pow_ge_bernoulli m : 1 - INR m * u <= (1 - u) ^ m.
Proof.
  pose proof u_pos. assert (u <= 1) as Hu.
  { unfold u. rewrite <- Rinv_1. apply Rinv_le_contravar; [lra|]. apply pow_R1_Rle. lra. }
  induction m as [|m IH]; [simpl; lra|]. rewrite S_INR. simpl.
  assert (0 <= INR m) by apply pos_INR.
  assert ((1 - u) * (1 - INR m * u) <= (1 - u) * (1 - u) ^ m) by (apply Rmult_le_compat_l; lra).
  nra.
Qed.

Lemma u_le_1 : u <= 1.
Proof. unfold u. rewrite <- Rinv_1. apply Rinv_le_contravar; [lra|]. apply pow_R1_Rle. lra. Qed.

Lemma pow_up_bound m : INR m * u <= 1 / 2 -> (1 + u) ^ m <= 2.
Proof.
  intros H. pose proof u_pos. pose proof u_le_1.
  assert ((1 + u) ^ m * (1 - u) ^ m <= 1) as HP.
  { rewrite <- Rpow_mult_distr. replace 1 with (1 ^ m) at 3 by apply pow1. apply pow_incr. split; nra. }
  pose proof (pow_ge_bernoulli m). assert (0 < (1 + u) ^ m) by (apply pow_lt; lra). nra.
Qed.

Lemma within_pos m x v : within_roundings m x v -> 0 <= x -> 0 <= v.
Proof.
  intros [H _] Hx. fold u in H. pose proof u_le_1.
  assert (0 <= (1 - u) ^ m) by (apply pow_le; lra). nra.
Qed.

Lemma within_refl m x : 0 <= x -> within_roundings m x x.
Proof.
  intros H. unfold within_roundings. fold u. pose proof u_le_1. pose proof u_pos.
  assert ((1 - u) ^ m <= 1) by (replace 1 with (1 ^ m) at 2 by apply pow1; apply pow_incr; lra).
  assert (1 <= (1 + u) ^ m) by (apply pow_R1_Rle; lra). nra.
Qed.

Lemma within_weaken m k x v : (m <= k)%nat -> 0 <= x -> within_roundings m x v -> within_roundings k x v.
Proof.
  intros H Hx [H1 H2]. unfold within_roundings. fold u in *. pose proof u_le_1. pose proof u_pos.
  replace k with (m + (k - m))%nat by lia. rewrite !pow_add.
  assert ((1 - u) ^ (k - m) <= 1) by (replace 1 with (1 ^ (k - m)) at 2 by apply pow1; apply pow_incr; lra).
  assert (1 <= (1 + u) ^ (k - m)) by (apply pow_R1_Rle; lra).
  assert (0 <= (1 - u) ^ m) by (apply pow_le; lra). assert (0 <= (1 + u) ^ m) by (apply pow_le; lra).
  assert (0 <= x * (1 - u) ^ m) by nra. assert (0 <= x * (1 + u) ^ m) by nra.
  rewrite <- !Rmult_assoc. split; nra.
Qed.

Lemma within_rnd m x v : 0 <= x -> within_roundings m x v -> / 2 ^ 60 <= v -> within_roundings (S m) x (rnd v).
Proof.
  intros Hx [H1 H2] Hv. unfold within_roundings. fold u in *. destruct (rnd_rel v Hv) as [R1 R2].
  pose proof u_le_1. pose proof u_pos. simpl.
  split; [apply Rle_trans with (v * (1 - u)); [nra|exact R1]|apply Rle_trans with (v * (1 + u)); [exact R2|nra]].
Qed.

Lemma within_mult m k x v y w : 0 <= x -> 0 <= y -> within_roundings m x v -> within_roundings k y w ->
  within_roundings (m + k) (x * y) (v * w).
Proof.
  intros Hx Hy Hv Hw. pose proof (within_pos _ _ _ Hv Hx) as Pv. pose proof (within_pos _ _ _ Hw Hy) as Pw.
  destruct Hv as [H1 H2], Hw as [H3 H4]. unfold within_roundings. fold u in *. pose proof u_le_1. pose proof u_pos.
  assert (0 <= (1 - u) ^ m) by (apply pow_le; lra). assert (0 <= (1 - u) ^ k) by (apply pow_le; lra).
  rewrite !pow_add. split.
  - replace (x * y * ((1 - u) ^ m * (1 - u) ^ k)) with ((x * (1 - u) ^ m) * (y * (1 - u) ^ k)) by ring.
    apply Rmult_le_compat; nra.
  - replace (x * y * ((1 + u) ^ m * (1 + u) ^ k)) with ((x * (1 + u) ^ m) * (y * (1 + u) ^ k)) by ring.
    apply Rmult_le_compat; nra.
Qed.

Lemma within_plus m x v y w : within_roundings m x v -> within_roundings m y w -> within_roundings m (x + y) (v + w).
Proof. intros [H1 H2] [H3 H4]. unfold within_roundings. lra. Qed.

Lemma pow2_num : 2 ^ 53 = 9007199254740992.
Proof. rewrite (pow_IZR 2 53). reflexivity. Qed.
Lemma pow2_50 : 2 ^ 50 = 1125899906842624.
Proof. rewrite (pow_IZR 2 50). reflexivity. Qed.
Lemma pow2_60 : 2 ^ 60 = 1152921504606846976.
Proof. rewrite (pow_IZR 2 60). reflexivity. Qed.

Lemma big_u n : INR n <= 2 ^ 50 -> INR n * u <= 1 / 8.
Proof.
  intros H. unfold u. rewrite pow2_50 in H. rewrite pow2_num. apply Rmult_le_reg_r with 9007199254740992; [lra|].
  rewrite Rmult_assoc, Rinv_l by lra. lra.
Qed.

Lemma small_inv r : INR r <= 2 ^ 50 -> (0 < r)%nat -> 8 * u <= / INR r.
Proof.
  intros H Hr. assert (0 < INR r) by (apply lt_0_INR; lia).
  apply Rmult_le_reg_r with (INR r); [assumption|]. rewrite Rinv_l by lra.
  pose proof (big_u r H). lra.
Qed.

(** * Kaplan-Meier *)
Definition ratio (c : bool) (r : nat) : R := fdiv (fsub (float_of r) (float_code c)) (float_of r).

Lemma fkm_loop_one codes : fkm codes = fkm_loop (Some 1) codes.
Proof.
  unfold fkm. destruct codes as [|c rest]; [reflexivity|]. cbn [fkm_loop]. cbv zeta.
  set (q := fdiv _ _). assert (fmul q 1 = q) as ->; [|reflexivity].
  unfold fmul. rewrite Rmult_1_r. apply rnd_id. unfold q, fdiv. apply rnd_fmt.
Qed.

Lemma fkm_length codes : forall prev, length (fkm_loop prev codes) = length codes.
Proof. induction codes as [|c rest IH]; intros prev; [reflexivity|]. cbn [fkm_loop length]. now rewrite IH. Qed.

Lemma fkm_step codes : forall p k, (k < length codes)%nat ->
  nth (S k) (p :: fkm_loop (Some p) codes) 0 =
  fmul (ratio (failed codes k) (length codes - k)) (nth k (p :: fkm_loop (Some p) codes) 0).
Proof.
  induction codes as [|c rest IH]; intros p k H; [simpl in H; lia|].
  cbn [fkm_loop]. cbv zeta. destruct k as [|k].
  - reflexivity.
  - simpl in H. specialize (IH (fmul (ratio c (S (length rest))) p) k ltac:(lia)).
    unfold ratio at 1 3 5 in IH. exact IH.
Qed.

Definition kmv (codes : list bool) (k : nat) : R := nth k (1 :: fkm codes) 0.

Lemma kmv_0 codes : kmv codes 0 = 1. Proof. reflexivity. Qed.

Lemma kmv_S codes k : (k < length codes)%nat ->
  kmv codes (S k) = fmul (ratio (failed codes k) (length codes - k)) (kmv codes k).
Proof. intros H. unfold kmv. rewrite fkm_loop_one. exact (fkm_step codes 1 k H). Qed.

Lemma kmv_fmt codes k : fmt (kmv codes k).
Proof.
  destruct (Nat.lt_ge_cases (length codes) k) as [H|H].
  - unfold kmv. rewrite nth_overflow; [apply fmt_0|]. simpl. unfold fkm. rewrite fkm_length. lia.
  - destruct k as [|k]; [apply fmt_1|]. rewrite kmv_S by lia. apply rnd_fmt.
Qed.

Lemma ratio_eq c r : INR r <= 2 ^ 53 -> (0 < r)%nat -> ratio c r = rnd ((INR r - float_code c) / INR r).
Proof.
  intros H Hr. unfold ratio. rewrite float_of_eq by exact H. unfold fdiv, fsub. f_equal. f_equal.
  apply rnd_id. destruct c; simpl float_code.
  - replace (INR r - 1) with (INR (r - 1)) by (rewrite minus_INR by lia; reflexivity).
    apply fmt_INR. rewrite minus_INR by lia. simpl. lra.
  - rewrite Rminus_0_r. apply fmt_INR, H.
Qed.

Lemma ratio_cens r : INR r <= 2 ^ 53 -> (0 < r)%nat -> ratio false r = 1.
Proof.
  intros H Hr. rewrite ratio_eq by assumption. simpl float_code.
  assert (0 < INR r) by (apply lt_0_INR; lia).
  replace ((INR r - 0) / INR r) with 1 by (field; lra). apply rnd_1.
Qed.

Lemma ratio_range c r : INR r <= 2 ^ 53 -> (0 < r)%nat -> 0 <= ratio c r <= 1.
Proof.
  intros H Hr. rewrite ratio_eq by assumption. assert (1 <= INR r) by (apply (le_INR 1); lia).
  assert (0 <= (INR r - float_code c) / INR r <= 1) as [H1 H2].
  { split.
    - apply Rmult_le_pos; [destruct c; simpl; lra|]. apply Rlt_le, Rinv_0_lt_compat. lra.
    - apply Rmult_le_reg_r with (INR r); [lra|]. unfold Rdiv. rewrite Rmult_assoc, Rinv_l by lra. destruct c; simpl; lra. }
  split; [apply rnd_ge_0, H1|]. rewrite <- rnd_1. apply rnd_le, H2.
Qed.

Lemma le_50_53 x : x <= 2 ^ 50 -> x <= 2 ^ 53.
Proof. rewrite pow2_50, pow2_num. lra. Qed.

Lemma kmv_range codes k : INR (length codes) <= 2 ^ 53 -> 0 <= kmv codes k <= 1.
Proof.
  intros HN. induction k as [|k IH]; [rewrite kmv_0; lra|].
  destruct (Nat.lt_ge_cases k (length codes)) as [H|H].
  - rewrite kmv_S by exact H.
    assert (INR (length codes - k) <= 2 ^ 53) as HR by (eapply Rle_trans; [apply le_INR|exact HN]; lia).
    destruct (ratio_range (failed codes k) (length codes - k) HR ltac:(lia)) as [R1 R2].
    unfold fmul. split; [apply rnd_ge_0; nra|]. rewrite <- rnd_1. apply rnd_le. nra.
  - unfold kmv. rewrite nth_overflow; [lra|]. simpl. unfold fkm. rewrite fkm_length. lia.
Qed.

Lemma kmv_le codes k : INR (length codes) <= 2 ^ 53 -> (k < length codes)%nat -> kmv codes (S k) <= kmv codes k.
Proof.
  intros HN H. rewrite kmv_S by exact H. destruct (kmv_range codes k HN) as [K1 K2].
  assert (INR (length codes - k) <= 2 ^ 53) as HR by (eapply Rle_trans; [apply le_INR|exact HN]; lia).
  destruct (ratio_range (failed codes k) (length codes - k) HR ltac:(lia)) as [R1 R2].
  unfold fmul. rewrite <- (rnd_id (kmv codes k)) at 2 by apply kmv_fmt. apply rnd_le. nra.
Qed.

Lemma kmv_cens codes k : INR (length codes) <= 2 ^ 53 -> (k < length codes)%nat -> failed codes k = false ->
  kmv codes (S k) = kmv codes k.
Proof.
  intros HN H HF. rewrite kmv_S by exact H. rewrite HF.
  assert (INR (length codes - k) <= 2 ^ 53) as HR by (eapply Rle_trans; [apply le_INR|exact HN]; lia).
  rewrite ratio_cens by (auto; lia). unfold fmul. rewrite Rmult_1_l. apply rnd_id, kmv_fmt.
Qed.

(** Exact survival. *)
Lemma fold_mult_app l x : fold_right Rmult 1 (l ++ [x]) = x * fold_right Rmult 1 l.
Proof. induction l as [|y l IH]; simpl; [ring|]. rewrite IH. ring. Qed.
Lemma fold_plus_app l x : fold_right Rplus 0 (l ++ [x]) = x + fold_right Rplus 0 l.
Proof. induction l as [|y l IH]; simpl; [ring|]. rewrite IH. ring. Qed.

Lemma survival_S codes k : survival codes (S k) =
  (if failed codes k then 1 - 1 / INR (length codes - k) else 1) * survival codes k.
Proof. unfold survival. rewrite seq_S, map_app. simpl map. apply fold_mult_app. Qed.

Lemma survival_low codes k : (k < length codes)%nat -> INR (length codes - k) / INR (length codes) <= survival codes k.
Proof.
  induction k as [|k IH]; intros H.
  - unfold survival. simpl fold_right. rewrite Nat.sub_0_r. right. field.
    apply not_0_INR. lia.
  - specialize (IH ltac:(lia)). rewrite survival_S.
    assert (0 < INR (length codes - S k)) as P by (apply lt_0_INR; lia).
    assert (INR (length codes - k) = INR (length codes - S k) + 1) as E.
    { rewrite <- S_INR. f_equal. lia. }
    assert (0 < / INR (length codes)) as PN by (apply Rinv_0_lt_compat, lt_0_INR; lia).
    destruct (failed codes k).
    + rewrite E in *. set (a := INR (length codes - S k)) in *.
      apply Rle_trans with ((1 - 1 / (a + 1)) * ((a + 1) / INR (length codes))).
      * right. field. split; [apply not_0_INR; lia|lra].
      * apply Rmult_le_compat_l; [|exact IH].
        assert (1 / (a + 1) <= 1); [|lra]. apply Rmult_le_reg_r with (a + 1); [lra|]. unfold Rdiv. rewrite Rmult_assoc, Rinv_l by lra. lra.
    + rewrite Rmult_1_l. apply Rle_trans with (2 := IH). unfold Rdiv. rewrite E. nra.
Qed.

Lemma survival_lo codes k : INR (length codes) <= 2 ^ 50 -> (k < length codes)%nat -> / 2 ^ 50 <= survival codes k.
Proof.
  intros HN H. apply Rle_trans with (2 := survival_low codes k H).
  assert (0 < INR (length codes)) by (apply lt_0_INR; lia).
  assert (1 <= INR (length codes - k)) by (apply (le_INR 1); lia).
  apply Rle_trans with (1 / INR (length codes)).
  - unfold Rdiv. rewrite Rmult_1_l. apply Rinv_le_contravar; assumption.
  - apply Rmult_le_compat_r; [apply Rlt_le, Rinv_0_lt_compat; assumption|assumption].
Qed.

Lemma within_low m x v : INR m <= 2 * 2 ^ 50 -> within_roundings m x v -> / 2 ^ 50 <= x -> / 2 ^ 51 <= v.
Proof.
  intros Hm [H _] Hx. fold u in H. pose proof (pow_ge_bernoulli m) as B. pose proof u_pos.
  assert (INR m * u <= 1 / 4) as Hmu.
  { unfold u. rewrite pow2_50 in Hm. rewrite pow2_num. apply Rmult_le_reg_r with 9007199254740992; [lra|].
    rewrite Rmult_assoc, Rinv_l by lra. lra. }
  assert (0 < / 2 ^ 50) by (apply Rinv_0_lt_compat, pow_lt; lra).
  replace (/ 2 ^ 51) with (/ 2 ^ 50 * (1 / 2)) by (change (2 ^ 51) with (2 * 2 ^ 50); field; apply pow_nonzero; lra).
  apply Rle_trans with (2 := H). apply Rmult_le_compat; lra.
Qed.

Lemma inv_60_52 : / 2 ^ 60 <= / 2 ^ 51 * (1 / 4).
Proof. rewrite (pow_IZR 2 60), (pow_IZR 2 51). simpl. lra. Qed.

(** The ratio when the items do not all fail. *)
Lemma ratio_within c r : INR r <= 2 ^ 50 -> (0 < r)%nat -> (c = true -> 2 <= r)%nat ->
  within_roundings 1 (if c then 1 - 1 / INR r else 1) (ratio c r) /\ 1 / 4 <= ratio c r /\
  (c = true -> ratio c r <= 1 - 7 * u).
Proof.
  intros HR Hr Hc. destruct c.
  - specialize (Hc eq_refl). rewrite ratio_eq by (auto; apply le_50_53, HR). simpl float_code.
    assert (2 <= INR r) as H2 by (apply (le_INR 2); lia).
    assert ((INR r - 1) / INR r = 1 - 1 / INR r) as -> by (field; lra).
    assert (1 / INR r <= 1 / 2) as HI.
    { unfold Rdiv. rewrite !Rmult_1_l. apply Rinv_le_contravar; lra. }
    assert (0 < 1 / INR r) as HI' by (unfold Rdiv; rewrite Rmult_1_l; apply Rinv_0_lt_compat; lra).
    destruct (rnd_rel (1 - 1 / INR r)) as [E1 E2].
    { rewrite pow2_60. lra. }
    pose proof u_pos. pose proof (small_inv r HR Hr) as HS.
    assert (1 / INR r = / INR r) as EI by (unfold Rdiv; ring).
    assert (8 * u <= 1 / 2) by lra.
    split; [|split].
    + unfold within_roundings. fold u. rewrite !pow_1. split; assumption.
    + nra.
    + intros _. nra.
  - rewrite ratio_cens by (auto; apply le_50_53, HR). split; [apply within_refl; lra|]. split; [lra|discriminate].
Qed.

(** The last item's failure is the only way to zero. *)
Definition not_final (codes : list bool) (k : nat) : Prop := (k < length codes)%nat \/ failed codes (length codes - 1) = false.

Lemma kmv_within codes k : INR (length codes) <= 2 ^ 50 -> (k < length codes)%nat ->
  within_roundings (2 * k) (survival codes k) (kmv codes k).
Proof.
  intros HN. induction k as [|k IH]; intros H.
  - change (within_roundings 0 1 1). apply within_refl. lra.
  - specialize (IH ltac:(lia)). rewrite kmv_S by lia. rewrite survival_S.
    pose proof (survival_lo codes k HN ltac:(lia)) as HL.
    assert (INR (length codes - k) <= 2 ^ 50) as HR by (eapply Rle_trans; [apply le_INR|exact HN]; lia).
    destruct (ratio_within (failed codes k) (length codes - k) HR ltac:(lia) ltac:(intros; lia)) as [W [L _]].
    assert (0 < / 2 ^ 50) by (apply Rinv_0_lt_compat, pow_lt; lra).
    assert (INR (2 * k) <= 2 * 2 ^ 50) as HM.
    { rewrite mult_INR. simpl (INR 2). assert (INR k <= INR (length codes)) by (apply le_INR; lia). lra. }
    pose proof (within_low _ _ _ HM IH HL) as HLv.
    replace (2 * S k)%nat with (S (1 + 2 * k)) by lia. unfold fmul.
    set (f := if failed codes k then 1 - 1 / INR (length codes - k) else 1) in *.
    assert (0 <= f) as Hf.
    { unfold f. destruct (failed codes k); [|lra]. assert (1 <= INR (length codes - k)) by (apply (le_INR 1); lia).
      assert (1 / INR (length codes - k) <= 1); [|lra]. apply Rmult_le_reg_r with (INR (length codes - k)); [lra|].
      unfold Rdiv. rewrite Rmult_assoc, Rinv_l by lra. lra. }
    apply within_rnd; [apply Rmult_le_pos; lra|apply within_mult; auto; lra|].
    apply Rle_trans with (1 := inv_60_52). rewrite (Rmult_comm (/ 2 ^ 51)).
    apply Rmult_le_compat; lra.
Qed.

Lemma kmv_drop codes k : INR (length codes) <= 2 ^ 50 -> (k < length codes)%nat -> failed codes k = true ->
  kmv codes (S k) < kmv codes k.
Proof.
  intros HN H HF.
  pose proof (kmv_within codes k HN ltac:(lia)) as W. pose proof (survival_lo codes k HN ltac:(lia)) as HL.
  assert (INR (2 * k) <= 2 * 2 ^ 50) as HM.
  { rewrite mult_INR. simpl (INR 2). assert (INR k <= INR (length codes)) by (apply le_INR; lia). lra. }
  pose proof (within_low _ _ _ HM W HL) as HLv.
  assert (0 < / 2 ^ 51) as P51 by (apply Rinv_0_lt_compat, pow_lt; lra).
  rewrite kmv_S by lia. rewrite HF.
  assert (INR (length codes - k) <= 2 ^ 50) as HR by (eapply Rle_trans; [apply le_INR|exact HN]; lia).
  destruct (Nat.eq_dec (length codes - k) 1) as [E|E].
  - rewrite E. rewrite ratio_eq; [|rewrite pow2_num; simpl; lra|lia]. simpl.
    replace ((1 - 1) / 1) with 0 by field. rewrite rnd_0. unfold fmul. rewrite Rmult_0_l, rnd_0. lra.
  - destruct (ratio_within true (length codes - k) HR ltac:(lia) ltac:(intros; lia)) as [_ [L S]].
    specialize (S eq_refl). unfold fmul. pose proof u_pos. pose proof u_le_1.
    assert (/ 2 ^ 60 <= ratio true (length codes - k) * kmv codes k) as T.
    { apply Rle_trans with (1 := inv_60_52). rewrite (Rmult_comm (/ 2 ^ 51)). apply Rmult_le_compat; lra. }
    destruct (rnd_rel _ T) as [_ E2]. apply Rle_lt_trans with (1 := E2).
    set (q := ratio true (length codes - k)) in *. set (v := kmv codes k) in *.
    assert (q * (1 + u) < 1) by nra. nra.
Qed.

Lemma kmv_positive codes k : INR (length codes) <= 2 ^ 50 -> (k < length codes)%nat -> 0 < kmv codes k.
Proof.
  intros HN H. pose proof (kmv_within codes k HN H) as W. pose proof (survival_lo codes k HN H) as HL.
  assert (INR (2 * k) <= 2 * 2 ^ 50) as HM.
  { rewrite mult_INR. simpl (INR 2). assert (INR k <= INR (length codes)) by (apply le_INR; lia). lra. }
  pose proof (within_low _ _ _ HM W HL). assert (0 < / 2 ^ 51) by (apply Rinv_0_lt_compat, pow_lt; lra). lra.
Qed.

Lemma kmv_last codes : INR (length codes) <= 2 ^ 50 -> (0 < length codes)%nat ->
  kmv codes (length codes) = 0 <-> failed codes (length codes - 1) = true.
Proof.
  intros HN H. destruct (length codes) as [|m] eqn:E; [lia|]. rewrite <- E in HN.
  assert (kmv codes (S m) = fmul (ratio (failed codes m) 1) (kmv codes m)) as ES.
  { rewrite kmv_S by lia. repeat f_equal. lia. }
  replace (S m - 1)%nat with m by lia. split.
  - intros Z. destruct (failed codes m) eqn:F; [reflexivity|].
    rewrite kmv_cens in Z; [|apply le_50_53, HN|lia|exact F].
    pose proof (kmv_positive codes m HN ltac:(lia)). lra.
  - intros F. rewrite ES, F. rewrite ratio_eq; [|rewrite pow2_num; simpl; lra|lia]. simpl.
    replace ((1 - 1) / 1) with 0 by field. rewrite rnd_0. unfold fmul. rewrite Rmult_0_l. apply rnd_0.
Qed.

Lemma kmv_within_all codes k : INR (length codes) <= 2 ^ 50 -> (k <= length codes)%nat ->
  within_roundings (2 * k) (survival codes k) (kmv codes k).
Proof.
  intros HN H. destruct (Nat.eq_dec k (length codes)) as [->|N]; [|apply kmv_within; auto; lia].
  destruct (length codes) as [|m] eqn:E.
  { change (within_roundings 0 1 1). apply within_refl. lra. }
  rewrite <- E in HN. pose proof (kmv_within codes m HN ltac:(lia)) as W.
  destruct (failed codes m) eqn:F.
  - assert (kmv codes (S m) = 0) as ->.
    { rewrite <- E. apply kmv_last; auto; [lia|]. rewrite E. replace (S m - 1)%nat with m by lia. exact F. }
    rewrite survival_S, F. replace (length codes - m)%nat with 1%nat by lia. simpl INR.
    replace (1 - 1 / 1) with 0 by field. rewrite Rmult_0_l. apply within_refl. lra.
  - rewrite kmv_cens; [|apply le_50_53, HN|lia|exact F]. rewrite survival_S, F, Rmult_1_l.
    apply within_weaken with (2 * m)%nat; [lia| |exact W].
    pose proof (survival_lo codes m HN ltac:(lia)). assert (0 < / 2 ^ 50) by (apply Rinv_0_lt_compat, pow_lt; lra). lra.
Qed.

Lemma fkm_nth codes k : nth k (fkm codes) 0 = kmv codes (S k).
Proof. reflexivity. Qed.

(** Bounds. *)
Lemma fkm_bounds km delta : fmt km -> 0 <= km <= 1 -> 0 <= delta ->
  0 <= fkm_lower km delta <= km /\ km <= fkm_upper km delta <= 1.
Proof.
  intros HF HK HD. unfold fkm_lower, fkm_upper, fadd, fsub. cbv zeta.
  assert (rnd (km - delta) <= km) by (rewrite <- (rnd_id km) at 2 by exact HF; apply rnd_le; lra).
  assert (km <= rnd (km + delta)) by (rewrite <- (rnd_id km) at 1 by exact HF; apply rnd_le; lra).
  destruct (Rlt_dec (rnd (km - delta)) 0), (Rlt_dec 1 (rnd (km + delta))); lra.
Qed.
