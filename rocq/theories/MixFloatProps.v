(** Property C163: proportions of a mixture in double precision. *)
From Flocq Require Import Core.
From Coq Require Import List ZArith Reals Lra Lia.
From Verif Require Import Base FloatModel FloatSpec FloatProofs TickProps3 MixFloatModel.
Import ListNotations.
Open Scope R_scope.

Local Instance prec53' : Prec_gt_0 53. Proof. reflexivity. Qed.

Lemma fmt_scaled z e : (Z.abs z <= 2 ^ 53)%Z -> (-1074 <= e)%Z -> fmt (IZR z * bpow radix2 e).
Proof.
  intros H He. destruct (Z.eq_dec (Z.abs z) (2 ^ 53)) as [E|E].
  - assert (fmt (bpow radix2 (53 + e))) as HB by (apply generic_format_FLT_bpow; [exact prec53'|lia]).
    assert (bpow radix2 (53 + e) = IZR (2 ^ 53) * bpow radix2 e) as EB by (rewrite bpow_plus; reflexivity).
    destruct (Z.abs_spec z) as [[_ Ez]|[_ Ez]]; rewrite Ez in E.
    + rewrite E, <- EB. exact HB.
    + replace z with (- 2 ^ 53)%Z by lia. rewrite opp_IZR, Ropp_mult_distr_l_reverse, <- EB. apply generic_format_opp. exact HB.
  - apply generic_format_FLT. exists (Float radix2 z e).
    + unfold F2R. reflexivity.
    + simpl. change (Z.pow_pos 2 53) with (2 ^ 53)%Z. lia.
    + simpl. lia.
Qed.

Lemma double_fmt x : double x -> fmt x.
Proof. intros (m & e & -> & Hm & He). change 2 with (IZR radix2). rewrite <- bpow_powerRZ. apply fmt_scaled; lia. Qed.

Definition h : R := bpow radix2 (-54).
Lemma h_val : h = / 18014398509481984. Proof. reflexivity. Qed.

Lemma rnd_half a : 1 / 2 <= a < 1 -> exists z, rnd a = IZR z * (2 * h) /\ Rabs (rnd a - a) <= h /\ (0 <= z <= 2 ^ 53)%Z.
Proof.
  intros A. exists (ZnearestE (a * bpow radix2 53)).
  assert (rnd a = IZR (ZnearestE (a * bpow radix2 53)) * (2 * h)) as E.
  { unfold rnd, round, F2R, scaled_mantissa, cexp. cbn [Fnum Fexp].
    assert (mag radix2 a = 0%Z :> Z) as M. { apply mag_unique. rewrite Rabs_pos_eq by lra. cbn. lra. }
    rewrite M. unfold FLT_exp. rewrite Z.max_l by lia. f_equal. rewrite h_val. cbn. lra. }
  split; [exact E|]. pose proof (Znearest_half (fun x => negb (Z.even x)) (a * bpow radix2 53)) as N.
  rewrite E. assert (bpow radix2 53 = 9007199254740992) as B53 by reflexivity. rewrite B53 in *. rewrite h_val in *.
  set (z := ZnearestE (a * 9007199254740992)) in *. apply Rabs_le_inv in N.
  split; [apply Rabs_le; lra|]. split; apply le_IZR; [|change (IZR (2 ^ 53)) with 9007199254740992].
  - assert (-1 < z)%Z as Z1 by (apply lt_IZR; lra). apply IZR_le. lia.
  - assert (z < 2 ^ 53 + 1)%Z as Z1 by (apply lt_IZR; rewrite plus_IZR; change (IZR (2 ^ 53)) with 9007199254740992; lra). change 9007199254740992 with (IZR (2 ^ 53)). apply IZR_le. lia.
Qed.

Lemma rnd_below_1 : rnd (1 - h) = 1.
Proof.
  unfold rnd, round, F2R, scaled_mantissa, cexp. cbn [Fnum Fexp].
  assert (mag radix2 (1 - h) = 0%Z :> Z) as M. { apply mag_unique. rewrite h_val. rewrite Rabs_pos_eq by lra. cbn. lra. }
  rewrite M. unfold FLT_exp. rewrite Z.max_l by lia.
  assert (Zfloor ((1 - h) * bpow radix2 (- (0 - 53))) = 9007199254740991%Z) as F.
  { apply Zfloor_imp. rewrite h_val. rewrite plus_IZR. cbn. lra. }
  assert (ZnearestE ((1 - h) * bpow radix2 (- (0 - 53))) = 9007199254740992%Z) as N.
  { unfold Znearest. rewrite F. rewrite Rcompare_Eq by (rewrite h_val; cbn; lra). cbn [Z.even negb].
    apply Zceil_imp. rewrite h_val. split; [rewrite minus_IZR|]; cbn; lra. }
  rewrite N. cbn. lra.
Qed.
Lemma rnd_above_1 : rnd (1 + h) = 1.
Proof.
  rewrite (rnd_at (1 + h) 1 4503599627370496); [cbn; lra|rewrite h_val; cbn; lra|lia|]. rewrite h_val. cbn. apply Rabs_def1; lra.
Qed.

Lemma sum_near_1 p q : 1 - h <= p + q <= 1 + h -> fadd p q = 1.
Proof.
  intros [L U]. unfold fadd. apply Rle_antisym.
  - rewrite <- rnd_above_1. now apply rnd_le.
  - rewrite <- rnd_below_1. now apply rnd_le.
Qed.

Lemma two_half a : 1 / 2 <= a <= 1 -> 1 - h <= rnd a + rnd (1 - a) <= 1 + h.
Proof.
  intros A. destruct (Req_dec a 1) as [->|N].
  { rewrite rnd_1. replace (1 - 1) with 0 by ring. rewrite rnd_0, h_val. lra. }
  destruct (rnd_half a ltac:(lra)) as (z & E & D & Z0). rewrite E in *. apply Rabs_le_inv in D.
  assert (rnd (1 / 2) = 1 / 2) as H2. { replace (1 / 2) with (IZR 1 * bpow radix2 (-1)) by (cbn; lra). apply rnd_id, fmt_scaled; lia. }
  assert (1 / 2 <= IZR z * (2 * h)) as Z2. { rewrite <- E, <- H2. apply rnd_le. lra. }
  assert (2 ^ 52 <= z)%Z as Z52. { apply le_IZR. change (IZR (2 ^ 52)) with 4503599627370496. rewrite h_val in Z2. lra. }
  assert (forall k, (Z.abs k <= 2 ^ 53)%Z -> fmt (IZR k * h)) as FM by (intros k K; apply fmt_scaled; [exact K|lia]).
  assert (IZR (2 ^ 54 - 2 * z - 1) * h = 1 - IZR z * (2 * h) - h) as EL. { rewrite !minus_IZR, mult_IZR. change (IZR (2 ^ 54)) with 18014398509481984. rewrite h_val. lra. }
  assert (IZR (2 ^ 54 - 2 * z + 1) * h = 1 - IZR z * (2 * h) + h) as EU. { rewrite plus_IZR, minus_IZR, mult_IZR. change (IZR (2 ^ 54)) with 18014398509481984. rewrite h_val. lra. }
  change (2 ^ 54)%Z with 18014398509481984%Z in *. change (2 ^ 53)%Z with 9007199254740992%Z in *. change (2 ^ 52)%Z with 4503599627370496%Z in *.
  split.
  - assert (1 - IZR z * (2 * h) - h <= rnd (1 - a)); [|lra]. rewrite <- EL. rewrite <- (rnd_id (IZR (18014398509481984 - 2 * z - 1) * h)) by (apply FM; lia). apply rnd_le. rewrite EL. lra.
  - destruct (Z.eq_dec z 4503599627370496) as [->|NZ].
    + assert (rnd (1 - a) <= 1 / 2). { rewrite <- H2. apply rnd_le. lra. } rewrite h_val. lra.
    + assert (rnd (1 - a) <= 1 - IZR z * (2 * h) + h); [|lra]. rewrite <- EU. rewrite <- (rnd_id (IZR (18014398509481984 - 2 * z + 1) * h)) by (apply FM; lia). apply rnd_le. rewrite EU. lra.
Qed.

Lemma accepted_two p q : fmt p -> fadd p q = 1 -> fmix_proportions 2 (Some [p; q]) = Ok [p; q].
Proof.
  intros P S. unfold fmix_proportions, np_sum. cbn [fold_left]. replace (fadd 0 p) with p by (unfold fadd; rewrite Rplus_0_l; now rewrite rnd_id).
  destruct (Req_EM_T (fadd p q) 1); [reflexivity|contradiction].
Qed.

(** Two proportions that add to 1 are accepted, however they are rounded to doubles. *)
Theorem C163_two_partial a : 0 <= a <= 1 -> fmix_proportions 2 (Some [rnd a; rnd (1 - a)]) = Ok [rnd a; rnd (1 - a)].
Proof.
  intros A. apply accepted_two; [apply rnd_fmt|]. apply sum_near_1.
  destruct (Rle_lt_dec (1 / 2) a) as [L|L]; [now apply two_half|].
  pose proof (two_half (1 - a) ltac:(lra)) as T. replace (1 - (1 - a)) with a in T by ring. lra.
Qed.
Print Assumptions C163_two_partial.

(** So the model of a fitted mixture can always be built, whatever proportion the optimizer found. *)
Theorem C163_fitted p : double p -> 0 <= p <= 1 -> exists q, fitted_mixture p = Ok [p; q] /\ q = fsub 1 p /\ 0 <= q <= 1.
Proof.
  intros D P. apply double_fmt in D. exists (fsub 1 p). pose proof (C163_two_partial p P) as T. rewrite (rnd_id p D) in T.
  split; [exact T|]. split; [reflexivity|]. unfold fsub. split; [rewrite <- rnd_0|replace 1 with (rnd 1) at 2 by apply rnd_1]; apply rnd_le; lra.
Qed.
Print Assumptions C163_fitted.

Definition Rsum (l : list R) : R := fold_right Rplus 0 l.

Lemma stay l : forall c v, fmt v -> v <= c -> Forall (fun p => 0 <= p) l -> v <= fold_left fadd l c.
Proof.
  induction l as [|p l IH]; intros c v F L N; [exact L|]. inversion N; subst. cbn [fold_left]. apply IH; auto.
  unfold fadd. rewrite <- (rnd_id v F). apply rnd_le. lra.
Qed.

Definition g : R := bpow radix2 (-52).
Lemma g_val : g = / 4503599627370496. Proof. reflexivity. Qed.
Lemma above_1 : fmt (1 + g).
Proof. replace (1 + g) with (IZR 4503599627370497 * bpow radix2 (-52)) by (rewrite g_val; cbn; lra). apply fmt_scaled; lia. Qed.

Lemma exact_sums l : Forall (fun p => exists z, (0 <= z)%Z /\ p = IZR z * g) l -> forall z0, (0 <= z0 <= 2 ^ 52)%Z ->
  (fold_left fadd l (IZR z0 * g) = 1 <-> IZR z0 * g + Rsum l = 1).
Proof.
  induction 1 as [|p l (z & Hz & Ep) N IH]; intros z0 H0; cbn [fold_left Rsum fold_right].
  - split; intros E; lra.
  - fold (Rsum l). assert (IZR z0 * g + p = IZR (z0 + z) * g) as E by (rewrite plus_IZR, Ep; ring). unfold fadd at 2. rewrite E.
    destruct (Z_le_gt_dec (z0 + z) (2 ^ 52)) as [L|L].
    + rewrite rnd_id by (apply fmt_scaled; lia). rewrite IH by lia. rewrite <- E. split; intros; lra.
    + assert (1 + g <= IZR (z0 + z) * g) as B.
      { replace (1 + g) with (IZR (2 ^ 52 + 1) * g) by (rewrite plus_IZR; change (IZR (2 ^ 52)) with 4503599627370496; rewrite g_val; lra).
        apply Rmult_le_compat_r; [rewrite g_val; lra|apply IZR_le; lia]. }
      assert (Forall (fun p => 0 <= p) l) as NN.
      { eapply Forall_impl; [|exact N]. intros r (y & Hy & ->). apply IZR_le in Hy. rewrite g_val. lra. }
      assert (0 <= Rsum l) as S0. { clear - NN. induction NN; cbn; [lra|]. unfold Rsum in *. lra. }
      assert (1 + g <= fold_left fadd l (rnd (IZR (z0 + z) * g))) as F.
      { apply stay; [apply above_1| |exact NN]. rewrite <- (rnd_id _ above_1). now apply rnd_le. }
      rewrite g_val in *. split; intros; lra.
Qed.

(** Any number (below eight) of proportions that are multiples of 2^-52 is accepted exactly if they add to 1. *)
Theorem C163_binary_partial l : Forall (fun p => exists z, (0 <= z)%Z /\ p = IZR z * / 2 ^ 52) l -> (length l < 8)%nat ->
  (fmix_proportions (length l) (Some l) = Ok l <-> Rsum l = 1).
Proof.
  intros H _. assert (/ 2 ^ 52 = g) as G by (rewrite g_val; f_equal; rewrite (pow_IZR 2 52); reflexivity). rewrite G in H.
  pose proof (exact_sums l H 0 ltac:(lia)) as X. rewrite Rmult_0_l, Rplus_0_l in X. rewrite <- X.
  unfold fmix_proportions. fold (np_sum l). rewrite Nat.eqb_refl. destruct (Req_EM_T (np_sum l) 1); split; intros K; auto; [discriminate K|contradiction].
Qed.
Print Assumptions C163_binary_partial.

(** There is one proportion for each distribution; if none are given they are equal up to one rounding. *)
Theorem C163_each n ps l : (0 < n)%nat -> INR n <= 2 ^ 53 -> fmix_proportions n ps = Ok l -> length l = n /\
  match ps with Some p => l = p | None => Forall (fun q => Rabs (q - 1 / INR n) <= 1 / INR n * / 2 ^ 53) l end.
Proof.
  intros N B. destruct ps as [p|]; cbn [fmix_proportions].
  - destruct (Req_EM_T _ _); [|discriminate]. destruct (Nat.eqb_spec (length p) n) as [E|E]; [|discriminate]. intros H. assert (l = p) as -> by congruence. auto.
  - intros H. assert (l = repeat (fdiv 1 (float_of n)) n) as -> by congruence. split; [apply repeat_length|].
    apply Forall_forall. intros q Hq. apply repeat_spec in Hq. subst q. rewrite float_of_eq by exact B. unfold fdiv.
    assert (1 <= INR n) as N1 by (change 1 with (INR 1); apply le_INR; lia).
    assert (/ 2 ^ 60 <= 1 / INR n) as L.
    { unfold Rdiv. rewrite Rmult_1_l. apply Rinv_le_contravar; [lra|]. rewrite pow2_60. rewrite pow2_num in B. lra. }
    pose proof (rnd_rel (1 / INR n) L) as R. unfold u in R. apply Rabs_le. lra.
Qed.
Print Assumptions C163_each.

Lemma rnd_tie x e z : bpow radix2 (e - 1) <= x < bpow radix2 e -> (-1021 <= e)%Z -> x * bpow radix2 (53 - e) = IZR z + / 2 ->
  rnd x = IZR (if Z.even z then z else z + 1) * bpow radix2 (e - 53).
Proof.
  intros B He H. unfold rnd, round, F2R, scaled_mantissa, cexp. cbn [Fnum Fexp].
  assert (mag radix2 x = e :> Z) as M.
  { apply mag_unique. rewrite Rabs_pos_eq; [exact B|]. pose proof (bpow_ge_0 radix2 (e - 1)). lra. }
  rewrite M. unfold FLT_exp. rewrite Z.max_l by lia. f_equal. f_equal. replace (- (e - 53))%Z with (53 - e)%Z by lia. rewrite H.
  assert (Zfloor (IZR z + / 2) = z) as F by (apply Zfloor_imp; rewrite plus_IZR; lra).
  unfold Znearest. rewrite F. rewrite Rcompare_Eq by lra. destruct (Z.even z); cbn [negb]; [reflexivity|].
  apply Zceil_imp. rewrite minus_IZR, plus_IZR. lra.
Qed.

Lemma rnd_01 : rnd (1 / 10) = 7205759403792794 * / 72057594037927936.
Proof. rewrite (rnd_at _ (-3) 7205759403792794); [cbn; lra|cbn; lra|lia|]. cbn. apply Rabs_def1; lra. Qed.
Lemma rnd_03 : rnd (3 / 10) = 5404319552844595 * / 18014398509481984.
Proof. rewrite (rnd_at _ (-1) 5404319552844595); [cbn; lra|cbn; lra|lia|]. cbn. apply Rabs_def1; lra. Qed.
Lemma rnd_06 : rnd (6 / 10) = 5404319552844595 * / 9007199254740992.
Proof. rewrite (rnd_at _ 0 5404319552844595); [cbn; lra|cbn; lra|lia|]. cbn. apply Rabs_def1; lra. Qed.

(** Proportions of 30%, 60% and 10% are refused; 10%, 30% and 60% are accepted. Adding from the right only changes which. *)
Theorem C163_refuted : fmix_proportions 3 (Some [rnd (3 / 10); rnd (6 / 10); rnd (1 / 10)]) = Err ValueError /\
  fmix_proportions 3 (Some [rnd (1 / 10); rnd (3 / 10); rnd (6 / 10)]) = Ok [rnd (1 / 10); rnd (3 / 10); rnd (6 / 10)] /\
  fadd (rnd (1 / 10)) (fadd (rnd (6 / 10)) (rnd (3 / 10))) <> 1.
Proof.
  assert (fadd (rnd (3 / 10)) (rnd (6 / 10)) = 8106479329266892 * / 9007199254740992) as S1.
  { unfold fadd. rewrite rnd_03, rnd_06. rewrite (rnd_tie _ 0 8106479329266892); [cbn; lra|cbn; lra|lia|cbn; lra]. }
  assert (fadd (8106479329266892 * / 9007199254740992) (rnd (1 / 10)) = 9007199254740991 * / 9007199254740992) as S2.
  { unfold fadd. rewrite rnd_01. rewrite (rnd_at _ 0 9007199254740991); [cbn; lra|cbn; lra|lia|]. cbn. apply Rabs_def1; lra. }
  assert (fadd (rnd (1 / 10)) (rnd (3 / 10)) = 7205759403792794 * / 18014398509481984) as S3.
  { unfold fadd. rewrite rnd_01, rnd_03. rewrite (rnd_tie _ (-1) 7205759403792793); [cbn; lra|cbn; lra|lia|cbn; lra]. }
  assert (fadd (7205759403792794 * / 18014398509481984) (rnd (6 / 10)) = 1) as S4.
  { apply sum_near_1. rewrite rnd_06, h_val. lra. }
  assert (forall x, fadd 0 (rnd x) = rnd x) as S0 by (intros x; unfold fadd; rewrite Rplus_0_l; apply rnd_id, rnd_fmt).
  split; [|split].
  - unfold fmix_proportions, np_sum. cbn [fold_left]. rewrite S0, S1, S2. destruct (Req_EM_T _ 1) as [E|_]; [lra|reflexivity].
  - unfold fmix_proportions, np_sum. cbn [fold_left]. rewrite S0, S3, S4. destruct (Req_EM_T 1 1) as [_|E]; [reflexivity|lra].
  - assert (fadd (rnd (6 / 10)) (rnd (3 / 10)) = 8106479329266892 * / 9007199254740992) as -> by (rewrite <- S1; unfold fadd; f_equal; ring).
    assert (fadd (rnd (1 / 10)) (8106479329266892 * / 9007199254740992) = 9007199254740991 * / 9007199254740992) as -> by (rewrite <- S2; unfold fadd; f_equal; ring). lra.
Qed.
Print Assumptions C163_refuted.

(** A proportion of 0.3 as a double. *)
Example C163_case : double (rnd (3 / 10)) /\ 0 <= rnd (3 / 10) <= 1.
Proof. split; [apply fmt_double, rnd_fmt|]. rewrite rnd_03. lra. Qed.
