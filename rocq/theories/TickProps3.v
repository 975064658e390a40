(** Property C161: the percent label of the tick 0.29 in double precision. *)
From Flocq Require Import Core.
From Coq Require Import ZArith Reals Lra Lia.
From Verif Require Import Base RoundModel RoundSpec RoundProofs TickModel FloatModel.
Open Scope R_scope.

Lemma rnd_at x e z : bpow radix2 (e - 1) <= x < bpow radix2 e -> (-1021 <= e)%Z -> Rabs (x * bpow radix2 (53 - e) - IZR z) < / 2 -> rnd x = IZR z * bpow radix2 (e - 53).
Proof.
  intros B He H. unfold rnd, round, F2R, scaled_mantissa, cexp. cbn [Fnum Fexp].
  assert (mag radix2 x = e :> Z) as M.
  { apply mag_unique. rewrite Rabs_pos_eq; [exact B|]. pose proof (bpow_ge_0 radix2 (e - 1)). lra. }
  rewrite M. unfold FLT_exp. rewrite Z.max_l by lia. f_equal. f_equal. apply Znearest_imp.
  replace (- (e - 53))%Z with (53 - e)%Z by lia. exact H.
Qed.

(** 0.29 as a double, times 100 in double precision; % 1, the difference and int are exact here. *)
Theorem C161_double_refuted : says (percent_of (fmul (rnd (29 / 100)) 100)) = Some 28.
Proof.
  assert (rnd (29 / 100) = 5224175567749775 * / 18014398509481984) as E1.
  { rewrite (rnd_at (29 / 100) (-1) 5224175567749775); [cbn; reflexivity|cbn; lra|lia|].
    cbn. apply Rabs_def1; lra. }
  assert (fmul (rnd (29 / 100)) 100 = 29 - / 281474976710656) as E2.
  { unfold fmul. rewrite E1. rewrite (rnd_at _ 5 8162774324609023); [cbn; lra|cbn; lra|lia|]. cbn. apply Rabs_def1; lra. }
  rewrite E2. set (x := 29 - / 281474976710656).
  assert (Int_part x = 28%Z) as I by (apply Int_part_eq; unfold x; lra).
  assert (frac_part x = 1 - / 281474976710656) as F by (unfold frac_part; rewrite I; unfold x; lra).
  unfold percent_of. rewrite F. assert (rne ((1 - / 281474976710656) * 10 ^ 8) = 100000000%Z) as R.
  { apply rne_near. apply Rabs_def1; lra. }
  rewrite R. cbv zeta. assert (x - 100000000 / 10 ^ 8 = 28 - / 281474976710656) as X by (unfold x; lra). rewrite X.
  rewrite (Int_part_eq (28 - / 281474976710656) 27) by lra. destruct (Rlt_dec (28 - / 281474976710656) 0) as [L|_]; [lra|].
  change ((100000000 =? 0)%Z) with false. cbn [says]. f_equal. change (100000000 + 27 * 10 ^ 8)%Z with 2800000000%Z. lra.
Qed.
Print Assumptions C161_double_refuted.
