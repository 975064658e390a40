From Flocq Require Import Core Relative.
From Coq Require Import List Arith Reals Bool Lra Lia Psatz.
From Verif Require Import Base FloatModel FloatSpec FloatProofs FloatProofs2.
Import ListNotations.
Open Scope R_scope.
Local Existing Instances prec53 vexp.

(** * The grid of doubles *)
Lemma grid y k : fmt y -> bpow radix2 k <= y -> (-1000 <= k)%Z -> exists z : Z, y = IZR z * bpow radix2 (k - 52).
Proof.
  intros HF Hk Hz. unfold generic_format in HF.
  assert (0 < y) as HP by (eapply Rlt_le_trans; [apply bpow_gt_0|exact Hk]).
  assert (k < mag radix2 y)%Z as HM.
  { apply (lt_bpow radix2). apply Rle_lt_trans with (1 := Hk). rewrite <- (Rabs_pos_eq y) at 1 by lra. apply bpow_mag_gt. }
  set (m := Ztrunc (scaled_mantissa radix2 fexp y)) in *. set (e := cexp radix2 fexp y) in *.
  assert (k - 52 <= e)%Z as He. { unfold e, cexp, FLT_exp. lia. }
  exists (m * 2 ^ (e - (k - 52)))%Z. rewrite HF. unfold F2R. cbn [Fnum Fexp]. rewrite mult_IZR, Rmult_assoc. f_equal.
  change 2%Z with (radix_val radix2). rewrite IZR_Zpower by lia. rewrite <- bpow_plus. f_equal. lia.
Qed.

Lemma grid_gap y k N : fmt y -> bpow radix2 k <= y -> (-1000 <= k)%Z -> forall z : Z, N = IZR z * bpow radix2 (k - 52) ->
  (N < y -> N + bpow radix2 (k - 52) <= y) /\ (y < N -> y <= N - bpow radix2 (k - 52)).
Proof.
  intros HF Hk Hz z ->. destruct (grid y k HF Hk Hz) as [w ->]. pose proof (bpow_gt_0 radix2 (k - 52)) as B.
  split; intros H.
  - assert (z < w)%Z as HL by (apply lt_IZR; nra). assert (z + 1 <= w)%Z as H1 by lia.
    apply IZR_le in H1. rewrite plus_IZR in H1. nra.
  - assert (w < z)%Z as HL by (apply lt_IZR; nra). assert (w <= z - 1)%Z as H1 by lia.
    apply IZR_le in H1. rewrite minus_IZR in H1. nra.
Qed.

Lemma nearest_bound t N : fmt N -> fmt (rnd t) -> Rabs (rnd t - t) <= Rabs (N - t).
Proof.
  intros HN _. destruct (round_N_pt radix2 fexp (fun n => negb (Z.even n)) t) as [_ H]. exact (H N HN).
Qed.

Lemma bpow_m51 : bpow radix2 (1 - 52) = 4 * u.
Proof. unfold u. rewrite pow2_num. change (bpow radix2 (1 - 52)) with (/ IZR (2 ^ 51)). simpl. lra. Qed.
Lemma bpow_m52 : bpow radix2 (0 - 52) = 2 * u.
Proof. unfold u. rewrite pow2_num. change (bpow radix2 (0 - 52)) with (/ IZR (2 ^ 52)). simpl. lra. Qed.
Lemma bpow_m53 : bpow radix2 (-1 - 52) = u.
Proof. unfold u. rewrite pow2_num. change (bpow radix2 (-1 - 52)) with (/ IZR (2 ^ 53)). simpl. lra. Qed.

Lemma rnd_near_int t n : (2 <= n)%nat -> INR n <= 2 ^ 53 -> t < INR n + 2 * u -> rnd t <= INR n.
Proof.
  intros H2 HN Ht. pose proof (fmt_INR n HN) as HF. pose proof u_pos.
  destruct (Rle_lt_dec t (INR n)) as [L|G].
  - rewrite <- (rnd_id (INR n) HF). apply rnd_le, L.
  - destruct (Rle_lt_dec (rnd t) (INR n)) as [|K]; [assumption|exfalso].
    assert (2 <= INR n) by (apply (le_INR 2); lia).
    destruct (grid_gap (rnd t) 1 (INR n) (rnd_fmt t)) with (z := (Z.of_nat n * 2 ^ 51)%Z) as [GG _].
    + change (bpow radix2 1) with 2. lra.
    + lia.
    + rewrite mult_IZR, <- INR_IZR_INZ. change (bpow radix2 (1 - 52)) with (/ IZR (2 ^ 51)). field. apply not_0_IZR. lia.
    + specialize (GG K). rewrite bpow_m51 in GG. pose proof (nearest_bound t (INR n) HF (rnd_fmt t)) as NB.
      rewrite Rabs_pos_eq in NB by lra. rewrite Rabs_left in NB by lra. lra.
Qed.

(** * One step of the ranks *)
Lemma arith1 v dl : 0 < v <= 1 / 8 -> 2 * v <= dl -> (1 + dl / 2) * (1 + v) * (1 + v) < 1 + 2 * v + dl.
Proof.
  intros [H1 H2] H. assert (v * v <= v * (1 / 8)) by (apply Rmult_le_compat_l; lra).
  assert (2 * v * (1 / 4) <= dl * (1 / 2 - v - v * v / 2)) by (apply Rmult_le_compat; lra).
  replace ((1 + dl / 2) * (1 + v) * (1 + v)) with (1 + 2 * v + dl + v * v - dl * (1 / 2 - v - v * v / 2)) by field. lra.
Qed.
Lemma arith2 v z : 0 < v <= 1 / 8 -> 0 <= z -> (1 + z / 2) * (1 + v) * (1 + v) <= 2 + z.
Proof.
  intros [H1 H2] H. rewrite Rmult_assoc. assert ((1 + v) * (1 + v) <= 2) by nra.
  replace (2 + z) with ((1 + z / 2) * 2) by field. apply Rmult_le_compat_l; lra.
Qed.
Lemma arith3 v w q : 0 < v <= 1 / 8 -> 1 <= w -> w * (1 - v) * (1 - v) <= q -> (1 - v) * (1 - v) <= q.
Proof.
  intros H Hw Hq. apply Rle_trans with (2 := Hq). rewrite Rmult_assoc.
  assert (0 <= (1 - v) * (1 - v)) by (apply Rmult_le_pos; lra).
  rewrite <- (Rmult_1_l ((1 - v) * (1 - v))) at 1. apply Rmult_le_compat_r; lra.
Qed.
Lemma arith4 v w b q : 0 < v <= 1 / 8 -> 1 <= w -> w <= b -> q <= w * (1 + v) * (1 + v) -> q <= b * (1 + v) * (1 + v).
Proof.
  intros H Hw Hb Hq. apply Rle_trans with (1 := Hq). rewrite !Rmult_assoc. apply Rmult_le_compat_r; [|exact Hb].
  apply Rmult_le_pos; lra.
Qed.
Lemma arith5 v w a : 0 < v <= 1 / 8 -> 1 <= w -> w * (1 - v) <= a -> 1 / 2 <= a.
Proof. intros H Hw Ha. nra. Qed.
Lemma arith6 v w a q : 0 < v <= 1 / 8 -> 1 <= w -> w * (1 - v) <= a <= w * (1 + v) -> a * (1 - v) <= q <= a * (1 + v) ->
  w * (1 - v) * (1 - v) <= q <= w * (1 + v) * (1 + v).
Proof. intros H Hw Ha Hq. split; nra. Qed.
Lemma arith7 v p q : 0 < v <= 1 / 64 -> 0 <= p -> (1 - v) * (1 - v) <= q -> v * (p + q) <= 1 / 8 + v -> p + 3 / 4 <= (p + q) * (1 - v).
Proof. intros H Hp Hq Hv. nra. Qed.

Definition next_rank (n : nat) (p : R) (r : nat) : R :=
  fadd p (fdiv (fsub (float_of (n + 1)) p) (float_of (1 + r))).

Lemma next_rank_spec n p r : INR n + 1 <= 2 ^ 50 -> (1 <= r)%nat -> fmt p -> (p = 0 \/ 1 <= p) -> p <= INR n - INR r ->
  p + 3 / 4 <= next_rank n p r <= INR n + 1 - INR r /\ 1 <= next_rank n p r /\ fmt (next_rank n p r).
Proof.
  intros HN Hr HF H01 HP. unfold next_rank.
  assert (1 <= INR r) as R1 by (apply (le_INR 1); lia).
  assert (0 <= p) as P0 by (destruct H01; lra).
  assert (INR r <= INR n - p) as RN by lra.
  assert (INR (n + 1) = INR n + 1) as En by (rewrite plus_INR; reflexivity).
  assert (INR (1 + r) = 1 + INR r) as Er by (rewrite plus_INR; reflexivity).
  rewrite !float_of_eq by (apply le_50_53; lra). rewrite En, Er. unfold fadd, fdiv, fsub.
  pose proof u_pos as U0. pose proof u_small as U8.
  assert (0 < / 2 ^ 60 <= 1 / 2) as T60 by (rewrite pow2_60; lra).
  destruct (rnd_rel (INR n + 1 - p)) as [A1 A2]; [lra|].
  set (A := rnd (INR n + 1 - p)) in *.
  set (w := (INR n + 1 - p) / (1 + INR r)).
  assert (1 <= w) as W1.
  { unfold w. apply Rmult_le_reg_r with (1 + INR r); [lra|]. unfold Rdiv. rewrite Rmult_assoc, Rinv_l by lra. lra. }
  assert (A / (1 + INR r) = A / (INR n + 1 - p) * w) as EA by (unfold w; field; lra).
  assert (w * (1 - u) <= A / (1 + INR r) <= w * (1 + u)) as [B1 B2].
  { unfold w, Rdiv. assert (0 < / (1 + INR r)) by (apply Rinv_0_lt_compat; lra). split; nra. }
  destruct (rnd_rel (A / (1 + INR r))) as [Q1 Q2]; [pose proof (arith5 u w _ (conj U0 U8) W1 B1); lra|].
  set (q := rnd (A / (1 + INR r))) in *.
  assert (w * (1 - u) * (1 - u) <= q <= w * (1 + u) * (1 + u)) as [C1 C2]
    by (apply (arith6 u w (A / (1 + INR r))); auto).
  pose (N := (n - r)%nat).
  assert (INR N = INR n - INR r) as EN.
  { unfold N. rewrite minus_INR; [reflexivity|]. apply INR_le. lra. }
  assert (w = 1 + (INR N - p) / (1 + INR r)) as EW by (unfold w; rewrite EN; field; lra).
  assert (fmt (rnd (p + q))) as FR by apply rnd_fmt.
  assert (0 <= (INR N - p) / (1 + INR r) <= (INR N - p) / 2) as [D1 D2].
  { assert (0 < / (1 + INR r)) by (apply Rinv_0_lt_compat; lra). split; [unfold Rdiv; nra|].
    apply Rmult_le_compat_l; [lra|]. apply Rinv_le_contravar; lra. }
  assert (rnd (p + q) <= INR N + 1) as UP.
  { replace (INR N + 1) with (INR (S N)) by apply S_INR.
    destruct (Req_dec p (INR N)) as [EP|NP].
    - assert (w = 1) as Ew by (rewrite EW, EP; unfold Rdiv; ring).
      assert (A = 1 + INR r) as EAA.
      { unfold A. rewrite EP, EN. replace (INR n + 1 - (INR n - INR r)) with (INR (1 + r)) by (rewrite Er; ring).
        rewrite rnd_id; [exact Er|]. apply fmt_INR, le_50_53. lra. }
      assert (q = 1) as Eq.
      { unfold q. rewrite EAA. replace ((1 + INR r) / (1 + INR r)) with 1 by (field; lra). apply rnd_1. }
      rewrite EP, Eq, <- S_INR. rewrite rnd_id; [lra|]. apply fmt_INR, le_50_53. rewrite S_INR, EN. lra.
    - assert (p < INR N) as PN by lra.
      assert (2 * u <= INR N - p) as Dl.
      { destruct H01 as [Z|G1].
        - subst p. assert (1 <= INR N); [|lra]. apply (le_INR 1). destruct N; [simpl in PN; lra|lia].
        - destruct (grid_gap p 0 (INR N) HF) with (z := (Z.of_nat N * 2 ^ 52)%Z) as [_ GG].
          + change (bpow radix2 0) with 1. exact G1.
          + lia.
          + rewrite mult_IZR, <- INR_IZR_INZ. change (bpow radix2 (0 - 52)) with (/ IZR (2 ^ 52)). field. apply not_0_IZR. lia.
          + specialize (GG PN). rewrite bpow_m52 in GG. lra. }
      apply rnd_near_int.
      + destruct N; [simpl in PN; lra|lia].
      + rewrite S_INR, EN. apply le_50_53. lra.
      + rewrite S_INR. set (dl := INR N - p) in *.
        assert (w <= 1 + dl / 2) as Wd by lra.
        assert (q <= (1 + dl / 2) * (1 + u) * (1 + u)) as Qd by (apply (arith4 u w); auto).
        assert (p = INR N - dl) as Ep by (unfold dl; ring).
        assert ((1 + dl / 2) * (1 + u) * (1 + u) < 1 + 2 * u + dl) by (apply arith1; auto). lra. }
  assert (p + q <= INR N + 2) as XB.
  { assert (w <= 1 + (INR N - p) / 2) as WB by lra. assert (0 <= INR N - p) as NP0 by lra.
    pose proof (arith2 u (INR N - p) (conj U0 U8) NP0). pose proof (arith4 u w _ q (conj U0 U8) W1 WB C2). lra. }
  assert ((1 - u) * (1 - u) <= q) as QL by (apply (arith3 u w); auto).
  destruct (rnd_rel (p + q)) as [L1 _].
  { assert (1 / 2 <= (1 - u) * (1 - u)) by (clear - U0 U8; nra). lra. }
  assert (u * (p + q) <= 1 / 8 + u) as UB.
  { assert (u * (INR N + 1) <= 1 / 8) as BB.
    - rewrite <- S_INR, Rmult_comm. apply big_u. rewrite S_INR. lra.
    - apply Rle_trans with (u * (INR N + 2)); [apply Rmult_le_compat_l; lra|]. lra. }
  assert (u <= 1 / 64) as U64 by (unfold u; rewrite pow2_num; lra).
  assert (p + 3 / 4 <= rnd (p + q)) as LOW.
  { apply Rle_trans with (2 := L1). apply arith7; auto. }
  split; [split; [exact LOW|lra]|]. split; [|exact FR].
  destruct H01 as [Z|G1]; [|lra].
  assert (1 <= q) as Q11.
  { unfold q. apply Rle_trans with (rnd 1); [rewrite rnd_1; lra|apply rnd_le].
    assert (1 + INR r <= A) as AL.
    { unfold A. rewrite <- Er. rewrite <- (rnd_id (INR (1 + r))); [|apply fmt_INR, le_50_53; lra]. apply rnd_le. rewrite Er. lra. }
    apply Rmult_le_reg_r with (1 + INR r); [lra|]. unfold Rdiv. rewrite Rmult_assoc, Rinv_l by lra. lra. }
  rewrite <- rnd_1. apply rnd_le. lra.
Qed.

(** * All ranks *)
Fixpoint desc (b : nat) (l : list nat) : Prop :=
  match l with [] => True | r :: l => (1 <= r < b)%nat /\ desc r l end.

Lemma freverse_desc codes : forall b, (length codes < b)%nat -> desc b (freverse_i codes).
Proof.
  induction codes as [|c rest IH]; intros b H; [exact I|]. simpl in H. cbn [freverse_i]. destruct c.
  - split; [lia|]. apply IH. lia.
  - apply IH. lia.
Qed.

(** Ranks from [p]: each is at least 3/4 above the one before, at most n, at least 1. *)
Fixpoint climbs (n : nat) (p : R) (l : list R) : Prop :=
  match l with [] => True | i :: l => p + 3 / 4 <= i /\ 1 <= i <= INR n /\ fmt i /\ climbs n i l end.

Lemma frank_loop_climbs n : INR n + 1 <= 2 ^ 50 -> forall revs b p, (b <= n + 1)%nat -> desc b revs -> fmt p -> (p = 0 \/ 1 <= p) ->
  p <= INR n + 1 - INR b -> climbs n p (frank_loop n p revs).
Proof.
  intros HN. induction revs as [|r revs IH]; intros b p Hb HD HF H01 HP; [exact I|].
  cbn [frank_loop]. cbv zeta. fold (next_rank n p r). destruct HD as [[H1 H2] HD].
  assert (INR r + 1 <= INR b) as RB by (rewrite <- S_INR; apply le_INR; lia).
  destruct (next_rank_spec n p r HN H1 HF H01 ltac:(lra)) as ([A1 A2] & A3 & A4).
  assert (1 <= INR r) by (apply (le_INR 1); lia).
  cbn [climbs]. repeat split; auto; try lra.
  apply (IH r); auto; try lia.
Qed.

Lemma franks_climbs codes ranks : INR (length codes) + 1 <= 2 ^ 50 -> franks codes = Ok ranks ->
  climbs (length codes) 0 ranks /\ length ranks = length (filter (fun c => c) codes) /\ ranks <> [].
Proof.
  intros HN H.
  assert (forall n revs p, length (frank_loop n p revs) = length revs) as LL.
  { intros n revs. induction revs as [|r revs IH]; intros p; [reflexivity|]. cbn [frank_loop length]. now rewrite IH. }
  assert (forall l, length (freverse_i l) = length (filter (fun c => c) l)) as LR.
  { induction l as [|c l IH]; [reflexivity|]. cbn [freverse_i filter]. destruct c; simpl; now rewrite IH. }
  destruct codes as [|c rest]; [discriminate H|].
  unfold franks in H. destruct c.
  - cbn [freverse_i] in H. assert (ranks = 1 :: frank_loop (length (true :: rest)) 1 (freverse_i rest)) as -> by (symmetry; injection H as H; exact H).
    split; [|split].
    + assert (1 <= INR (length (true :: rest))) by (apply (le_INR 1); simpl; lia).
      cbn [climbs]. repeat split; try lra; [apply fmt_1|].
      apply (frank_loop_climbs _ HN _ (S (length rest))); auto; try lra.
      * simpl. lia.
      * apply freverse_desc. lia.
      * apply fmt_1.
      * change (length (true :: rest)) with (S (length rest)). lra.
    + cbn [length filter]. now rewrite LL, LR.
    + discriminate.
  - destruct (freverse_i (false :: rest)) as [|r revs] eqn:E; [discriminate H|].
    assert (ranks = frank_loop (length (false :: rest)) 0 (r :: revs)) as -> by (symmetry; injection H as H; exact H).
    split; [|split].
    + apply (frank_loop_climbs _ HN _ (S (length rest))); auto.
      * simpl. lia.
      * rewrite <- E. cbn [freverse_i]. apply freverse_desc. lia.
      * apply fmt_0.
      * change (length (false :: rest)) with (S (length rest)). lra.
    + rewrite LL, <- E. apply LR.
    + discriminate.
Qed.

(** * Positions *)
Lemma arith8 v t j a b : 0 < v -> v <= 1 / 1000 -> 0 < t <= 1 / 1000 -> 7 / 10 <= j -> a <= t * (1 + v) -> j * (1 - v) <= b ->
  a * (1 + v) < b * (1 - v).
Proof.
  intros V0 V Ht Hj Ha Hb. assert (t * (1 + v) <= 1 / 1000 * (1 + v)) by (apply Rmult_le_compat_r; lra).
  assert (a * (1 + v) <= 2 / 1000 * (1 + v)) by (apply Rmult_le_compat_r; lra).
  assert (7 / 10 * (1 - v) <= j * (1 - v)) by (apply Rmult_le_compat_r; lra).
  assert (6 / 10 * (1 - v) <= b * (1 - v)) by (apply Rmult_le_compat_r; lra). lra.
Qed.
Lemma arith9 v i j a b : 0 < v -> v <= 1 / 1000 -> 0 <= i -> i + 3 / 4 <= j -> v * i <= 1 / 8 -> a <= i * (1 + v) -> j * (1 - v) <= b ->
  a * (1 + v) < b * (1 - v).
Proof.
  intros V0 V Hi Hj HV Ha Hb.
  assert (a * (1 + v) <= i * (1 + v) * (1 + v)) by (apply Rmult_le_compat_r; lra).
  assert (j * (1 - v) * (1 - v) <= b * (1 - v)) by (apply Rmult_le_compat_r; lra).
  assert (i * (1 + v) * (1 + v) - i * (1 - v) * (1 - v) = 4 * (v * i)) as E4 by ring.
  assert (0 <= (1 - v) * (1 - v)) by (apply Rmult_le_pos; lra).
  assert ((i + 3 / 4) * ((1 - v) * (1 - v)) <= j * ((1 - v) * (1 - v))) by (apply Rmult_le_compat_r; lra).
  assert (9 / 10 * (9 / 10) <= (1 - v) * (1 - v)) by (apply Rmult_le_compat; lra). lra.
Qed.
Lemma arith10 v j b : 0 < v -> v <= 1 / 1000 -> 7 / 10 <= j -> j * (1 - v) <= b -> 1 / 2 <= b.
Proof. intros. assert (7 / 10 * (1 - v) <= j * (1 - v)) by (apply Rmult_le_compat_r; lra). lra. Qed.
Lemma arith11 v t b : 0 < v -> v <= 1 / 1000 -> 0 < t -> 4 * t <= b -> t * (1 + v) < b * (1 - v).
Proof.
  intros. assert (4 * t * (1 - v) <= b * (1 - v)) by (apply Rmult_le_compat_r; lra).
  assert (t * v <= t * (1 / 1000)) by (apply Rmult_le_compat_l; lra). lra.
Qed.
Lemma arith12 v x : 0 < v <= 1 / 8 -> v <= x -> v / 2 <= x * (1 - v).
Proof. intros [H1 H2] H. assert (v * (1 - v) <= x * (1 - v)) by (apply Rmult_le_compat_r; lra). nra. Qed.
Lemma arith13 v x y a b : 0 < v <= 1 / 8 -> 0 < x -> 0 < y -> x * (1 - v) <= a <= x * (1 + v) -> y * (1 - v) <= b <= y * (1 + v) ^ 2 ->
  x * y * (1 - v) ^ 2 <= a * b <= x * y * (1 + v) ^ 3.
Proof.
  intros [V0 V] Hx Hy [A1 A2] [B1 B2].
  assert (0 <= x * (1 - v)) by (apply Rmult_le_pos; lra). assert (0 <= y * (1 - v)) by (apply Rmult_le_pos; lra).
  replace (x * y * (1 - v) ^ 2) with ((x * (1 - v)) * (y * (1 - v))) by ring.
  replace (x * y * (1 + v) ^ 3) with ((x * (1 + v)) * (y * (1 + v) ^ 2)) by ring.
  split; apply Rmult_le_compat; lra.
Qed.
Lemma arith14 v y t q : 0 < v <= 1 / 8 -> 0 < y -> y * (1 - v) ^ 2 <= t <= y * (1 + v) ^ 3 -> t * (1 - v) <= q <= t * (1 + v) ->
  y * (1 - v) ^ 4 <= q <= y * (1 + v) ^ 4.
Proof.
  intros [V0 V] Hy [T1 T2] [Q1 Q2].
  assert (y * (1 - v) ^ 2 * (1 - v) <= t * (1 - v)) by (apply Rmult_le_compat_r; lra).
  assert (t * (1 + v) <= y * (1 + v) ^ 3 * (1 + v)) by (apply Rmult_le_compat_r; lra).
  assert (0 <= y * (1 - v) ^ 2 * (1 - v)) by (apply Rmult_le_pos; [apply Rmult_le_pos; [lra|apply pow_le; lra]|lra]).
  replace (y * (1 - v) ^ 4) with (y * (1 - v) ^ 2 * (1 - v) * (1 - v)) by ring.
  replace (y * (1 + v) ^ 4) with (y * (1 + v) ^ 3 * (1 + v)) by ring.
  assert (0 <= y * (1 - v) ^ 2 * (1 - v) * v) by (apply Rmult_le_pos; lra). lra.
Qed.

Lemma fmt_twice a : fmt a -> fmt (2 * a).
Proof.
  intros H. destruct (FLT_format_generic radix2 (-1074) 53 a H) as [[m e] E Hm He].
  apply generic_format_FLT. exists (Float radix2 m (e + 1)).
  - rewrite E. unfold F2R. cbn [Fnum Fexp]. rewrite bpow_plus. change (bpow radix2 1) with 2. ring.
  - exact Hm.
  - simpl in *. lia.
Qed.

Lemma double_fmt a : double a -> fmt a.
Proof.
  intros (m & e & E & Hm & He). apply generic_format_FLT. exists (Float radix2 m e).
  - rewrite E. unfold F2R. cbn [Fnum Fexp]. f_equal. symmetry. apply (bpow_powerRZ radix2 e).
  - exact Hm.
  - exact He.
Qed.

Definition divisor (n : nat) (a : R) : R := fsub (float_of (n + 1)) (fmul 2 a).

Lemma divisor_eq n a : INR n + 1 <= 2 ^ 50 -> fmt a -> divisor n a = rnd (INR n + 1 - 2 * a).
Proof.
  intros HN Ha. unfold divisor, fsub, fmul. rewrite (rnd_id (2 * a)) by (apply fmt_twice, Ha).
  rewrite float_of_eq; rewrite plus_INR; simpl INR; [reflexivity|]. apply le_50_53, HN.
Qed.

Definition position (n : nat) (a i : R) : R := fdiv (fsub i a) (divisor n a).

Lemma rnd_up_max t : 0 <= t -> rnd t <= Rmax t (/ 2 ^ 60) * (1 + u).
Proof.
  intros H. assert (0 < / 2 ^ 60) by (apply Rinv_0_lt_compat, pow_lt; lra). pose proof u_pos.
  destruct (Rle_lt_dec (/ 2 ^ 60) t) as [L|G].
  - rewrite Rmax_left by lra. apply (rnd_rel t L).
  - rewrite Rmax_right by lra. apply Rle_trans with (rnd (/ 2 ^ 60)); [apply rnd_le; lra|]. apply rnd_rel. lra.
Qed.

Section Pos.
  Variables (n : nat) (a : R).
  Hypothesis HN : INR n + 1 <= 2 ^ 50.
  Hypothesis Ha : fmt a.
  Hypothesis Ha01 : 0 <= a <= 1.
  Hypothesis Hn : (1 <= n)%nat.
  Hypothesis HD : divisor n a <> 0.

  Lemma n_ge_1 : 1 <= INR n. Proof. apply (le_INR 1). exact Hn. Qed.

  Lemma divisor_pos : 0 < divisor n a.
  Proof.
    pose proof n_ge_1. assert (0 <= divisor n a); [|lra].
    rewrite divisor_eq by auto. apply rnd_ge_0. lra.
  Qed.

  Lemma divisor_up : divisor n a <= 2 ^ 50.
  Proof.
    pose proof n_ge_1. rewrite divisor_eq by auto.
    assert (INR (n + 1) = INR n + 1) as E by (rewrite plus_INR; reflexivity).
    apply Rle_trans with (INR n + 1); [|exact HN]. apply Rle_trans with (rnd (INR (n + 1))).
    - apply rnd_le. rewrite E. lra.
    - rewrite rnd_id; [lra|]. apply fmt_INR, le_50_53. rewrite E. exact HN.
  Qed.

  Lemma position_range i : 1 <= i <= INR n -> 0 <= position n a i <= 1.
  Proof.
    intros Hi. pose proof divisor_pos as DP. unfold position, fdiv, fsub.
    assert (0 <= rnd (i - a)) as A0 by (apply rnd_ge_0; lra).
    assert (rnd (i - a) <= divisor n a) as A1.
    { rewrite divisor_eq by auto. apply rnd_le. lra. }
    assert (0 < / divisor n a) by (apply Rinv_0_lt_compat, DP).
    split; [apply rnd_ge_0; unfold Rdiv; nra|]. rewrite <- rnd_1. apply rnd_le.
    apply Rmult_le_reg_r with (divisor n a); [exact DP|]. unfold Rdiv. rewrite Rmult_assoc, Rinv_l by lra. lra.
  Qed.

  Lemma position_rises i j : 1 <= i -> i + 3 / 4 <= j -> j <= INR n -> position n a i < position n a j.
  Proof.
    intros Hi Hij Hj. pose proof divisor_pos as DP. pose proof divisor_up as DU. unfold position, fdiv, fsub.
    set (d := divisor n a) in *. pose proof u_pos as U0.
    assert (u <= 1 / 1000) as U8 by (unfold u; rewrite pow2_num; lra).
    assert (0 < / 2 ^ 60 <= 1 / 1000) as T60 by (rewrite pow2_60; lra).
    assert (0 < / d) as ID by (apply Rinv_0_lt_compat, DP).
    pose proof (rnd_up_max (i - a) ltac:(lra)) as UA.
    destruct (rnd_rel (j - a)) as [LB _]; [lra|].
    set (A := rnd (i - a)) in *. set (B := rnd (j - a)) in *.
    assert (0 <= A) as A0 by (apply rnd_ge_0; lra).
    assert (u * (i - a) <= 1 / 8) as UI.
    { apply Rle_trans with (INR n * u); [nra|]. apply big_u. lra. }
    assert (A * (1 + u) < B * (1 - u)) as AB.
    { unfold Rmax in UA. destruct (Rle_dec (i - a) (/ 2 ^ 60)) as [L|L].
      - apply (arith8 u (/ 2 ^ 60) (j - a)); auto; lra.
      - apply (arith9 u (i - a) (j - a)); auto; lra. }
    assert (/ 2 ^ 50 <= / d) as DI by (apply Rinv_le_contravar; [exact DP|exact DU]).
    assert (1 / 2 <= B) as BH by (apply (arith10 u (j - a)); auto; lra).
    assert (/ 2 ^ 50 * (1 / 2) <= B / d) as BD.
    { assert (0 < / 2 ^ 50) by (apply Rinv_0_lt_compat, pow_lt; lra). unfold Rdiv at 2. rewrite (Rmult_comm B). apply Rmult_le_compat; lra. }
    assert (4 * / 2 ^ 60 <= / 2 ^ 50 * (1 / 2)) as T by (rewrite pow2_60, pow2_50; lra).
    destruct (rnd_rel (B / d)) as [LQ _]; [lra|].
    pose proof (rnd_up_max (A / d) ltac:(unfold Rdiv; apply Rmult_le_pos; lra)) as UQ.
    apply Rle_lt_trans with (1 := UQ). apply Rlt_le_trans with (2 := LQ).
    unfold Rmax. destruct (Rle_dec (A / d) (/ 2 ^ 60)).
    - apply (arith11 u (/ 2 ^ 60) (B / d)); lra.
    - unfold Rdiv. replace (A * / d * (1 + u)) with (A * (1 + u) * / d) by ring.
      replace (B * / d * (1 - u)) with (B * (1 - u) * / d) by ring. apply Rmult_lt_compat_r; assumption.
  Qed.
End Pos.

Lemma fpositions_inv a codes ys : INR (length codes) + 1 <= 2 ^ 50 -> fpositions a codes = Ok ys ->
  exists ranks, franks codes = Ok ranks /\ divisor (length codes) a <> 0 /\ ys = map (position (length codes) a) ranks.
Proof.
  intros HN H. unfold fpositions in H. destruct (franks codes) as [ranks|e]; [|discriminate H]. simpl in H.
  fold (divisor (length codes) a) in H. destruct (Req_EM_T (divisor (length codes) a) 0) as [|N]; [discriminate H|].
  exists ranks. split; [reflexivity|]. split; [exact N|]. injection H as H. symmetry. exact H.
Qed.

Lemma climbs_nth n : forall l p i v, climbs n p l -> nth_error l i = Some v -> 1 <= v <= INR n /\ p + 3 / 4 <= v /\ fmt v.
Proof.
  induction l as [|x l IH]; intros p i v H E; [destruct i; discriminate E|]. destruct H as (H1 & H2 & H3 & H4).
  destruct i as [|i]; [injection E as <-; auto|]. destruct (IH x i v H4 E) as (A & B & C). repeat split; try tauto. lra.
Qed.

Lemma climbs_two n : forall l p i j v w, climbs n p l -> (i < j)%nat -> nth_error l i = Some v -> nth_error l j = Some w -> v + 3 / 4 <= w.
Proof.
  induction l as [|x l IH]; intros p i j v w H Hij Ei Ej; [destruct i; discriminate Ei|]. destruct H as (H1 & H2 & H3 & H4).
  destruct j as [|j]; [lia|]. destruct i as [|i].
  - injection Ei as <-. exact (proj1 (proj2 (climbs_nth n l x j w H4 Ej))).
  - apply (IH x i j v w H4); auto. lia.
Qed.

(** * Uncensored data *)
Lemma freverse_repeat m : freverse_i (repeat true m) = rev (seq 1 m).
Proof.
  induction m as [|m IH]; [reflexivity|]. cbn [repeat freverse_i]. rewrite repeat_length, IH.
  rewrite seq_S, rev_app_distr. reflexivity.
Qed.

Lemma frank_exact n : INR n + 1 <= 2 ^ 50 -> forall m, (m < n)%nat ->
  frank_loop n (INR (n - m)) (rev (seq 1 m)) = map INR (seq (n - m + 1) m).
Proof.
  intros HN. induction m as [|m IH]; intros H; [reflexivity|].
  rewrite seq_S, rev_app_distr. cbn [rev app seq map frank_loop].
  assert (fadd (INR (n - S m)) (fdiv (fsub (float_of (n + 1)) (INR (n - S m))) (float_of (1 + (1 + m)))) = INR (n - S m + 1)) as E.
  { assert (INR (n + 1) = INR n + 1) as En by (rewrite plus_INR; reflexivity).
    assert (INR (1 + (1 + m)) <= INR n + 1) by (rewrite <- S_INR; apply le_INR; lia).
    assert (INR (n - S m + 1) <= INR n + 1) by (rewrite <- S_INR; apply le_INR; lia).
    rewrite !float_of_eq by (apply le_50_53; lra).
    unfold fadd, fdiv, fsub.
    replace (INR (n + 1) - INR (n - S m)) with (INR (1 + (1 + m))).
    2:{ rewrite <- minus_INR by lia. f_equal. lia. }
    rewrite (rnd_id (INR (1 + (1 + m)))).
    2:{ apply fmt_INR, le_50_53. lra. }
    replace (INR (1 + (1 + m)) / INR (1 + (1 + m))) with 1 by (field; apply not_0_INR; lia).
    rewrite rnd_1. replace (INR (n - S m) + 1) with (INR (n - S m + 1)) by (rewrite plus_INR; reflexivity).
    apply rnd_id, fmt_INR, le_50_53. lra. }
  rewrite E. f_equal. replace (n - S m + 1)%nat with (n - m)%nat by lia. rewrite IH by lia. f_equal. f_equal. lia.
Qed.

Lemma franks_uncensored n : INR n + 1 <= 2 ^ 50 -> (1 <= n)%nat -> franks (repeat true n) = Ok (map INR (seq 1 n)).
Proof.
  intros HN Hn. destruct n as [|m]; [lia|]. unfold franks. cbn [repeat freverse_i length].
  rewrite freverse_repeat, repeat_length. f_equal. cbn [seq map]. f_equal.
  pose proof (frank_exact (S m) HN m ltac:(lia)) as E. replace (S m - m)%nat with 1%nat in E by lia. exact E.
Qed.

Lemma small_gap k a : fmt a -> 0 <= a <= 1 -> (1 <= k)%nat -> INR k - a = 0 \/ u <= INR k - a.
Proof.
  intros Ha H01 Hk. assert (1 <= INR k) by (apply (le_INR 1); lia). pose proof u_small.
  destruct (Req_dec (INR k - a) 0) as [|N]; [left; assumption|right].
  destruct (Rle_lt_dec a (1 / 2)); [lra|]. destruct (Req_dec a 1) as [->|N1].
  - destruct (le_lt_dec k 1); [exfalso; apply N; replace k with 1%nat by lia; simpl; ring|].
    assert (2 <= INR k) by (apply (le_INR 2); lia). lra.
  - destruct (grid_gap a (-1) 1 Ha) with (z := (2 ^ 53)%Z) as [_ GG].
    + change (bpow radix2 (-1)) with (/ 2). lra.
    + lia.
    + change (bpow radix2 (-1 - 52)) with (/ IZR (2 ^ 53)). field. apply not_0_IZR. lia.
    + specialize (GG ltac:(lra)). rewrite bpow_m53 in GG. lra.
Qed.

Lemma position_within n a k : INR n + 1 <= 2 ^ 50 -> fmt a -> 0 <= a <= 1 -> (1 <= k <= n)%nat -> divisor n a <> 0 ->
  within_roundings 4 ((INR k - a) / (INR n + 1 - 2 * a)) (position n a (INR k)).
Proof.
  intros HN Ha H01 Hk HD. assert (1 <= INR k) by (apply (le_INR 1); lia). assert (INR k <= INR n) by (apply le_INR; lia).
  pose proof (divisor_pos n a HN Ha H01 ltac:(lia) HD) as DP.
  pose proof (divisor_up n a HN Ha H01 ltac:(lia)) as DU.
  assert (0 < / 2 ^ 60 <= u) as T60 by (unfold u; rewrite pow2_60, pow2_num; lra).
  pose proof u_pos. pose proof u_small.
  assert (INR n + 1 - 2 * a = 0 \/ u <= INR n + 1 - 2 * a) as [Z|G].
  { destruct (Req_dec a 1) as [->|N1].
    - destruct (le_lt_dec n 1); [left; replace n with 1%nat by lia; simpl; ring|].
      assert (2 <= INR n) by (apply (le_INR 2); lia). right. lra.
    - destruct (small_gap 1 a Ha H01 ltac:(lia)) as [E|E]; simpl in E; [exfalso; apply N1; lra|]. right. lra. }
  { exfalso. apply HD. rewrite divisor_eq by auto. rewrite Z. apply rnd_0. }
  assert (divisor n a = rnd (INR n + 1 - 2 * a)) as ED by (apply divisor_eq; auto).
  destruct (rnd_rel (INR n + 1 - 2 * a)) as [D1 D2]; [lra|]. rewrite <- ED in D1, D2.
  unfold position, fdiv, fsub. set (d := divisor n a) in *. set (D := INR n + 1 - 2 * a) in *.
  assert (0 < D) as DP' by lra.
  destruct (small_gap k a Ha H01 ltac:(lia)) as [Z|G2].
  { rewrite Z, rnd_0. unfold Rdiv. rewrite !Rmult_0_l, rnd_0. apply within_refl. lra. }
  destruct (rnd_rel (INR k - a)) as [A1 A2]; [lra|]. set (A := rnd (INR k - a)) in *. set (x := INR k - a) in *.
  assert (/ D * (1 - u) <= / d <= / D * (1 + u) ^ 2) as [I1 I2].
  { assert (0 < / D) by (apply Rinv_0_lt_compat, DP'). assert (0 < / d) by (apply Rinv_0_lt_compat, DP).
    split.
    - apply Rmult_le_reg_r with d; [exact DP|]. rewrite Rinv_l by lra. apply Rmult_le_reg_r with D; [exact DP'|].
      replace (/ D * (1 - u) * d * D) with ((1 - u) * d) by (field; lra). nra.
    - apply Rmult_le_reg_r with d; [exact DP|]. rewrite Rinv_l by lra. apply Rmult_le_reg_r with D; [exact DP'|].
      replace (/ D * (1 + u) ^ 2 * d * D) with ((1 + u) ^ 2 * d) by (field; lra).
      assert (1 <= (1 + u) ^ 2 * (1 - u)) by nra. nra. }
  assert (0 < / D) by (apply Rinv_0_lt_compat, DP'). assert (0 < / d) by (apply Rinv_0_lt_compat, DP).
  assert (bpow radix2 (-1074 + 53 - 1) <= A / d) as AQ.
  { assert (/ 2 ^ 50 <= / d) by (apply Rinv_le_contravar; [exact DP|exact DU]).
    assert (0 < / 2 ^ 50) by (apply Rinv_0_lt_compat, pow_lt; lra).
    assert (u / 2 <= A) by (apply Rle_trans with (2 := A1); apply arith12; auto).
    apply Rle_trans with (u / 2 * / 2 ^ 50); [|unfold Rdiv at 2; apply Rmult_le_compat; lra].
    apply Rle_trans with (bpow radix2 (-104)); [apply bpow_le; lia|].
    change (bpow radix2 (-104)) with (/ IZR (2 ^ 104)). unfold u. rewrite pow2_num, pow2_50.
    replace (IZR (2 ^ 104)) with 20282409603651670423947251286016 by reflexivity. lra. }
  destruct (rnd_normal (A / d) AQ) as [Q1 Q2].
  unfold within_roundings. fold u.
  apply (arith14 u (x / D) (A / d)); auto.
  - apply Rmult_lt_0_compat; lra.
  - unfold Rdiv. apply arith13; auto; lra.
Qed.
