From Flocq Require Import Core Relative.
From Coq Require Import List Arith Reals Bool Lra Lia Psatz.
From Verif Require Import Base FloatModel FloatSpec FloatProofs FloatProofs2 FloatProofs3.
From Verif Require NonparModel.
Import ListNotations.
Open Scope R_scope.

(** * The ranks against those of exact arithmetic *)
Lemma rnd_err t b : 0 <= t -> t <= b -> / 2 ^ 60 <= t -> Rabs (rnd t - t) <= u * b.
Proof.
  intros H0 Hb Ht. destruct (rnd_rel t Ht) as [L R]. pose proof u_pos. apply Rabs_le.
  assert (u * t <= u * b) by (apply Rmult_le_compat_l; lra). split; lra.
Qed.

Definition exact_next (n : nat) (p : R) (r : nat) : R := p + (INR n + 1 - p) / (1 + INR r).

Lemma next_rank_err n p P r : INR n + 1 <= 2 ^ 50 -> (1 <= r)%nat -> fmt p -> (p = 0 \/ 1 <= p) -> p <= INR n - INR r ->
  Rabs (next_rank n p r - exact_next n P r) <= Rabs (p - P) + 3 * u * (INR n + 1).
Proof.
  intros HN Hr HF H01 HP. destruct (next_rank_spec n p r HN Hr HF H01 HP) as ([_ UP] & _ & _).
  assert (1 <= INR r) as R1 by (apply (le_INR 1); lia).
  assert (0 <= p) as P0 by (destruct H01; lra).
  assert (INR (n + 1) = INR n + 1) as En by (rewrite plus_INR; reflexivity).
  assert (INR (1 + r) = 1 + INR r) as Er by (rewrite plus_INR; reflexivity).
  unfold next_rank, exact_next in *. rewrite !float_of_eq in * by (apply le_50_53; lra). rewrite En, Er in *. unfold fadd, fdiv, fsub in *.
  pose proof u_pos as U0. assert (u <= 1 / 64) as U64 by (unfold u; rewrite pow2_num; lra).
  assert (0 < / 2 ^ 60 <= 1 / 4) as T60 by (rewrite pow2_60; lra).
  set (M := INR n + 1) in *.
  assert (u * M <= 1 / 8) as UM.
  { rewrite Rmult_comm. unfold M. rewrite <- S_INR. apply big_u. rewrite S_INR. exact HN. }
  assert (0 < / (1 + INR r) <= / 2) as [I0 I2] by (split; [apply Rinv_0_lt_compat; lra|apply Rinv_le_contravar; lra]).
  assert (Rabs (rnd (M - p) - (M - p)) <= u * M) as EA by (apply rnd_err; unfold M in *; lra).
  set (A := rnd (M - p)) in *. apply Rabs_le_inv in EA.
  assert (0 < A <= 2 * M) as [A0 A1] by (unfold M in *; lra).
  assert (/ 2 ^ 60 <= A / (1 + INR r)) as TQ.
  { assert (1 / 4 <= A * / (1 + INR r)); [|unfold Rdiv; lra].
    apply Rmult_le_reg_r with (1 + INR r); [lra|]. rewrite Rmult_assoc, Rinv_l by lra. unfold M in *. lra. }
  assert (A * / (1 + INR r) <= M) as QM.
  { apply Rle_trans with (A * / 2); [apply Rmult_le_compat_l; lra|lra]. }
  assert (Rabs (rnd (A / (1 + INR r)) - A / (1 + INR r)) <= u * M) as EQ by (apply rnd_err; unfold Rdiv in *; lra).
  set (q := rnd (A / (1 + INR r))) in *. apply Rabs_le_inv in EQ.
  assert (0 <= q) as Q0 by (apply rnd_ge_0; unfold Rdiv; apply Rmult_le_pos; lra).
  assert (/ 2 ^ 60 <= p + q) as TS.
  { destruct (Rle_lt_dec (/ 2 ^ 60) p); [lra|]. assert (/ 2 ^ 60 <= q); [|lra].
    assert (1 / 2 <= A * / (1 + INR r)); [|unfold Rdiv in *; lra].
    apply Rmult_le_reg_r with (1 + INR r); [lra|]. rewrite Rmult_assoc, Rinv_l by lra. unfold M in *. lra. }
  assert (p + q <= M) as SM.
  { destruct (rnd_rel (p + q) TS) as [L _]. set (s := p + q) in *.
    assert (s * (1 - u) <= M - 1) by (unfold M in *; lra).
    assert (M * (1 - u) >= M - 1) by lra. apply Rmult_le_reg_r with (1 - u); lra. }
  assert (Rabs (rnd (p + q) - (p + q)) <= u * M) as ES by (apply rnd_err; lra).
  apply Rabs_le_inv in ES.
  unfold Rdiv in *. set (k := / (1 + INR r)) in *.
  assert (Rabs ((p - P) * (1 - k)) <= Rabs (p - P)) as EC.
  { rewrite Rabs_mult, (Rabs_pos_eq (1 - k)) by lra. pose proof (Rabs_pos (p - P)). 
    rewrite <- (Rmult_1_r (Rabs (p - P))) at 2. apply Rmult_le_compat_l; lra. }
  assert (- (u * M) <= (A - (M - p)) * k <= u * M) as [K1 K2].
  { assert (0 <= u * M) by (apply Rmult_le_pos; unfold M; pose proof (pos_INR n); lra).
    assert (u * M * k <= u * M * 1) by (apply Rmult_le_compat_l; lra).
    assert (- (u * M) * k <= (A - (M - p)) * k) by (apply Rmult_le_compat_r; lra).
    assert ((A - (M - p)) * k <= u * M * k) by (apply Rmult_le_compat_r; lra). lra. }
  match goal with |- Rabs ?l <= _ => assert (l =
    (p - P) * (1 - k) + ((rnd (p + q) - (p + q)) + (q - A * k) + (A - (M - p)) * k)) as -> by ring end.
  apply Rle_trans with (1 := Rabs_triang _ _). apply Rplus_le_compat; [exact EC|]. apply Rabs_le. split; lra.
Qed.

Lemma frank_loop_err n : INR n + 1 <= 2 ^ 50 -> forall revs b p P j v w, (b <= n + 1)%nat -> desc b revs -> fmt p -> (p = 0 \/ 1 <= p) ->
  p <= INR n + 1 - INR b ->
  nth_error (frank_loop n p revs) j = Some v -> nth_error (NonparModel.rank_loop n P revs) j = Some w ->
  Rabs (v - w) <= Rabs (p - P) + 3 * u * (INR n + 1) * INR (j + 1).
Proof.
  intros HN. induction revs as [|r revs IH]; intros b p P j v w Hb HD HF H01 HP Ev Ew; [destruct j; discriminate Ev|].
  cbn [frank_loop NonparModel.rank_loop] in Ev, Ew. cbv zeta in Ev, Ew.
  fold (next_rank n p r) in Ev. fold (exact_next n P r) in Ew. destruct HD as [[H1 H2] HD].
  assert (INR r + 1 <= INR b) as RB by (rewrite <- S_INR; apply le_INR; lia).
  destruct (next_rank_spec n p r HN H1 HF H01 ltac:(lra)) as ([A1 A2] & A3 & A4).
  pose proof (next_rank_err n p P r HN H1 HF H01 ltac:(lra)) as E.
  destruct j as [|j].
  - assert (v = next_rank n p r) as -> by (cbn [nth_error] in Ev; congruence).
    assert (w = exact_next n P r) as -> by (cbn [nth_error] in Ew; congruence). simpl INR. lra.
  - cbn [nth_error] in Ev, Ew.
    specialize (IH r (next_rank n p r) (exact_next n P r) j v w ltac:(lia) HD A4 (or_intror A3) A2 Ev Ew).
    replace (INR (S j + 1)) with (INR (j + 1) + 1) by (rewrite <- S_INR; f_equal; lia). lra.
Qed.

Lemma leading_S codes k : NonparModel.leading_cens codes = Ok k -> match codes with true :: _ => k = 0%nat | false :: _ => (0 < k)%nat | [] => False end.
Proof.
  destruct codes as [|[] rest]; cbn [NonparModel.leading_cens]; intros H; [discriminate H|congruence|].
  destruct (NonparModel.leading_cens rest); [|discriminate H]. cbn in H. injection H as <-. lia.
Qed.

Lemma freverse_same codes : freverse_i codes = NonparModel.failure_reverse_i codes.
Proof. induction codes as [|c rest IH]; [reflexivity|]. cbn [freverse_i NonparModel.failure_reverse_i]. now rewrite IH. Qed.

Lemma franks_err codes ranks exact j v w : INR (length codes) + 1 <= 2 ^ 50 ->
  franks codes = Ok ranks -> NonparModel.adjusted_ranks codes = Ok exact ->
  nth_error ranks j = Some v -> nth_error exact j = Some w ->
  Rabs (v - w) <= 3 * u * (INR (length codes) + 1) * INR (j + 1).
Proof.
  intros HN HR HE Ev Ew. unfold NonparModel.adjusted_ranks in HE. cbv zeta in HE.
  destruct (NonparModel.leading_cens codes) as [k|] eqn:EL; [|discriminate HE]. cbn in HE.
  pose proof (leading_S codes k EL) as HK. pose proof u_pos as U0.
  assert (0 <= 3 * u * (INR (length codes) + 1)) as U3 by (apply Rmult_le_pos; [lra|pose proof (pos_INR (length codes)); lra]).
  destruct codes as [|[] rest]; [contradiction| |].
  - subst k. change (0 <? 0)%nat with false in HE. cbv iota in HE.
    unfold franks in HR. cbn [freverse_i] in HR.
    assert (ranks = 1 :: frank_loop (length (true :: rest)) 1 (freverse_i rest)) as -> by congruence.
    assert (exact = 1 :: NonparModel.rank_loop (length (true :: rest)) 1 (freverse_i rest)) as ->.
    { cbn [NonparModel.failure_reverse_i tl] in HE. rewrite freverse_same. congruence. }
    destruct j as [|j].
    + assert (v = 1) as -> by (cbn [nth_error] in Ev; congruence). assert (w = 1) as -> by (cbn [nth_error] in Ew; congruence).
      unfold Rminus. rewrite Rplus_opp_r, Rabs_R0. apply Rmult_le_pos; [exact U3|apply pos_INR].
    + cbn [nth_error] in Ev, Ew.
      pose proof (frank_loop_err (length (true :: rest)) HN (freverse_i rest) (S (length rest)) 1 1 j v w) as G.
      replace (Rabs (1 - 1)) with 0 in G by (unfold Rminus; now rewrite Rplus_opp_r, Rabs_R0).
      assert (Rabs (v - w) <= 0 + 3 * u * (INR (length (true :: rest)) + 1) * INR (j + 1)) as G'.
      { apply G; auto; try lra; [simpl; lia|apply freverse_desc; lia|apply fmt_1|].
        change (length (true :: rest)) with (S (length rest)). lra. }
      replace (INR (S j + 1)) with (INR (j + 1) + 1) by (rewrite <- S_INR; f_equal; lia). lra.
  - destruct k as [|k]; [lia|]. cbv iota in HE.
    unfold franks in HR. destruct (freverse_i (false :: rest)) as [|r revs] eqn:E; [discriminate HR|].
    assert (ranks = frank_loop (length (false :: rest)) 0 (r :: revs)) as -> by congruence.
    assert (exact = NonparModel.rank_loop (length (false :: rest)) 0 (r :: revs)) as ->.
    { rewrite freverse_same in E. rewrite E in HE. congruence. }
    pose proof (frank_loop_err (length (false :: rest)) HN (r :: revs) (S (length rest)) 0 0 j v w) as G.
    replace (Rabs (0 - 0)) with 0 in G by (unfold Rminus; now rewrite Rplus_opp_r, Rabs_R0).
    assert (Rabs (v - w) <= 0 + 3 * u * (INR (length (false :: rest)) + 1) * INR (j + 1)) as G'; [|lra].
    apply G; auto; try lra.
    + simpl. lia.
    + rewrite <- E. cbn [freverse_i]. apply freverse_desc. lia.
    + apply fmt_0.
    + change (length (false :: rest)) with (S (length rest)). lra.
Qed.

(** * A position against the one computed exactly from the same rank *)
Lemma gap i a : fmt i -> 1 <= i -> fmt a -> 0 <= a <= 1 -> i - a = 0 \/ u <= i - a.
Proof.
  intros Hi H1 Ha H01. pose proof u_pos.
  destruct (Req_dec i 1) as [->|N].
  - destruct (small_gap 1 a Ha H01 ltac:(lia)) as [E|E]; simpl INR in E; auto.
  - right. destruct (grid_gap i 0 1 Hi) with (z := (2 ^ 52)%Z) as [G _].
    + change (bpow radix2 0) with 1. exact H1.
    + lia.
    + change (bpow radix2 (0 - 52)) with (/ IZR (2 ^ 52)). field. apply not_0_IZR. lia.
    + specialize (G ltac:(lra)). rewrite bpow_m52 in G. lra.
Qed.

Lemma position_within' n a i : INR n + 1 <= 2 ^ 50 -> fmt a -> 0 <= a <= 1 -> (1 <= n)%nat -> fmt i -> 1 <= i <= INR n -> divisor n a <> 0 ->
  within_roundings 4 ((i - a) / (INR n + 1 - 2 * a)) (position n a i).
Proof.
  intros HN Ha H01 Hn Hi Hi1 HD.
  pose proof (divisor_pos n a HN Ha H01 Hn HD) as DP.
  pose proof (divisor_up n a HN Ha H01 Hn) as DU.
  assert (0 < / 2 ^ 60 <= u) as T60 by (unfold u; rewrite pow2_60, pow2_num; lra).
  pose proof u_pos. pose proof u_small.
  assert (INR n + 1 - 2 * a = 0 \/ u <= INR n + 1 - 2 * a) as [Z|G].
  { destruct (Req_dec a 1) as [->|N1].
    - destruct (le_lt_dec n 1); [left; replace n with 1%nat by lia; simpl; ring|].
      assert (2 <= INR n) by (apply (le_INR 2); lia). right. lra.
    - destruct (small_gap 1 a Ha H01 ltac:(lia)) as [E|E]; simpl in E; [exfalso; apply N1; lra|]. right. lra. }
  { exfalso. apply HD. rewrite divisor_eq by auto. rewrite Z. apply rnd_0. }
  assert (divisor n a = rnd (INR n + 1 - 2 * a)) as ED by (apply divisor_eq; auto).
  destruct (rnd_rel (INR n + 1 - 2 * a)) as [D1 D2]; [lra|]. rewrite <- ED in D1, D2.
  unfold position, fdiv, fsub. set (d := divisor n a) in *. set (D := INR n + 1 - 2 * a) in *.
  assert (0 < D) as DP' by lra.
  destruct (gap i a Hi (proj1 Hi1) Ha H01) as [Z|G2].
  { rewrite Z, rnd_0. unfold Rdiv. rewrite !Rmult_0_l, rnd_0. apply within_refl. lra. }
  destruct (rnd_rel (i - a)) as [A1 A2]; [lra|]. set (A := rnd (i - a)) in *. set (x := i - a) in *.
  assert (/ D * (1 - u) <= / d <= / D * (1 + u) ^ 2) as [I1 I2].
  { assert (0 < / D) by (apply Rinv_0_lt_compat, DP'). assert (0 < / d) by (apply Rinv_0_lt_compat, DP).
    split.
    - apply Rmult_le_reg_r with d; [exact DP|]. rewrite Rinv_l by lra. apply Rmult_le_reg_r with D; [exact DP'|].
      replace (/ D * (1 - u) * d * D) with ((1 - u) * d) by (field; lra). clear - D1 D2 H H0 DP'. nra.
    - apply Rmult_le_reg_r with d; [exact DP|]. rewrite Rinv_l by lra. apply Rmult_le_reg_r with D; [exact DP'|].
      replace (/ D * (1 + u) ^ 2 * d * D) with ((1 + u) ^ 2 * d) by (field; lra).
      assert (1 <= (1 + u) ^ 2 * (1 - u)) by (clear - H H0; nra).
      apply Rle_trans with ((1 + u) ^ 2 * (D * (1 - u))); [|apply Rmult_le_compat_l; [apply pow_le|]; lra].
      replace ((1 + u) ^ 2 * (D * (1 - u))) with (D * ((1 + u) ^ 2 * (1 - u))) by ring.
      rewrite Rmult_1_l. rewrite <- (Rmult_1_r D) at 1. apply Rmult_le_compat_l; lra. }
  assert (0 < / D) by (apply Rinv_0_lt_compat, DP'). assert (0 < / d) by (apply Rinv_0_lt_compat, DP).
  assert (bpow radix2 (-1074 + 53 - 1) <= A / d) as AQ.
  { assert (/ 2 ^ 50 <= / d) by (apply Rinv_le_contravar; [exact DP|exact DU]).
    assert (0 < / 2 ^ 50) by (apply Rinv_0_lt_compat, pow_lt; lra).
    assert (u / 2 <= A) by (apply Rle_trans with (2 := A1); apply arith12; auto).
    apply Rle_trans with (u / 2 * / 2 ^ 50); [|unfold Rdiv at 2; apply Rmult_le_compat; lra].
    apply Rle_trans with (bpow radix2 (-104)); [apply bpow_le; lia|].
    change (bpow radix2 (-104)) with (/ IZR (2 ^ 104)). unfold u. rewrite pow2_num, pow2_50.
    replace (IZR (2 ^ 104)) with 20282409603651670423947251286016 by reflexivity. lra. }
  destruct (rnd_normal (A / d) AQ) as [Q1 Q2].
  unfold within_roundings. fold u.
  apply (arith14 u (x / D) (A / d)); auto.
  - apply Rmult_lt_0_compat; lra.
  - unfold Rdiv. apply arith13; auto; lra.
Qed.

Lemma frank_loop_len n p l : length (frank_loop n p l) = length l.
Proof. revert p. induction l as [|r l IH]; intros p; [reflexivity|]. cbn [frank_loop length]. now rewrite IH. Qed.

Lemma rank_loop_len n p l : length (NonparModel.rank_loop n p l) = length l.
Proof. revert p. induction l as [|r l IH]; intros p; [reflexivity|]. cbn [NonparModel.rank_loop length]. now rewrite IH. Qed.

Lemma franks_exact codes ranks : franks codes = Ok ranks -> exists exact, NonparModel.adjusted_ranks codes = Ok exact /\ length exact = length ranks.
Proof.
  intros HR.
  assert (exists r l, freverse_i codes = r :: l) as (r & l & E).
  { unfold franks in HR. destruct codes as [|[] rest]; cbn [freverse_i] in *; [discriminate HR|eauto|].
    destruct (freverse_i rest); [discriminate HR|eauto]. }
  assert (exists k, NonparModel.leading_cens codes = Ok k) as [k EL].
  { clear HR. revert r l E. induction codes as [|[] rest IH]; intros r l E; cbn [freverse_i] in E; [discriminate E|eexists; reflexivity|].
    destruct (IH r l E) as [k Hk]. cbn [NonparModel.leading_cens]. rewrite Hk. eexists. reflexivity. }
  pose proof (leading_S codes k EL) as HK.
  unfold NonparModel.adjusted_ranks. rewrite EL. cbn [bind]. cbv zeta. rewrite <- freverse_same.
  unfold franks in HR. destruct codes as [|[] rest]; [contradiction| |].
  - subst k. eexists. split; [reflexivity|]. cbn [freverse_i] in HR |- *.
    assert (ranks = 1 :: frank_loop (length (true :: rest)) 1 (freverse_i rest)) as -> by congruence.
    cbn [length tl]. now rewrite frank_loop_len, rank_loop_len.
  - destruct k as [|k]; [lia|]. eexists. split; [reflexivity|]. rewrite E in HR |- *.
    assert (ranks = frank_loop (length (false :: rest)) 0 (r :: l)) as -> by congruence.
    now rewrite frank_loop_len, rank_loop_len.
Qed.
