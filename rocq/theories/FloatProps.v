(** C157 The nonparametric estimates in double precision; C158 The plotting positions in
    double precision. *)
From Flocq Require Import Core.
From Coq Require Import List Arith Reals Bool Lra Lia Psatz.
From Verif Require Import Base FloatModel FloatSpec FloatProofs FloatProofs2 FloatProofs3.
Import ListNotations.
Open Scope R_scope.

(** What "up to m roundings" means as a relative error. *)
Theorem C157_meaning : forall m x v, INR m <= 2 ^ 51 -> 0 <= x -> within_roundings m x v ->
  Rabs (v - x) <= x * (INR m * / 2 ^ 52).
Proof.
  intros m x v Hm Hx [H1 H2]. fold u in *. pose proof u_pos as U. pose proof u_le_1 as U1.
  assert (/ 2 ^ 52 = 2 * u) as E by (unfold u; change (2 ^ 53) with (2 * 2 ^ 52); field; apply pow_nonzero; lra).
  rewrite E. assert (INR m * u <= 1 / 4) as MU.
  { unfold u. apply Rmult_le_reg_r with (2 ^ 53); [apply pow_lt; lra|].
    rewrite Rmult_assoc, Rinv_l by (apply pow_nonzero; lra). change (2 ^ 53) with (2 * (2 * 2 ^ 51)). lra. }
  pose proof (pow_ge_bernoulli m) as B. pose proof (pos_INR m) as M0.
  assert ((1 + u) ^ m * (1 - u) ^ m <= 1) as P.
  { rewrite <- Rpow_mult_distr. replace 1 with (1 ^ m) at 3 by apply pow1. apply pow_incr. split; nra. }
  assert (0 < (1 + u) ^ m) as P0 by (apply pow_lt; lra).
  assert ((1 + u) ^ m <= 1 + 2 * (INR m * u)) as UP.
  { assert ((1 + u) ^ m * (1 - INR m * u) <= 1) as Q by nra. set (t := INR m * u) in *.
    assert (0 <= t) by (unfold t; nra). assert (1 <= (1 + 2 * t) * (1 - t)) by nra.
    apply Rmult_le_reg_r with (1 - t); lra. }
  apply Rabs_le. split; nra.
Qed.
Print Assumptions C157_meaning.

(** ** Kaplan-Meier *)
Lemma km_nth codes k v : nth_error (fkm codes) k = Some v -> v = kmv codes (S k) /\ (k < length codes)%nat.
Proof.
  intros H. split.
  - unfold kmv. cbn [nth]. symmetry. now apply nth_error_nth.
  - assert (k < length (fkm codes))%nat as HL by (apply nth_error_Some; congruence). unfold fkm in HL. now rewrite fkm_length in HL.
Qed.
Lemma km_nth0 codes k v : nth_error (1 :: fkm codes) k = Some v -> v = kmv codes k.
Proof. intros H. unfold kmv. symmetry. now apply nth_error_nth. Qed.

Theorem C157_km_value : forall codes k v, INR (length codes) <= 2 ^ 50 -> nth_error (fkm codes) k = Some v ->
  double v /\ 0 <= v <= 1 /\ within_roundings (2 * S k) (survival codes (S k)) v.
Proof.
  intros codes k v HN H. destruct (km_nth _ _ _ H) as [-> Hk]. split; [apply fmt_double, kmv_fmt|].
  split; [apply kmv_range, le_50_53, HN|]. apply kmv_within_all; [exact HN|lia].
Qed.
Print Assumptions C157_km_value.

(** From one item to the next: unchanged, to the last bit, when it was censored; smaller,
    however little it should change, when it failed. *)
Theorem C157_km_step : forall codes k v w, INR (length codes) <= 2 ^ 50 ->
  nth_error (1 :: fkm codes) k = Some v -> nth_error (fkm codes) k = Some w ->
  (failed codes k = false -> w = v) /\ (failed codes k = true -> w < v).
Proof.
  intros codes k v w HN Hv Hw. apply km_nth0 in Hv. destruct (km_nth _ _ _ Hw) as [-> Hk]. subst v. split; intros E.
  - apply kmv_cens; auto. apply le_50_53, HN.
  - apply kmv_drop; auto.
Qed.
Print Assumptions C157_km_step.

(** Zero is reached exactly when the last item failed, and only there. *)
Theorem C157_km_zero : forall codes k v, INR (length codes) <= 2 ^ 50 -> nth_error (fkm codes) k = Some v ->
  (v = 0 <-> S k = length codes /\ failed codes k = true).
Proof.
  intros codes k v HN H. destruct (km_nth _ _ _ H) as [-> Hk].
  destruct (Nat.eq_dec (S k) (length codes)) as [E|E].
  - rewrite E. rewrite kmv_last; [|exact HN|lia]. replace (length codes - 1)%nat with k by lia. tauto.
  - pose proof (kmv_positive codes (S k) HN ltac:(lia)). split; [lra|tauto].
Qed.
Print Assumptions C157_km_zero.

Theorem C157_km_complete : forall codes, length (fkm codes) = length codes.
Proof. intros codes. apply fkm_length. Qed.
Print Assumptions C157_km_complete.

(** The bounds enclose the estimate and stay within 0 and 1, whatever the half width. *)
Theorem C157_km_bounds : forall codes k v delta, INR (length codes) <= 2 ^ 50 -> nth_error (fkm codes) k = Some v -> 0 <= delta ->
  0 <= fkm_lower v delta <= v /\ v <= fkm_upper v delta <= 1.
Proof.
  intros codes k v delta HN H HD. destruct (km_nth _ _ _ H) as [-> Hk].
  apply fkm_bounds; [apply kmv_fmt|apply kmv_range, le_50_53, HN|exact HD].
Qed.
Print Assumptions C157_km_bounds.

(** ** Nelson-Aalen *)
Theorem C157_na_hazard : forall ex codes k H S, INR (length codes) <= 2 ^ 50 -> nth_error (fna ex codes) k = Some (H, S) ->
  double H /\ 0 <= H /\ within_roundings (k + 2) (hazard codes (k + 1)) H /\ S = ex (- H).
Proof.
  intros ex codes k H S HN E.
  assert (k < length codes)%nat as Hk.
  { destruct (Nat.lt_ge_cases k (length codes)) as [|G]; [assumption|exfalso].
    assert (forall l h, length (fna_loop ex h l) = length l) as LL.
    { induction l as [|c l IH]; intros h; [reflexivity|]. cbn [fna_loop length]. now rewrite IH. }
    assert (k < length (fna ex codes))%nat as HL by (apply nth_error_Some; congruence). unfold fna in HL. rewrite LL in HL. lia. }
  rewrite fna_value in E by assumption.
  assert (H = hz codes (Datatypes.S k) /\ S = ex (- hz codes (Datatypes.S k))) as [-> ->] by (split; congruence).
  split; [apply fmt_double; exact (g_fmt (failed codes) (risk (length codes)) (Datatypes.S k))|]. split; [apply hz_nonneg; [exact HN|lia]|]. split; [|reflexivity].
  replace (k + 2)%nat with (Datatypes.S (Datatypes.S k)) by lia. replace (k + 1)%nat with (Datatypes.S k) by lia.
  apply hz_within; [exact HN|lia].
Qed.
Print Assumptions C157_na_hazard.

(** The estimate for any implementation of exp that does not fall where exp rises, is exact
    at 0 and not negative. *)
Theorem C157_na_step : forall ex codes k H S H' S', INR (length codes) <= 2 ^ 50 ->
  (forall x y, x <= y -> ex x <= ex y) -> ex 0 = 1 -> (forall x, 0 <= ex x) ->
  nth_error ((0, 1) :: fna ex codes) k = Some (H, S) -> nth_error (fna ex codes) k = Some (H', S') ->
  (failed codes k = false -> H' = H /\ S' = S) /\ (failed codes k = true -> H < H') /\ 0 <= S' <= S /\ S <= 1.
Proof.
  intros ex codes k H S H' S' HN Hm H0 Hp E E'.
  assert (k < length codes)%nat as Hk.
  { destruct (Nat.lt_ge_cases k (length codes)) as [|G]; [assumption|exfalso].
    assert (forall l h, length (fna_loop ex h l) = length l) as LL.
    { induction l as [|c l IH]; intros h; [reflexivity|]. cbn [fna_loop length]. now rewrite IH. }
    assert (k < length (fna ex codes))%nat as HL by (apply nth_error_Some; congruence). unfold fna in HL. rewrite LL in HL. lia. }
  rewrite fna_value in E' by assumption.
  assert (H' = hz codes (Datatypes.S k) /\ S' = ex (- hz codes (Datatypes.S k))) as [-> ->] by (split; congruence).
  assert (H = hz codes k /\ S = ex (- hz codes k)) as [-> ->].
  { destruct k as [|k]; [cbn [nth_error] in E; injection E as <- <-; unfold hz; cbn [g]; rewrite Ropp_0; auto|].
    cbn [nth_error] in E. rewrite fna_value in E by (auto; lia). split; congruence. }
  pose proof (hz_nonneg codes HN k ltac:(lia)) as P.
  assert (hz codes k <= hz codes (Datatypes.S k)) as ML.
  { destruct (failed codes k) eqn:F; [apply Rlt_le, hz_rises; auto|]. rewrite hz_same by exact F. lra. }
  repeat split.
  - apply hz_same. assumption.
  - f_equal. f_equal. apply hz_same. assumption.
  - intros F. apply hz_rises; auto.
  - apply Hp.
  - apply Hm. lra.
  - rewrite <- H0. apply Hm. lra.
Qed.
Print Assumptions C157_na_step.

(** ** Mean cumulative function *)
Theorem C157_mcf_value : forall systems states out k, INR systems <= 2 ^ 50 -> INR (length states) <= 2 ^ 50 ->
  fmcf systems states = Ok out -> (k < length states)%nat ->
  if failed states k
  then exists v, nth_error out k = Some (Some v) /\ double v /\ 0 < v /\
       within_roundings (k + 2) (mean_repairs systems states (k + 1)) v
  else nth_error out k = Some None.
Proof.
  intros m states out k HM HS HO Hk. rewrite (out_nth m states out HM HO k Hk).
  destruct (failed states k) eqn:F; [|reflexivity]. eexists. split; [reflexivity|].
  split; [apply fmt_double; exact (g_fmt (failed states) (systems_left m states) (S k))|]. split.
  - pose proof (mv_rises m states out HM HS HO k Hk F).
    pose proof (mv_mono m states out HM HS HO 0 k ltac:(lia)) as P. unfold mv at 1 in P. cbn [g] in P. lra.
  - replace (k + 2)%nat with (S (S k)) by lia. replace (k + 1)%nat with (S k) by lia.
    apply (mv_within m states out HM HO). lia.
Qed.
Print Assumptions C157_mcf_value.

(** Every repair raises the estimate. *)
Theorem C157_mcf_rises : forall systems states out i j v w, INR systems <= 2 ^ 50 -> INR (length states) <= 2 ^ 50 ->
  fmcf systems states = Ok out -> (i < j)%nat ->
  nth_error out i = Some (Some v) -> nth_error out j = Some (Some w) -> v < w.
Proof.
  intros m states out i j v w HM HS HO Hij Ei Ej.
  assert (j < length states)%nat as Hj by (rewrite <- (out_length m states out HM HO); apply nth_error_Some; congruence).
  rewrite (out_nth m states out HM HO) in Ei, Ej by lia.
  destruct (failed states i) eqn:Fi; [|discriminate Ei]. destruct (failed states j) eqn:Fj; [|discriminate Ej].
  assert (v = mv m states (S i)) as -> by congruence. assert (w = mv m states (S j)) as -> by congruence.
  pose proof (mv_mono m states out HM HS HO (S i) j ltac:(lia)). pose proof (mv_rises m states out HM HS HO j Hj Fj). lra.
Qed.
Print Assumptions C157_mcf_rises.

(** Four items of which the second is censored and the last fails; two systems with two
    repairs. *)
Example C157_example :
  INR (length [true; false; true; true]) <= 2 ^ 50 /\ length (fkm [true; false; true; true]) = 4%nat /\
  nth_error (fkm [true; false]) 0 = Some (1 / 2) /\
  exists v w, fmcf 2 [true; false; true; false] = Ok [Some v; None; Some w; None] /\ v = 1 / 2 /\ v < w.
Proof.
  assert (INR 4 <= 2 ^ 50) as H4 by (rewrite pow2_50; simpl; lra).
  assert (INR 2 <= 2 ^ 50) as H2 by (rewrite pow2_50; simpl; lra).
  assert (rnd (1 / 2) = 1 / 2) as EH.
  { apply rnd_id. replace (1 / 2) with (bpow radix2 (-1)) by (simpl; lra). apply generic_format_FLT_bpow; [reflexivity|lia]. }
  split; [exact H4|]. split; [reflexivity|]. split.
  - cbn [fkm fkm_loop nth_error length]. f_equal. unfold fdiv, fsub. rewrite float_of_eq by (apply le_50_53, H2). cbn [float_code].
    simpl INR. replace (1 + 1 - 1) with 1 by ring. rewrite rnd_1. replace (1 / (1 + 1)) with (1 / 2) by lra. exact EH.
  - eexists. eexists. split; [reflexivity|]. split.
    + unfold fdiv. rewrite float_of_eq by (apply le_50_53, H2). simpl INR. replace (1 / (1 + 1)) with (1 / 2) by lra. exact EH.
    + eapply (C157_mcf_rises 2 [true; false; true; false] _ 0 2); [exact H2|exact H4|reflexivity|lia|reflexivity|reflexivity].
Qed.

(** ** C158 Plotting positions *)
Theorem C158_range : forall a codes ys y, INR (length codes) + 1 <= 2 ^ 50 -> double a -> 0 <= a <= 1 ->
  fpositions a codes = Ok ys -> In y ys -> double y /\ 0 <= y <= 1.
Proof.
  intros a codes ys y HN Ha H01 H Hy. destruct (fpositions_inv a codes ys HN H) as (ranks & ER & HD & ->).
  apply in_map_iff in Hy. destruct Hy as (i & <- & Hi). apply In_nth_error in Hi. destruct Hi as [k Hk].
  destruct (franks_climbs codes ranks HN ER) as [C _]. destruct (climbs_nth _ _ _ _ _ C Hk) as (HI & _ & _).
  assert (1 <= length codes)%nat as HL by (destruct codes; [discriminate ER|simpl; lia]).
  split; [apply fmt_double, rnd_fmt|]. apply position_range; auto. apply double_fmt, Ha.
Qed.
Print Assumptions C158_range.

(** Later failures have larger positions, and there is one for each failure. *)
Theorem C158_rises : forall a codes ys i j y z, INR (length codes) + 1 <= 2 ^ 50 -> double a -> 0 <= a <= 1 ->
  fpositions a codes = Ok ys -> (i < j)%nat -> nth_error ys i = Some y -> nth_error ys j = Some z -> y < z.
Proof.
  intros a codes ys i j y z HN Ha H01 H Hij Ei Ej. destruct (fpositions_inv a codes ys HN H) as (ranks & ER & HD & ->).
  destruct (franks_climbs codes ranks HN ER) as [C _].
  rewrite nth_error_map in Ei, Ej. destruct (nth_error ranks i) as [v|] eqn:Vi; [|discriminate Ei]. destruct (nth_error ranks j) as [w|] eqn:Vj; [|discriminate Ej].
  injection Ei as <-. injection Ej as <-.
  pose proof (climbs_two _ _ _ _ _ _ _ C Hij Vi Vj). destruct (climbs_nth _ _ _ _ _ C Vi) as (HI & _). destruct (climbs_nth _ _ _ _ _ C Vj) as (HJ & _).
  assert (1 <= length codes)%nat as HL by (destruct codes; [discriminate ER|simpl; lia]).
  apply position_rises; auto; try lra. apply double_fmt, Ha.
Qed.
Print Assumptions C158_rises.

Theorem C158_complete : forall a codes ys, INR (length codes) + 1 <= 2 ^ 50 -> fpositions a codes = Ok ys ->
  length ys = length (filter (fun c => c) codes).
Proof.
  intros a codes ys HN H. destruct (fpositions_inv a codes ys HN H) as (ranks & ER & HD & ->).
  rewrite map_length. apply (franks_climbs codes ranks HN ER).
Qed.
Print Assumptions C158_complete.

(** Without censoring the ranks are exact, so the k-th of n positions is (k - a)/(n + 1 - 2a)
    up to four roundings. *)
Theorem C158_uncensored : forall a n ys, INR n + 1 <= 2 ^ 50 -> double a -> 0 <= a <= 1 -> (1 <= n)%nat ->
  franks (repeat true n) = Ok (map INR (seq 1 n)) /\
  (fpositions a (repeat true n) = Ok ys -> forall k, (1 <= k <= n)%nat ->
   exists y, nth_error ys (k - 1) = Some y /\ within_roundings 4 ((INR k - a) / (INR n + 1 - 2 * a)) y).
Proof.
  intros a n ys HN Ha H01 Hn. pose proof (franks_uncensored n HN Hn) as ER. split; [exact ER|].
  intros H k Hk. assert (length (repeat true n) = n) as EL by apply repeat_length.
  destruct (fpositions_inv a (repeat true n) ys ltac:(rewrite EL; exact HN) H) as (ranks & ER' & HD & ->).
  rewrite ER in ER'. injection ER' as <-. rewrite EL in *. exists (position n a (INR k)). split.
  - rewrite !nth_error_map. replace (nth_error (seq 1 n) (k - 1)) with (Some k); [reflexivity|].
    symmetry. rewrite (nth_error_nth' _ 0%nat) by (rewrite seq_length; lia). rewrite seq_nth by lia. f_equal. lia.
  - apply position_within; auto. apply double_fmt, Ha.
Qed.
Print Assumptions C158_uncensored.

(** They are refused only without failures, or for a single item with a = 1. *)
Theorem C158_runs : forall a codes, INR (length codes) + 1 <= 2 ^ 50 -> double a -> 0 <= a <= 1 ->
  In true codes -> (1 < length codes)%nat \/ a <> 1 -> exists ys, fpositions a codes = Ok ys.
Proof.
  intros a codes HN Ha H01 HI HL. apply double_fmt in Ha. unfold fpositions.
  assert (freverse_i codes <> []) as HR.
  { clear - HI. induction codes as [|c rest IH]; [destruct HI|]. cbn [freverse_i]. destruct c; [discriminate|].
    destruct HI as [E|HI]; [discriminate E|]. apply IH, HI. }
  assert (exists ranks, franks codes = Ok ranks) as [ranks ->].
  { unfold franks. destruct codes as [|[] rest]; [destruct HI| |]; destruct (freverse_i _) as [|r revs]; try contradiction; eexists; reflexivity. }
  simpl. fold (divisor (length codes) a). destruct (Req_EM_T (divisor (length codes) a) 0) as [E|]; [exfalso|eexists; reflexivity].
  rewrite divisor_eq in E by auto.
  assert (1 <= INR (length codes)) as L1.
  { apply (le_INR 1). destruct codes; [destruct HI|simpl; lia]. }
  assert (u <= INR (length codes) + 1 - 2 * a) as G.
  { pose proof u_small. destruct HL as [HL|N1].
    - assert (2 <= INR (length codes)) by (apply (le_INR 2); lia). lra.
    - destruct (small_gap 1 a Ha H01 ltac:(lia)) as [Z|Z]; simpl in Z; [exfalso; apply N1; lra|lra]. }
  destruct (rnd_rel (INR (length codes) + 1 - 2 * a)) as [R1 _].
  { apply Rle_trans with (2 := G). unfold u. rewrite pow2_60, pow2_num. lra. }
  pose proof u_pos. pose proof u_small. rewrite E in R1. nra.
Qed.
Print Assumptions C158_runs.

(** Half of the items censored, with the heuristic a = 1/2. *)
Example C158_example : INR (length [false; true; false; true]) + 1 <= 2 ^ 50 /\ double (1 / 2) /\
  exists ys, fpositions (1 / 2) [false; true; false; true] = Ok ys /\ length ys = 2%nat.
Proof.
  assert (INR (length [false; true; false; true]) + 1 <= 2 ^ 50) as HN by (rewrite pow2_50; simpl; lra).
  assert (double (1 / 2)) as HD.
  { exists 1%Z, (-1)%Z. split; [simpl; lra|]. split; [reflexivity|lia]. }
  split; [exact HN|]. split; [exact HD|].
  destruct (C158_runs (1 / 2) [false; true; false; true] HN HD ltac:(lra) ltac:(simpl; auto) ltac:(left; simpl; lia)) as [ys E].
  exists ys. split; [exact E|]. exact (C158_complete _ _ _ HN E).
Qed.
