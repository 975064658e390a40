(** Property theorems about the goodness of fit statistic and the plotting helpers: C68, C69, C72, C97, C98, C99. *)
From Coquelicot Require Import Coquelicot.
From Coq Require Import String.
From Coq Require Import List Arith Reals Lra Lia Bool ZArith Sorted Permutation.
From Verif Require Import Base RealFacts Gauss Ext RList ConvertModel RepairModel RepairProofs RepairProofs2 TestingModel TestingProofs DistModel DistSpec DistProofs DistProofs2
  PoFProofs PoFProofs2 CombProofs RegProofs SelModel CIModel CISpec CIProofs CIProofs2 PlotModel PlotSpec PlotProofs PlotProofs2.
From Coq Require Import Classical.
Import ListNotations.
Open Scope R_scope.

(** * C68: the Anderson-Darling statistic *)

(** Both lists in any order. Missing from the full statement: fitted values above 1 - 1e-12, see C68_refuted. *)
Theorem C68_distance_partial : forall zs ps ps', length zs = length ps -> Forall (fun z => 0 < z <= 1 - / 10 ^ 12) zs ->
  Permutation ps ps' -> StronglySorted Rle ps' ->
  exists v, anderson_darling zs ps = Ok (Some v) /\ v = INR (length zs) * weighted_distance zs ps' (1 - / 10 ^ 12) /\ 0 <= v.
Proof.
  intros zs ps ps' HL HF HP HS. pose proof ad_end_range as He. fold ad_end in *. eexists. split; [apply ad_eq; [exact HL|]|].
  { eapply Forall_impl; [|exact HF]. simpl. intros; lra. }
  pose proof (isort_perm Rleb zs) as Pz. rewrite (isort_sorted_perm ps ps' HP HS).
  assert (is_RInt (fun z => (step_function zs ps' z - z) ^ 2 / (z * (1 - z))) 0 ad_end (ad_sum 0 0 0 (isort Rleb zs) ps')) as HI.
  { apply (is_RInt_ext (fun z => ad_integrand (steps 0 (isort Rleb zs) ps' z) z)).
    - intros z _. unfold ad_integrand, steps, step_function. rewrite <- (Permutation_length (filter_perm (le_b z) _ _ Pz)). reflexivity.
    - apply ad_integral_0; [apply isort_R_sorted|]. eapply Permutation_Forall; [exact Pz|exact HF]. }
  split.
  - f_equal. symmetry. unfold weighted_distance. now apply is_RInt_unique.
  - apply Rmult_le_pos; [apply pos_INR|]. eapply is_RInt_ge_0; [|exact HI|]; [lra|]. intros z Hz.
    apply Rmult_le_pos; [apply pow2_ge_0|]. left. apply Rinv_0_lt_compat. apply Rmult_lt_0_compat; lra.
Qed.
Print Assumptions C68_distance_partial.

(** The order of the arguments is irrelevant. *)
Theorem C68_order : forall zs zs' ps ps', Permutation zs zs' -> Permutation ps ps' -> anderson_darling zs ps = anderson_darling zs' ps'.
Proof.
  intros zs zs' ps ps' H1 H2. unfold anderson_darling. rewrite (Permutation_length H1), (Permutation_length H2).
  rewrite (isort_perm_eq Rleb (to_total _ Rleb_order) (to_trans _ Rleb_order) (to_antisym _ Rleb_order) _ _ H1).
  rewrite (isort_perm_eq Rleb (to_total _ Rleb_order) (to_trans _ Rleb_order) (to_antisym _ Rleb_order) _ _ H2).
  replace (existsb (fun z => negb (Rltb' 0 z && Rltb' z 1)) zs) with (existsb (fun z => negb (Rltb' 0 z && Rltb' z 1)) zs'); [reflexivity|].
  destruct (existsb _ zs) eqn:E.
  - apply existsb_exists in E. destruct E as (z & Hz & E). apply existsb_exists. exists z. split; [now apply (Permutation_in _ H1)|exact E].
  - destruct (existsb _ zs') eqn:E'; [|reflexivity]. apply existsb_exists in E'. destruct E' as (z & Hz & E'). rewrite <- E. symmetry. apply existsb_exists. exists z.
    split; [apply (Permutation_in _ (Permutation_sym H1)); exact Hz|exact E'].
Qed.
Print Assumptions C68_order.

(** A fitted value of 0 or 1 makes the statistic nan. *)
Theorem C68_nan : forall zs ps, length zs = length ps -> In 0 zs \/ In 1 zs -> anderson_darling zs ps = Ok None.
Proof.
  intros zs ps HL H. unfold anderson_darling. rewrite HL, Nat.eqb_refl. cbn [negb]. replace (existsb _ zs) with true; [reflexivity|]. symmetry. apply existsb_exists.
  assert (forall a b, b <= a -> Rltb' a b = false) as N. { intros a b Hab. destruct (Rltb' a b) eqn:E; [apply Rltb'_true in E; lra|reflexivity]. }
  destruct H as [H|H]; [exists 0|exists 1]; (split; [exact H|]); rewrite (N _ _ (Rle_refl _)); rewrite ?andb_false_r; reflexivity.
Qed.
Print Assumptions C68_nan.

(** A fitted value above 1 - 1e-12: the last segment is traversed backwards, and the statistic is not
    the distance over (0, 1 - 1e-12). *)
Theorem C68_refuted : exists z p v, 0 < z < 1 /\ anderson_darling [z] [p] = Ok (Some v) /\ v <> 1 * weighted_distance [z] [p] (1 - / 10 ^ 12).
Proof.
  pose proof ad_end_range as He. assert (0 < / 10 ^ 13 < 1 - ad_end) as Hq. { unfold ad_end. split; [apply Rinv_0_lt_compat, pow_lt; lra|]. replace (1 - (1 - / 10 ^ 12)) with (/ 10 ^ 12) by ring. apply Rinv_lt_contravar; [|]; simpl; lra. }
  set (z := 1 - / 10 ^ 13). assert (ad_end < z < 1) as Hz by (unfold z; lra). exists z, (1 / 2). eexists. split; [lra|]. split; [apply ad_eq; [reflexivity|constructor; [lra|constructor]]|].
  fold ad_end. replace (weighted_distance [z] [1 / 2] ad_end) with (ad_term ad_end 0 0 0).
  2:{ symmetry. unfold weighted_distance. apply is_RInt_unique. apply (is_RInt_ext (ad_integrand 0)); [|apply ad_first; lra].
      intros x Hx. rewrite Rmin_left, Rmax_right in Hx by lra. unfold step_function. simpl. destruct (Rle_dec z x); [lra|]. simpl. unfold ad_integrand. reflexivity. }
  cbn [isort insert length INR ad_sum hd tl]. unfold ad_term. rewrite Rminus_0_r, ln_1.
  assert (1 - ad_end = 10 * (1 - z)) as E10. { unfold ad_end, z. simpl. field. }
  assert (ln (1 - ad_end) = ln 10 + ln (1 - z)) as -> by (rewrite E10; apply ln_mult; lra).
  assert (ln z < ln ad_end + ln 10) as HL. { rewrite <- ln_mult by lra. apply ln_increasing; [lra|]. assert (/ 10 < ad_end); [|lra]. unfold ad_end. assert (/ 10 ^ 12 < / 2); [|lra]. apply Rinv_lt_contravar; [|]; simpl; lra. }
  pose proof ln_10_pos. intros E. lra.
Qed.
Print Assumptions C68_refuted.
Example C68_distance_witness : Forall (fun z => 0 < z <= 1 - / 10 ^ 12) [1 / 2; 1 / 4] /\ Permutation [1 / 3; 2 / 3] [1 / 3; 2 / 3] /\ StronglySorted Rle [1 / 3; 2 / 3].
Proof.
  assert (/ 10 ^ 12 < / 2) by (apply Rinv_lt_contravar; [|]; simpl; lra).
  split; [repeat constructor; lra|]. split; [apply Permutation_refl|]. repeat constructor. lra.
Qed.

(** * C69: xy_downsample *)
Lemma sorted_lt_nth_inv l : StronglySorted lt l -> forall i j, (i < j < length l)%nat -> (nth i l 0 < nth j l 0)%nat.
Proof.
  induction 1 as [|x l H IH Hx]; intros i j Hij; simpl in Hij; [lia|]. destruct i as [|i], j as [|j]; try lia; simpl.
  - rewrite Forall_forall in Hx. apply Hx, nth_In. lia.
  - apply IH. lia.
Qed.
Lemma map_nth_seq (l : list R) : map (fun i => nth i l 0) (seq 0 (length l)) = l.
Proof. apply (nth_ext _ _ 0 0); [now rewrite map_length, seq_length|]. intros i Hi. rewrite map_length, seq_length in Hi. rewrite (nth_map_lt _ _ _ 0%nat) by (now rewrite seq_length). now rewrite seq_nth. Qed.
Lemma keeps_self l : l <> [] -> keeps_extremes l l.
Proof.
  intros H. split; [exists (rmin l); pose proof (rmin_in l H); repeat split; auto; intros; now apply rmin_le|exists (rmax l); pose proof (rmax_in l H); repeat split; auto; intros; now apply rmax_ge].
Qed.
(** Extremes are kept, and every value returned is a value of the data. *)
Theorem C69_extremes : forall x y d m x' y', x <> [] -> length x = length y -> xy_downsample x y d m = Ok (x', y') ->
  keeps_extremes x x' /\ keeps_extremes y y' /\ length x' = length y' /\ incl x' x /\ incl y' y.
Proof.
  intros x y d m x' y' Hne HL H. assert (y <> []) as Hny by (destruct y; [destruct x; [congruence|discriminate]|discriminate]).
  apply downsample_cases in H. destruct H as [[-> ->]|(k & _ & K1 & K2 & _ & _ & -> & -> & _)].
  - repeat split; try (now apply keeps_self); try exact HL; apply incl_refl.
  - destruct (indices_good (length x) k K1 K2) as (G1 & G2 & G3 & _ & _).
    assert (forall l, length l = length x -> incl (map (fun i => nth i (isort Rleb l) 0) (final_indices (length x) k)) l) as HI.
    { intros l Hl v Hv. apply in_map_iff in Hv. destruct Hv as (i & <- & Hi). rewrite Forall_forall in G1. specialize (G1 i Hi).
      eapply Permutation_in; [apply Permutation_sym, (isort_perm Rleb)|]. apply nth_In. rewrite isort_length. lia. }
    split; [now apply extremes_at|]. split; [apply extremes_at; [exact Hny|exact G2|now rewrite <- HL]|]. split; [now rewrite !map_length|]. split; apply HI; [reflexivity|now symmetry].
Qed.
Print Assumptions C69_extremes.

(** The part of xy_downsample after the choice of the factor. *)
Definition run (x y : list R) (f : R) : result (list R * list R) :=
  if Req_EM_T f 0 then Err ZeroDivisionError else if Rltb' (INR (length x) / f) 2 then Ok (x, y) else if (Z.to_nat (rfloor f) =? 0)%nat then Err ZeroDivisionError else
  let! xd := take_at (isort Rleb x) (final_indices (length x) (Z.to_nat (rfloor f))) in let! yd := take_at (isort Rleb y) (final_indices (length x) (Z.to_nat (rfloor f))) in Ok (xd, yd).
Lemma run_spec x y k : (1 <= k)%nat -> (2 * k <= length x)%nat -> length x = length y ->
  run x y (INR k) = Ok (map (fun i => nth i (isort Rleb x) 0) (final_indices (length x) k), map (fun i => nth i (isort Rleb y) 0) (final_indices (length x) k)).
Proof.
  intros K1 K2 HL. unfold run. assert (1 <= INR k) as Hk by (apply (le_INR 1); exact K1).
  assert (rfloor (INR k) = Z.of_nat k) as Er. { rewrite INR_IZR_INZ. apply Z.le_antisymm; [apply le_IZR; apply rfloor_spec; lia|apply rfloor_spec; lra]. }
  destruct (Req_EM_T (INR k) 0); [lra|]. destruct (Rltb' (INR (length x) / INR k) 2) eqn:C2.
  { exfalso. apply Rltb'_true in C2. apply le_INR in K2. rewrite mult_INR in K2. simpl (INR 2) in K2. apply Rlt_div_l in C2; lra. }
  rewrite Er, Nat2Z.id. destruct (Nat.eqb_spec k 0); [lia|]. assert (Forall (fun i => (i < length x)%nat) (final_indices (length x) k)) as GF by (apply indices_good; lia).
  rewrite (take_at_all (isort Rleb x)) by (rewrite isort_length; exact GF). rewrite (take_at_all (isort Rleb y)) by (rewrite isort_length, <- HL; exact GF). reflexivity.
Qed.

(** The default factor: at least half of the maximum, at most the maximum, when there are that many. *)
Theorem C69_size : forall x y d m, d = DF_None \/ d = DF_True \/ d = DF_num 1 -> length x = length y -> (4 <= m)%nat ->
  (length x < m -> xy_downsample x y d m = Ok (x, y))%nat /\
  (m <= length x -> exists x' y', xy_downsample x y d m = Ok (x', y') /\ m <= 2 * length x' /\ length x' <= m)%nat.
Proof.
  intros x y d m Hd HL Hm. set (n := length x) in *.
  assert (is_default d = true) as Hdef. { destruct Hd as [-> |[-> | ->]]; simpl; try reflexivity. destruct (Req_EM_T 1 1); [reflexivity|congruence]. }
  split.
  - intros Hn. apply Nat.ltb_lt in Hn. unfold xy_downsample. fold n. rewrite Hdef. cbv zeta. rewrite Hn. destruct d; try reflexivity.
  - intros Hn. set (f := rfloor (INR n / (1 / 2 * INR m))).
    assert (0 < INR m) as Pm by (apply lt_0_INR; lia). assert (4 <= INR m) as Pm4. { replace 4 with (INR 4) by (simpl; ring). apply le_INR. lia. }
    apply le_INR in Hn as Hn'.
    assert (INR n / (1 / 2 * INR m) = 2 * INR n / INR m) as Ef by (field; lra).
    assert (2 <= f)%Z as F2. { apply rfloor_spec. rewrite Ef. apply Rle_div_r; [lra|]. lra. }
    assert (IZR f <= 2 * INR n / INR m) as FU. { rewrite <- Ef. apply rfloor_spec. unfold f. lia. }
    assert (2 * INR n / INR m < IZR f + 1) as FL.
    { rewrite <- plus_IZR. apply Rnot_le_lt. intros C. rewrite <- Ef in C. apply rfloor_spec in C. unfold f in C. lia. }
    set (k := Z.to_nat f). assert (IZR f = INR k) as Ek. { unfold k. rewrite INR_IZR_INZ, Z2Nat.id by lia. reflexivity. }
    rewrite Ek in FU, FL. assert (2 <= k)%nat as K2 by (unfold k; lia).
    apply Rle_div_r in FU; [|lra]. apply Rlt_div_l in FL; [|lra].
    assert (k * m <= 2 * n)%nat as N1. { apply INR_le. rewrite !mult_INR. simpl (INR 2). lra. }
    assert (2 * n < (k + 1) * m)%nat as N2. { apply INR_lt. rewrite !mult_INR, plus_INR. simpl (INR 2). simpl (INR 1). lra. }
    assert (2 * k <= n)%nat as N3 by nia.
    assert (Forall (fun i => (i < n)%nat) (final_indices n k)) as GF by (apply indices_good; lia).
    exists (map (fun i => nth i (isort Rleb x) 0) (final_indices n k)), (map (fun i => nth i (isort Rleb y) 0) (final_indices n k)). split.
    + unfold xy_downsample. fold n. rewrite Hdef. cbv zeta. destruct (Nat.ltb_spec n m); [lia|]. cbn [andb].
      assert ((m =? 0)%nat = false) as M0 by (apply Nat.eqb_neq; lia). rewrite M0. fold f.
      assert (run x y (IZR f) = Ok (map (fun i => nth i (isort Rleb x) 0) (final_indices n k), map (fun i => nth i (isort Rleb y) 0) (final_indices n k))) as G.
      { rewrite Ek. apply run_spec; [lia|exact N3|exact HL]. }
      destruct Hd as [-> |[-> | ->]]; exact G.
    + rewrite map_length. destruct (indices_good n k ltac:(lia) N3) as (_ & _ & _ & _ & Lc & _). rewrite Lc.
      pose proof (Nat.div_mod (n + k - 1) k ltac:(lia)). pose proof (Nat.mod_upper_bound (n + k - 1) k ltac:(lia)). set (c := ((n + k - 1) / k)%nat) in *. nia.
Qed.
Print Assumptions C69_size.

(** A factor k >= 2 returns every k-th value in increasing order, and the greatest in the last place. *)
Theorem C69_every_kth : forall x y k m, (2 <= k)%nat -> (2 * k <= length x)%nat -> length x = length y ->
  exists x' y', xy_downsample x y (DF_num (INR k)) m = Ok (x', y') /\
  length x' = ((length x + k - 1) / k)%nat /\ length y' = length x' /\
  (forall xs, Permutation x xs -> StronglySorted Rle xs -> (forall j, (S j < length x')%nat -> nth j x' 0 = nth (j * k) xs 0) /\ nth (length x' - 1) x' 0 = nth (length x - 1) xs 0) /\
  (forall ys, Permutation y ys -> StronglySorted Rle ys -> (forall j, (S j < length y')%nat -> nth j y' 0 = nth (j * k) ys 0) /\ nth (length y' - 1) y' 0 = nth (length y - 1) ys 0).
Proof.
  intros x y k m Hk Hn HL. assert (2 <= INR k) as Hk'. { replace 2 with (INR 2) by (simpl; ring). now apply le_INR. }
  assert (is_default (DF_num (INR k)) = false) as Hdef by (simpl; destruct (Req_EM_T (INR k) 1); [lra|reflexivity]).
  eexists _, _. split.
  - unfold xy_downsample. rewrite Hdef. cbv zeta. cbn [andb bind]. apply (run_spec x y k); [lia|exact Hn|exact HL].
  - destruct (indices_good (length x) k ltac:(lia) Hn) as (G1 & G2 & G3 & G4 & Lc & Nc). rewrite !map_length. split; [exact Lc|]. split; [reflexivity|].
    assert (nth (length (final_indices (length x) k) - 1) (final_indices (length x) k) 0%nat = (length x - 1)%nat) as NL.
    { apply (In_nth _ _ 0%nat) in G3. destruct G3 as (j & Hj & Ej). rewrite Forall_forall in G1. destruct (Nat.eq_dec j (length (final_indices (length x) k) - 1)) as [E|E]; [now rewrite <- E|].
      specialize (G1 (nth (length (final_indices (length x) k) - 1) (final_indices (length x) k) 0%nat) ltac:(apply nth_In; lia)).
      pose proof (sorted_lt_nth_inv _ G4 j (length (final_indices (length x) k) - 1)%nat ltac:(lia)). lia. }
    assert (0 < length (final_indices (length x) k))%nat as P0 by (destruct (final_indices (length x) k); [destruct G2|simpl; lia]).
    assert (forall l, length l = length x -> forall xs, Permutation l xs -> StronglySorted Rle xs ->
      (forall j, (S j < length (final_indices (length x) k))%nat -> nth j (map (fun i => nth i (isort Rleb l) 0) (final_indices (length x) k)) 0 = nth (j * k) xs 0) /\
      nth (length (final_indices (length x) k) - 1) (map (fun i => nth i (isort Rleb l) 0) (final_indices (length x) k)) 0 = nth (length l - 1) xs 0) as A.
    { intros l Hl xs HP HS. rewrite (isort_sorted_perm l xs HP HS). split.
      - intros j Hj. rewrite (nth_map_lt _ _ _ 0%nat) by lia. now rewrite Nc.
      - rewrite (nth_map_lt _ _ _ 0%nat) by lia. rewrite NL. now rewrite Hl. }
    split; [now apply A|apply A; now symmetry].
Qed.
Print Assumptions C69_every_kth.

(** Whether the points (x, y) that are returned are points of the data: yes if both lists are in
    increasing order, as when the points of a probability plot are passed. *)
Theorem C69_points_partial : forall x y d m x' y', length x = length y -> StronglySorted Rle x -> StronglySorted Rle y -> xy_downsample x y d m = Ok (x', y') ->
  exists ix, StronglySorted lt ix /\ Forall (fun i => (i < length x)%nat) ix /\ x' = map (fun i => nth i x 0) ix /\ y' = map (fun i => nth i y 0) ix.
Proof.
  intros x y d m x' y' HL Sx Sy H. apply downsample_cases in H. destruct H as [[-> ->]|(k & _ & K1 & K2 & _ & _ & -> & -> & _)].
  - exists (seq 0 (length x)). split; [apply sorted_lt_nth; intros i j Hij; rewrite seq_length in Hij; rewrite !seq_nth by lia; lia|].
    split; [apply Forall_forall; intros i Hi; apply in_seq in Hi; lia|]. split; [|rewrite HL]; symmetry; apply map_nth_seq.
  - exists (final_indices (length x) k). destruct (indices_good (length x) k K1 K2) as (G1 & _ & _ & G4 & _). split; [exact G4|]. split; [exact G1|].
    rewrite (isort_sorted_perm x x (Permutation_refl _) Sx), (isort_sorted_perm y y (Permutation_refl _) Sy). split; reflexivity.
Qed.
Print Assumptions C69_points_partial.

(** In general not: x and y are sorted separately, so that a decreasing function becomes increasing. *)
Theorem C69_points_refuted : exists x y x' y', length x = length y /\ xy_downsample x y (DF_num 2) 1000 = Ok (x', y') /\
  exists i, (i < length x')%nat /\ ~ In (nth i x' 0, nth i y' 0) (combine x y).
Proof.
  destruct (C69_every_kth [0; 1; 2; 3] [3; 2; 1; 0] 2 1000 ltac:(lia) ltac:(simpl; lia) eq_refl) as (x' & y' & E & L1 & L2 & A & B).
  replace (INR 2) with 2 in E by (simpl; ring). exists [0; 1; 2; 3], [3; 2; 1; 0], x', y'. split; [reflexivity|]. split; [exact E|]. exists 0%nat.
  change (length x' = 2)%nat in L1. rewrite L1 in L2. split; [lia|].
  destruct (A [0; 1; 2; 3] ltac:(apply Permutation_refl) ltac:(repeat constructor; lra)) as [A1 _]. destruct (B [0; 1; 2; 3]) as [B1 _]; [|repeat constructor; lra|].
  { change [3; 2; 1; 0] with (rev [0; 1; 2; 3]). apply Permutation_sym, Permutation_rev. }
  rewrite (A1 0%nat) by lia. rewrite (B1 0%nat) by lia. simpl. intros [C|[C|[C|[C|[]]]]]; injection C; lra.
Qed.
Print Assumptions C69_points_refuted.

(** A factor of 1 is taken for True (1 == True in Python), and the data are thinned out. *)
Theorem C69_factor_one_refuted : exists x y x' y', length x = length y /\ xy_downsample x y (DF_num 1) 1000 = Ok (x', y') /\ (length x' < length x)%nat.
Proof.
  destruct (C69_size (repeat 0 1001) (repeat 0 1001) (DF_num 1) 1000 ltac:(auto) eq_refl ltac:(lia)) as [_ H]. rewrite repeat_length in H.
  destruct (H ltac:(lia)) as (x' & y' & E & _ & L). exists (repeat 0 1001), (repeat 0 1001), x', y'. split; [reflexivity|]. split; [exact E|]. rewrite repeat_length. lia.
Qed.
Print Assumptions C69_factor_one_refuted.

(** * C72: the transforms of probability paper *)
Theorem C72_inverse : forall p, valid_paper p ->
  (forall F, 0 < F < 1 -> on_paper p (forward p F) /\ inverse p (forward p F) = F) /\
  (forall r, on_paper p r -> 0 < inverse p r < 1 /\ forward p (inverse p r) = r).
Proof. intros p Hv. split; intros; [now apply inverse_forward|now apply forward_inverse]. Qed.
Print Assumptions C72_inverse.
Theorem C72_increasing : forall p, valid_paper p ->
  (forall F G, 0 < F -> F < G -> G < 1 -> forward p F < forward p G) /\
  (forall r s, on_paper p r -> on_paper p s -> r < s -> inverse p r < inverse p s).
Proof. intros p Hv. split; intros; [now apply forward_strict|now apply inverse_strict]. Qed.
Print Assumptions C72_increasing.
Example C72_witness : valid_paper P_Weibull /\ valid_paper (P_Beta (1 / 2) 3) /\ on_paper P_Weibull (- 5) /\ on_paper (P_Beta (1 / 2) 3) (1 / 3).
Proof. simpl. lra. Qed.

(** * C97: a distribution is a straight line on its own paper *)
Theorem C97_straight_line : forall d, valid d -> exists slope intercept, 0 < slope /\
  forall x, inside d x -> forward (own_paper d) (cdf d x) = slope * x_axis d x + intercept.
Proof.
  intros d Vd. destruct (F_ppf d (all_facts d Vd) (1 / 2) ltac:(lra)) as [Hin _]. exists (line_slope d), (line_intercept d).
  split; [exact (proj1 (straight_line d _ Vd Hin))|]. intros x Hx. now apply straight_line.
Qed.
Print Assumptions C97_straight_line.
(** What slope and intercept mean, for the two commonest papers. *)
Theorem C97_weibull_normal : (forall a b x, 0 < a -> 0 < b -> 0 < x -> ln (- ln (1 - cdf (Weibull a b 0) x)) = b * (ln x - ln a)) /\
  (forall m s x, 0 < s -> ppf (Normal 0 1) (cdf (Normal m s) x) = (x - m) / s).
Proof.
  split.
  - intros a b x Ha Hb Hx. assert (valid (Weibull a b 0)) as V by (simpl; lra). destruct (straight_line (Weibull a b 0) x V) as [_ E]; [unfold inside; simpl; lra|].
    cbn [own_paper forward line_slope line_intercept x_axis] in E. rewrite E, Rminus_0_r. ring.
  - intros m s x Hs. destruct (straight_line (Normal m s) x Hs) as [_ E]; [unfold inside; simpl; tauto|]. cbn [own_paper line_slope line_intercept x_axis] in E.
    change (ppf (Normal 0 1) (cdf (Normal m s) x)) with (forward P_Normal (cdf (Normal m s) x)). rewrite E. field. lra.
Qed.
Print Assumptions C97_weibull_normal.

(** * C98: transform_spaced *)

(** When it returns a list, and when it raises. *)
Theorem C98_errors : forall t yl yu num a b, (exists l, transform_spaced t yl yu num a b = Ok l) <->
  0 < yl < 1 /\ 0 < yu < 1 /\ (2 < num)%Z /\ named_paper t a b <> None.
Proof. exact spaced_errors. Qed.
Print Assumptions C98_errors.

(** The number of points, the bounds in either order, the order of the points. *)
Theorem C98_points : forall t yl yu num a b p l, named_paper t a b = Some p -> valid_paper p -> yl <> yu -> transform_spaced t yl yu num a b = Ok l ->
  Z.of_nat (length l) = num /\ nth 0 l 0 = Rmin yl yu /\ nth (length l - 1) l 0 = Rmax yl yu /\ strictly_increasing l.
Proof.
  intros t yl yu num a b p l Hp Hv Hne H. destruct (proj1 (spaced_errors t yl yu num a b) (ex_intro _ l H)) as (H1 & H2 & Hn & _).
  rewrite (spaced_list t yl yu num a b p Hp H1 H2 Hn) in H. injection H as <-.
  assert (valid_paper (used_paper p)) as Hv' by (destruct p; simpl in *; tauto).
  assert (0 < Rmin yl yu) by (apply Rmin_glb_lt; lra). assert (Rmax yl yu < 1) by (apply Rmax_lub_lt; lra).
  assert (Rmin yl yu < Rmax yl yu) by (unfold Rmin, Rmax; destruct (Rle_dec yl yu); lra).
  destruct (spaced_core (used_paper p) (Rmin yl yu) (Rmax yl yu) (Z.to_nat num) Hv') as (L & A & B & C & _); try assumption; [lia|].
  rewrite L. split; [lia|]. split; [exact A|]. split; [exact B|exact C].
Qed.
Print Assumptions C98_points.

(** Equal spacing on the named paper. Missing: Beta paper with different parameters, see C98_refuted. *)
Theorem C98_spacing_partial : forall t yl yu num a b p l, named_paper t a b = Some p -> valid_paper p -> (forall u v, p = P_Beta u v -> u = v) -> yl <> yu ->
  transform_spaced t yl yu num a b = Ok l -> equally_spaced (forward p) (Rmin yl yu) (Rmax yl yu) l.
Proof.
  intros t yl yu num a b p l Hp Hv Hb Hne H. destruct (proj1 (spaced_errors t yl yu num a b) (ex_intro _ l H)) as (H1 & H2 & Hn & _).
  rewrite (spaced_list t yl yu num a b p Hp H1 H2 Hn) in H. injection H as <-.
  assert (used_paper p = p) as ->. { destruct p as [| | | | | |u v]; try reflexivity. simpl. now rewrite (Hb u v eq_refl). }
  assert (0 < Rmin yl yu) by (apply Rmin_glb_lt; lra). assert (Rmax yl yu < 1) by (apply Rmax_lub_lt; lra).
  assert (Rmin yl yu < Rmax yl yu) by (unfold Rmin, Rmax; destruct (Rle_dec yl yu); lra).
  destruct (spaced_core p (Rmin yl yu) (Rmax yl yu) (Z.to_nat num) Hv) as (_ & _ & _ & _ & E); try assumption. lia.
Qed.
Print Assumptions C98_spacing_partial.

(** Beta: the parameters are passed to scipy in the wrong order. *)
Theorem C98_refuted : exists t yl yu num a b p l, named_paper t a b = Some p /\ valid_paper p /\ yl < yu /\ transform_spaced t yl yu num a b = Ok l /\ ~ equally_spaced (forward p) yl yu l.
Proof.
  destruct beta_not_spaced as (l & E & N). exists "beta"%string, (1 / 16), (9 / 16), 3%Z, (Some 1), (Some 2), (P_Beta 1 2), l.
  split; [reflexivity|]. split; [simpl; lra|]. split; [lra|]. split; [exact E|exact N].
Qed.
Print Assumptions C98_refuted.
Example C98_witness : named_paper "weibull" None None = Some P_Weibull /\ (forall u v, P_Weibull = P_Beta u v -> u = v) /\ exists l, transform_spaced "weibull" (9 / 10) (1 / 10) 5 None None = Ok l.
Proof. split; [reflexivity|]. split; [discriminate|]. apply C98_errors. repeat split; try lra; try lia; discriminate. Qed.

(** * C99: the limits of a probability plot *)

(** The x-axis. Missing: negative x on a distribution that has none, and equal values of x that are
    not positive (C99_x_refuted). *)
Theorem C99_x_partial : forall d s x, 0 < s -> x <> [] -> (log_x d = true -> forall v, In v x -> 0 < v) -> (signed_x d = false -> forall v, In v x -> 0 <= v) ->
  two_values x \/ (exists v, In v x /\ 0 < v) ->
  forall y xl yl, y <> [] -> probability_plot_xylims d s x y = Ok (xl, yl) -> shows xl x.
Proof.
  intros d s x Hs Hne Hlog Hsg Hone y xl yl Hy H. pose proof (rmin_in x Hne) as Im. pose proof (rmax_in x Hne) as IM.
  assert (rmin x <= rmax x) as Hle by (apply rmin_le; exact IM).
  destruct (x_limits_ok d s (rmin x) (rmax x) Hs Hle) as (l & u & E & Hlu & Hl & Hu).
  - intros L. now apply Hlog.
  - intros L. now apply Hsg.
  - intros _. destruct Hone as [(v & w & I1 & I2 & L)|(v & I1 & L)].
    + left. apply rmin_le in I1. apply rmax_ge in I2. lra.
    + right. apply rmax_ge in I1. lra.
  - unfold probability_plot_xylims in H. destruct x as [|x0 xs]; [congruence|]. destruct y as [|y0 ys]; [congruence|]. rewrite E in H. cbn [bind] in H. injection H as <- _.
    split; [exact Hlu|]. cbn [fst snd]. intros v Hv. pose proof (rmin_le _ _ Hv). pose proof (rmax_ge _ _ Hv). lra.
Qed.
Print Assumptions C99_x_partial.

(** The y-axis. Missing: equal values of y below spacing / (1 + spacing) (C99_y_refuted). *)
Theorem C99_y_partial : forall d s y, valid_paper (y_paper d) -> 0 < s < 1 -> y <> [] -> (forall v, In v y -> 0 < v < 1) ->
  two_values y \/ (forall v, In v y -> s / (1 + s) <= v) ->
  forall x xl yl, probability_plot_xylims d s x y = Ok (xl, yl) -> shows yl y /\ 0 < fst yl /\ snd yl < 1.
Proof.
  intros d s y Hv Hs Hne HF Hone x xl yl H. pose proof (rmin_in y Hne) as Im. pose proof (rmax_in y Hne) as IM.
  assert (rmin y <= rmax y) as Hle by (apply rmin_le; exact IM).
  pose proof (y_limits_ok d s (rmin y) (rmax y) Hv Hs (proj1 (HF _ Im)) Hle (proj2 (HF _ IM))) as Q.
  assert (yl = y_limits d s (rmin y) (rmax y)) as ->.
  { unfold probability_plot_xylims in H. destruct x as [|x0 xs]; [discriminate|]. destruct y as [|y0 ys]; [congruence|]. apply bind_ok in H. destruct H as (xl' & _ & H). now injection H. }
  destruct (y_limits d s (rmin y) (rmax y)) as [l u]. destruct Q as (Q1 & Q2 & Q3 & Q4 & Q5).
  - destruct Hone as [(v & w & I1 & I2 & L)|A]; [left; apply rmin_le in I1; apply rmax_ge in I2; lra|right; now apply A].
  - cbn [fst snd]. unfold shows. cbn [fst snd]. split; [|lra]. split; [lra|]. intros v Hv'. pose proof (rmin_le _ _ Hv'). pose proof (rmax_ge _ _ Hv'). lra.
Qed.
Print Assumptions C99_y_partial.

(** The margins: a share [s] of the range of the points, on the scales of the plot. A margin that the paper has no
    room for is left out; so is one below zero on a plot of positive times. *)
Lemma below_paper p r r0 : valid_paper p -> on_paper p r0 -> r <= r0 -> ~ on_paper p r -> inverse p r = 0.
Proof.
  intros Hv H0 H1 H2. assert (forall G y, y <= 0 -> on_pos G 0 y = 0) as HZ by (intros G y Hy; unfold on_pos; destruct (Rlt_dec 0 y); [lra|reflexivity]).
  destruct p; cbn [on_paper inverse cdf valid_paper] in *; try tauto; apply HZ; try lra.
Qed.
Lemma above_paper p r r0 : valid_paper p -> on_paper p r0 -> r0 <= r -> ~ on_paper p r -> inverse p r = 1.
Proof.
  intros Hv H0 H1 H2. destruct p; cbn [on_paper inverse cdf valid_paper] in *; try tauto; try lra. unfold on_pos. destruct (Rlt_dec 0 r); [|lra]. destruct (Rlt_dec r 1); [lra|reflexivity].
Qed.
Lemma x_limits_margins d s lo hi xl : 0 < s -> lo < hi -> x_limits d s lo hi = Ok xl ->
  if log_x d then 0 < lo /\ ln (fst xl) = ln lo - s * (ln hi - ln lo) /\ ln (snd xl) = ln hi + s * (ln hi - ln lo)
  else (fst xl = lo - s * (hi - lo) \/ lo - s * (hi - lo) < 0 /\ fst xl = 0) /\ snd xl = hi + s * (hi - lo).
Proof.
  intros Hs Hl H. unfold x_limits in H. destruct (log_x d) eqn:E.
  - unfold Rleb in H. destruct (Rle_dec lo 0) as [|Hlo]; [discriminate|]. assert (forall t, Rltb' (Rpower 10 t) 0 = false) as NN. { intros t. unfold Rltb'. pose proof (Rpower_gt_0 10 t). destruct (Rlt_dec _ _); [lra|reflexivity]. }
    pose proof ln_10_pos as L10. assert (log10 lo < log10 hi) as HL. { unfold log10, Rdiv. apply Rmult_lt_compat_r; [now apply Rinv_0_lt_compat|]. apply ln_increasing; lra. }
    destruct (Req_EM_T _ _) as [Q|Q].
    { exfalso. assert (0 < (log10 hi - log10 lo) * s) by (apply Rmult_lt_0_compat; lra). pose proof (pow10_lt (log10 lo - (log10 hi - log10 lo) * s) (log10 hi + (log10 hi - log10 lo) * s) ltac:(lra)). lra. }
    cbn [bind fst snd] in H. rewrite NN in H. cbn [andb] in H. injection H as <-. cbn [fst snd]. split; [lra|]. unfold Rpower. rewrite !ln_exp. unfold log10. split; field; lra.
  - destruct (Req_EM_T _ _) as [Q|Q]. { exfalso. assert (0 < (hi - lo) * s) by (apply Rmult_lt_0_compat; lra). lra. }
    cbn [bind fst snd] in H. unfold Rltb' in H. destruct (Rlt_dec (lo - (hi - lo) * s) 0) as [N|N]; [destruct (signed_x d)|]; cbn [andb negb] in H; injection H as <-; cbn [fst snd]; (split; [|ring]); [left; ring|right; split; lra|left; ring].
Qed.
Theorem C99_margins : forall D s x y x0 x1 y0 y1 xl yl, valid_paper (own_paper D) -> 0 < s < 1 -> least x0 x -> greatest x1 x -> x0 < x1 -> (signed_x (plot_of D) = false -> 0 <= x0) ->
  least y0 y -> greatest y1 y -> 0 < y0 -> y0 < y1 -> y1 < 1 -> probability_plot_xylims (plot_of D) s x y = Ok (xl, yl) ->
  (margin_below (x_scale D) s x0 x1 (fst xl) \/ x0 - s * (x1 - x0) < 0 /\ fst xl = 0) /\ margin_above (x_scale D) s x0 x1 (snd xl) /\
  (let f := forward (own_paper D) in
   (margin_below f s y0 y1 (fst yl) \/ ~ on_paper (own_paper D) (f y0 - s * (f y1 - f y0)) /\ fst yl = y0) /\
   (margin_above f s y0 y1 (snd yl) \/ ~ on_paper (own_paper D) (f y1 + s * (f y1 - f y0)) /\ snd yl = y1)).
Proof.
  intros D s x y x0 x1 y0 y1 xl yl Hv Hs Lx Gx Hx Hsg Ly Gy Hy0 Hy Hy1 H.
  assert (forall l m, least m l -> rmin l = m) as RL. { intros l m (I & L). apply Rle_antisym; [now apply rmin_le|]. apply L, rmin_in. intros ->. destruct I. }
  assert (forall l m, greatest m l -> rmax l = m) as RG. { intros l m (I & L). apply Rle_antisym; [|now apply rmax_ge]. apply L, rmax_in. intros ->. destruct I. }
  unfold probability_plot_xylims in H. destruct x as [|xa xr]; [now destruct Lx|]. destruct y as [|ya yr]; [now destruct Ly|]. rewrite (RL _ _ Lx), (RG _ _ Gx), (RL _ _ Ly), (RG _ _ Gy) in H.
  apply bind_ok in H. destruct H as (xl' & EX & H). injection H as -> <-.
  assert (log_x (plot_of D) = match D with Weibull _ _ _ | Lognormal _ _ _ | Loglogistic _ _ _ => true | _ => false end) as EL by now destruct D.
  pose proof (x_limits_margins _ s x0 x1 xl ltac:(lra) Hx EX) as HM. rewrite EL in HM. unfold margin_below, margin_above.
  assert ((x_scale D (fst xl) = x_scale D x0 - s * (x_scale D x1 - x_scale D x0) \/ x0 - s * (x1 - x0) < 0 /\ fst xl = 0) /\ x_scale D (snd xl) = x_scale D x1 + s * (x_scale D x1 - x_scale D x0)) as (M1 & M2) by (destruct D; cbn [x_scale]; tauto).
  split; [exact M1|]. split; [exact M2|]. clear M1 M2 HM EX. cbv zeta.
  assert (y_paper (plot_of D) = own_paper D) as EP by now destruct D. unfold y_limits. rewrite EP. set (p := own_paper D) in *. clearbody p.
  destruct (inverse_forward p y0 Hv ltac:(lra)) as [PA EA]. destruct (inverse_forward p y1 Hv ltac:(lra)) as [PB EB].
  pose proof (forward_strict p y0 y1 Hv Hy0 Hy Hy1) as HAB. set (A := forward p y0) in *. set (B := forward p y1) in *. assert (0 < (B - A) * s) by (apply Rmult_lt_0_compat; lra).
  pose proof (inverse_incr p (A - (B - A) * s) A Hv ltac:(lra)) as I1. pose proof (inverse_incr p B (B + (B - A) * s) Hv ltac:(lra)) as I2. rewrite EA in I1. rewrite EB in I2.
  rewrite (Rmult_comm s (B - A)). set (l := inverse p (A - (B - A) * s)) in *. set (u := inverse p (B + (B - A) * s)) in *. destruct (Req_EM_T u l) as [Q|Q]; [lra|].
  assert (Rltb' 0 y0 = true) as -> by (unfold Rltb'; destruct (Rlt_dec 0 y0); [reflexivity|lra]). assert (Rltb' y1 1 = true) as -> by (unfold Rltb'; destruct (Rlt_dec y1 1); [reflexivity|lra]). cbn [fst snd]. split.
  - destruct (classic (on_paper p (A - (B - A) * s))) as [O|O].
    + left. destruct (forward_inverse p _ Hv O) as (R1 & R2). fold l in R1, R2. destruct (Req_EM_T l 0); [lra|exact R2].
    + right. split; [exact O|]. pose proof (below_paper p (A - (B - A) * s) A Hv PA ltac:(lra) O) as Z. fold l in Z. destruct (Req_EM_T l 0); [reflexivity|contradiction].
  - destruct (classic (on_paper p (B + (B - A) * s))) as [O|O].
    + left. destruct (forward_inverse p _ Hv O) as (R1 & R2). fold u in R1, R2. destruct (Req_EM_T u 1); [lra|exact R2].
    + right. split; [exact O|]. pose proof (above_paper p (B + (B - A) * s) B Hv PB ltac:(lra) O) as Z. fold u in Z. destruct (Req_EM_T u 1); [reflexivity|contradiction].
Qed.
Print Assumptions C99_margins.

(** One failure with a small plotting position (e.g. one failure and ten suspensions: about 6 percent): the
    lower limit of the y-axis is negative. *)
Theorem C99_y_refuted : exists d x y xl yl, (forall v, In v y -> 0 < v < 1) /\ probability_plot_xylims d (1 / 10) x y = Ok (xl, yl) /\ fst yl < 0.
Proof.
  destruct (x_limits_ok L_normal (1 / 10) 1 1) as (l & u & E & _); try (simpl; intros; try discriminate; lra).
  exists L_normal, [1], [1 / 20], (l, u), (y_limits L_normal (1 / 10) (1 / 20) (1 / 20)). split; [intros v [<-|[]]; lra|]. split.
  - unfold probability_plot_xylims, rmin, rmax. cbn [fold_right]. rewrite E. reflexivity.
  - unfold y_limits. cbn [y_paper]. cbv zeta. set (A := forward P_Normal (1 / 20)). replace (A - (A - A) * (1 / 10)) with A by ring. replace (A + (A - A) * (1 / 10)) with A by ring.
    unfold A. rewrite (proj2 (inverse_forward P_Normal (1 / 20) I ltac:(lra))). destruct (Req_EM_T (1 / 20) (1 / 20)); [|congruence]. rewrite Rmin_right by lra.
    destruct (Req_EM_T (1 / 20 + 1 / 10 * (1 / 20 - 1)) 0); [lra|]. cbn [fst]. lra.
Qed.
Print Assumptions C99_y_refuted.

(** Equal negative values on a Normal plot: the limits are 0 and twice the value. *)
Theorem C99_x_refuted : exists d x y xl yl, signed_x d = true /\ probability_plot_xylims d (1 / 10) x y = Ok (xl, yl) /\ ~ shows xl x.
Proof.
  exists L_normal, [- 1], [1 / 2], (0, - 1 * 2), (y_limits L_normal (1 / 10) (1 / 2) (1 / 2)). split; [reflexivity|]. split.
  - unfold probability_plot_xylims, rmin, rmax, x_limits. cbn [fold_right log_x signed_x].
    replace (-1 - (-1 - -1) * (1 / 10)) with (-1) by ring. replace (-1 + (-1 - -1) * (1 / 10)) with (-1) by ring.
    destruct (Req_EM_T (-1) (-1)); [|congruence]. cbn [bind fst snd negb]. rewrite andb_false_r. reflexivity.
  - intros [C _]. simpl in C. lra.
Qed.
Print Assumptions C99_x_refuted.
Example C99_witness : two_values [1 / 4; 1 / 2] /\ (forall v, In v [1 / 4; 1 / 2] -> 0 < v < 1) /\ exists xl yl, probability_plot_xylims L_weibull (1 / 10) [1; 2] [1 / 4; 1 / 2] = Ok (xl, yl).
Proof.
  split; [exists (1 / 4), (1 / 2); simpl; lra|]. split; [intros v [<-|[<-|[]]]; lra|]. unfold probability_plot_xylims.
  destruct (x_limits_ok L_weibull (1 / 10) (rmin [1; 2]) (rmax [1; 2])) as (l & u & E & _).
  - lra.
  - apply rmin_le. apply rmax_in. discriminate.
  - intros _. destruct (rmin_in [1; 2] ltac:(discriminate)) as [<-|[<-|[]]]; lra.
  - intros _. destruct (rmin_in [1; 2] ltac:(discriminate)) as [<-|[<-|[]]]; lra.
  - discriminate.
  - rewrite E. eexists _, _. reflexivity.
Qed.
