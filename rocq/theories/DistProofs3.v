(** HF and CHF on arrays and scalars. *)
From Coquelicot Require Import Coquelicot.
From Coq Require Import List Arith Reals Lra Lia Bool Sorting.Sorted.
From Verif Require Import Base RealFacts Gauss Improper Ext DistModel DistSpec DistIntegrals DistProofs DistProofs2 PoFProofs PoFProofs2 PoFProofs3.
Import ListNotations.
Open Scope R_scope.

Lemma npow_pos x y : 0 < x -> npow x y = Fin (Rpower x y).
Proof. intros H. unfold npow. destruct (Rlt_dec 0 x); [reflexivity|contradiction]. Qed.
Lemma npow_zero y : npow 0 y = if Rlt_dec 0 y then Fin 0 else if Req_EM_T y 0 then Fin 1 else PInf.
Proof. unfold npow. destruct (Rlt_dec 0 0); [lra|]. destruct (Req_EM_T 0 0); [reflexivity|lra]. Qed.

Lemma ediv_fin x y : y <> 0 -> ediv (Fin x) (Fin y) = Fin (x / y).
Proof. intros H. unfold ediv. destruct (Req_EM_T y 0); [contradiction|reflexivity]. Qed.

Lemma at_end_div b v : ediv (at_end b v) (Fin 1) = at_end b v.
Proof.
  unfold at_end. destruct (Rlt_dec b 1); [unfold ediv; destruct (Rle_dec 0 1); [reflexivity|lra]|].
  destruct (Req_EM_T b 1); rewrite ediv_fin by lra; f_equal; field.
Qed.

Lemma scaled_zero g a : 0 < a -> (g - g) / a = 0.
Proof. intros. field. lra. Qed.

(** The formulas, at and above the location. *)
Lemma hf_formula_right d x : valid d -> cut_off_family d = false \/ location d <= x -> 0 < sf d x ->
  hf_formula d x = ediv (pdf d x) (Fin (sf d x)).
Proof.
  intros Hv Hx Hsf. destruct d; try reflexivity.
  - destruct Hv as (Ha & Hb & Hg). destruct Hx as [Hx|Hx]; [discriminate|]. cbn [location] in Hx. cbn [hf_formula pdf sf]. cbv zeta.
    destruct Hx as [Hx| <-].
    + pose proof (scaled_pos x gamma alpha Ha Hx) as Hy. set (y := (x - gamma) / alpha) in *.
      rewrite on_pos_pos by exact Hy. rewrite npow_pos by exact Hy. inner y; [lra|lra|].
      pose proof (exp_pos (- Rpower y beta)). rewrite ediv_fin by lra. simpl. f_equal. field. lra.
    + rewrite scaled_zero by exact Ha. rewrite on_pos_neg by lra. rewrite npow_zero. destruct (Rlt_dec 0 0); [lra|]. destruct (Req_EM_T 0 0); [|lra].
      rewrite at_end_div. unfold at_end. destruct (Rlt_dec 0 (beta - 1)), (Rlt_dec beta 1); try lra.
      * destruct (Req_EM_T beta 1); [lra|]. simpl. f_equal. ring.
      * destruct (Req_EM_T (beta - 1) 0); [lra|reflexivity].
      * destruct (Req_EM_T (beta - 1) 0), (Req_EM_T beta 1); try lra. simpl. f_equal. rewrite e1. ring.
  - destruct Hv as (Hl & Hg). assert (0 < 1 / Lambda) as Ha by (apply Rdiv_lt_0_compat; lra).
    destruct Hx as [Hx|Hx]; [discriminate|]. cbn [location] in Hx. cbn [hf_formula pdf sf]. cbv zeta.
    destruct Hx as [Hx| <-].
    + pose proof (scaled_pos x gamma _ Ha Hx) as Hy. set (y := (x - gamma) / (1 / Lambda)) in *.
      rewrite on_pos_pos by exact Hy. destruct (Rlt_dec y 0); [lra|]. pose proof (exp_pos (- y)). rewrite ediv_fin by lra. f_equal. field. lra.
    + rewrite scaled_zero by exact Ha. rewrite on_pos_neg by lra. destruct (Rlt_dec 0 0); [lra|]. rewrite Ropp_0, exp_0, ediv_fin by lra. f_equal. field. lra.
  - destruct Hv as (Ha & Hb & Hg). destruct Hx as [Hx|Hx]; [discriminate|]. cbn [location] in Hx. cbn [hf_formula pdf sf]. cbv zeta.
    destruct Hx as [Hx| <-].
    + pose proof (scaled_pos x gamma alpha Ha Hx) as Hy. set (y := (x - gamma) / alpha) in *.
      rewrite on_pos_pos by exact Hy. rewrite !npow_pos by exact Hy. inner y; [lra|lra|]. cbn [escale eadd].
      pose proof (Rpower_gt_0 y beta). rewrite !ediv_fin. f_equal. field. lra.
      * assert (0 < 1 / (1 + Rpower y beta)) by (apply Rdiv_lt_0_compat; lra). lra.
      * lra.
    + rewrite scaled_zero by exact Ha. rewrite on_pos_neg by lra. rewrite !npow_zero. destruct (Rlt_dec 0 0); [lra|]. destruct (Req_EM_T 0 0); [|lra].
      destruct (Rlt_dec 0 beta); [|lra]. cbn [eadd]. replace (1 + 0) with 1 by ring.
      rewrite at_end_div. unfold at_end. destruct (Rlt_dec 0 (beta - 1)), (Rlt_dec beta 1); try lra.
      * destruct (Req_EM_T beta 1); [lra|]. cbn [escale]. rewrite ediv_fin by lra. f_equal. field. lra.
      * destruct (Req_EM_T (beta - 1) 0); [lra|]. cbn [escale ediv]. destruct (Rle_dec 0 1); [reflexivity|lra].
      * destruct (Req_EM_T (beta - 1) 0), (Req_EM_T beta 1); try lra. cbn [escale]. rewrite ediv_fin by lra. f_equal. rewrite e1. field. lra.
  - cbn [hf_formula pdf sf]. cbv zeta. simpl in Hv. set (y := (x - mu) / sigma). pose proof (exp_pos (- exp y)).
    rewrite ediv_fin by lra. f_equal. unfold Rminus. rewrite exp_plus. field. lra.
Qed.

Lemma neg_log_pos s : 0 < s -> neg_log s = Fin (- ln s).
Proof. intros H. unfold neg_log. destruct (Rlt_dec 0 s); [reflexivity|contradiction]. Qed.

Lemma chf_formula_right d x : valid d -> cut_off_family d = false \/ location d <= x -> 0 < sf d x ->
  chf_formula d x = Fin (- ln (sf d x)).
Proof.
  intros Hv Hx Hsf. destruct d; try (apply neg_log_pos; exact Hsf).
  - destruct Hv as (Ha & Hb & Hg). destruct Hx as [Hx|Hx]; [discriminate|]. cbn [location] in Hx. cbn [chf_formula sf].
    destruct Hx as [Hx| <-].
    + pose proof (scaled_pos x gamma alpha Ha Hx) as Hy. rewrite on_pos_pos, npow_pos, ln_exp by exact Hy. f_equal. ring.
    + rewrite scaled_zero by exact Ha. rewrite on_pos_neg by lra. rewrite npow_zero. destruct (Rlt_dec 0 beta); [|lra]. rewrite ln_1. f_equal. ring.
  - destruct Hv as (Hl & Hg). assert (0 < 1 / Lambda) as Ha by (apply Rdiv_lt_0_compat; lra).
    destruct Hx as [Hx|Hx]; [discriminate|]. cbn [location] in Hx. cbn [chf_formula sf].
    destruct Hx as [Hx| <-].
    + pose proof (scaled_pos x gamma _ Ha Hx) as Hy. rewrite on_pos_pos, ln_exp by exact Hy. f_equal. field. lra.
    + rewrite scaled_zero by exact Ha. rewrite on_pos_neg by lra. rewrite ln_1. f_equal. ring.
  - destruct Hv as (Ha & Hb & Hg). destruct Hx as [Hx|Hx]; [discriminate|]. cbn [location] in Hx. cbn [chf_formula sf].
    destruct Hx as [Hx| <-].
    + pose proof (scaled_pos x gamma alpha Ha Hx) as Hy. rewrite on_pos_pos, npow_pos by exact Hy. cbn [eadd elog].
      pose proof (Rpower_gt_0 ((x - gamma) / alpha) beta). destruct (Rlt_dec 0 (1 + Rpower ((x - gamma) / alpha) beta)); [|lra]. f_equal.
      unfold Rdiv at 2. rewrite Rmult_1_l, ln_Rinv by lra. ring.
    + rewrite scaled_zero by exact Ha. rewrite on_pos_neg by lra. rewrite npow_zero. destruct (Rlt_dec 0 beta); [|lra]. cbn [eadd elog].
      replace (1 + 0) with 1 by ring. destruct (Rlt_dec 0 1); [|lra]. rewrite ln_1. f_equal. ring.
  - cbn [chf_formula sf]. rewrite ln_exp. f_equal. ring.
Qed.

(** The threshold. *)
Lemma below_first_tail g x X : below_first g (x :: X) -> below_first g X.
Proof. intros H i j Hij Hj. apply (H (S i) (S j)); [simpl; lia|exact Hj]. Qed.

Lemma zero_prefix_nth g : forall X Y i, below_first g X -> length Y = length X -> (i < length X)%nat ->
  nth i (zero_prefix g X Y) NaN = if Rlt_dec g (nth i X 0) then nth i Y NaN else Fin 0.
Proof.
  induction X as [|x X IH]; intros [|y Y] i Hb Hl Hi; try (simpl in *; lia).
  cbn [zero_prefix]. destruct (Rlt_dec g x) as [H|H].
  - assert (g < nth i (x :: X) 0) as Hgi.
    { apply Rnot_le_lt. intros C. destruct i as [|i]; [simpl in C; lra|].
      specialize (Hb 0%nat (S i) ltac:(simpl in *; lia) C). simpl in Hb. lra. }
    destruct (Rlt_dec g (nth i (x :: X) 0)); [reflexivity|contradiction].
  - destruct i as [|i].
    + simpl. destruct (Rlt_dec g x); [contradiction|reflexivity].
    + cbn [nth]. apply IH; [now apply below_first_tail with x|simpl in Hl; lia|simpl in Hi; lia].
Qed.

Lemma zero_prefix_length g : forall X Y, length (zero_prefix g X Y) = length Y.
Proof. induction X as [|x X IH]; intros [|y Y]; try reflexivity. cbn [zero_prefix]. destruct (Rlt_dec g x); simpl; [reflexivity|now rewrite IH]. Qed.

Lemma sorted_below_first g X : StronglySorted Rle X -> below_first g X.
Proof.
  induction 1 as [|x X S IH F]; intros i j Hij Hj; [simpl in Hij; lia|].
  destruct j as [|j]; [lia|]. destruct i as [|i].
  - simpl in *. rewrite Forall_forall in F. specialize (F (nth j X 0)). assert (In (nth j X 0) X) by (apply nth_In; lia). specialize (F H). lra.
  - apply (IH i j); [simpl in Hij; lia|exact Hj].
Qed.

Lemma array_nonneg d X i : array_ok d X = true -> is_signed d = false -> (i < length X)%nat -> 0 <= nth i X 0.
Proof.
  intros H Hs Hi. unfold array_ok in H. destruct X as [|x X]; [discriminate|]. rewrite Hs in H. apply andb_true_iff in H. destruct H as [H _].
  cbn [orb] in H. rewrite forallb_forall in H. specialize (H _ (nth_In _ 0 Hi)). unfold Rltb' in H. destruct (Rlt_dec (nth i (x :: X) 0) 0); [discriminate|lra].
Qed.

Lemma location_nonneg d : valid d -> 0 <= location d.
Proof. destruct d; simpl; lra. Qed.

(** What HF returns for each entry. *)
Lemma thresholded_nth d X f i : valid d -> array_ok d X = true -> cut_off_safe d X -> (i < length X)%nat ->
  nth i (thresholded d X (map f X)) NaN =
    if cut_off_family d then (if Rlt_dec 0 (location d) then if Rlt_dec (location d) (nth i X 0) then f (nth i X 0) else Fin 0 else f (nth i X 0)) else f (nth i X 0).
Proof.
  intros Hv Hok Hs Hi.
  assert (nth i (map f X) NaN = f (nth i X 0)) as E by (rewrite (nth_indep _ NaN (f 0)) by (rewrite map_length; exact Hi); apply map_nth).
  unfold thresholded.
  assert (forall g, below_first g X -> nth i (zeroise_below_gamma X (map f X) g) NaN = if Rlt_dec 0 g then if Rlt_dec g (nth i X 0) then f (nth i X 0) else Fin 0 else f (nth i X 0)) as G.
  { intros g Hb. unfold zeroise_below_gamma. destruct (Rlt_dec 0 g); [|exact E]. rewrite zero_prefix_nth; [|exact Hb|apply map_length|exact Hi]. now rewrite E. }
  assert (forall g, g = 0 -> nth i (zeroise_below_gamma X (map f X) g) NaN = if Rlt_dec 0 g then if Rlt_dec g (nth i X 0) then f (nth i X 0) else Fin 0 else f (nth i X 0)) as G0.
  { intros g ->. unfold zeroise_below_gamma. destruct (Rlt_dec 0 0); [lra|exact E]. }
  destruct Hs as [Hs|[Hs|Hs]].
  - destruct d; simpl in Hs; try discriminate; simpl; exact E.
  - destruct d; simpl in Hs; cbn [zeroised cut_off_family location]; try exact E; now apply G0.
  - destruct d; simpl in Hs; cbn [zeroised cut_off_family location]; try exact E; now apply G.
Qed.

Lemma thresholded_length d X f : length (thresholded d X (map f X)) = length X.
Proof.
  unfold thresholded, zeroise_below_gamma. destruct (zeroised d) as [g|]; [|apply map_length].
  destruct (Rlt_dec 0 g); [rewrite zero_prefix_length|]; apply map_length.
Qed.

Lemma sf_low d (x : R) : valid d -> Rbar_le x (supp_lo d) -> sf d x = 1.
Proof. intros Hv H. rewrite (F_sf d (all_facts d Hv)), (F_low d (all_facts d Hv) x H). ring. Qed.

Lemma supp_lo_location d : cut_off_family d = true -> supp_lo d = Finite (location d).
Proof. destruct d; simpl; intros H; reflexivity || discriminate. Qed.
Lemma cut_not_signed d : cut_off_family d = true -> is_signed d = false.
Proof. destruct d; simpl; intros H; reflexivity || discriminate. Qed.

(** HF and CHF against PDF and SF, entry by entry. *)
Lemma HF_entry d X i : valid d -> array_ok d X = true -> cut_off_safe d X -> (i < length X)%nat ->
  let x := nth i X 0 in 0 < sf d x -> (cut_off_family d = false \/ location d = 0 \/ x <> location d) ->
  nth i (thresholded d X (map (hf_formula d) X)) NaN = ediv (pdf d x) (Fin (sf d x)).
Proof.
  intros Hv Hok Hs Hi x Hsf Hne. rewrite thresholded_nth by assumption. fold x.
  destruct (cut_off_family d) eqn:C; [|apply hf_formula_right; auto].
  destruct (Rlt_dec 0 (location d)) as [L|L].
  - destruct (Rlt_dec (location d) x) as [M|M]; [apply hf_formula_right; [assumption|right; lra|assumption]|].
    assert (x < location d) as Hlt by (destruct Hne as [Hne|[Hne|Hne]]; [discriminate|lra|lra]).
    rewrite (F_out d (all_facts d Hv) x); [|left; rewrite supp_lo_location by exact C; exact Hlt].
    rewrite ediv_fin by lra. f_equal. field. lra.
  - apply hf_formula_right; [assumption| |assumption]. right.
    pose proof (array_nonneg d X i Hok (cut_not_signed d C) Hi). fold x in H. lra.
Qed.

Lemma CHF_entry d X i : valid d -> array_ok d X = true -> cut_off_safe d X -> (i < length X)%nat ->
  let x := nth i X 0 in 0 < sf d x ->
  nth i (thresholded d X (map (chf_formula d) X)) NaN = Fin (- ln (sf d x)).
Proof.
  intros Hv Hok Hs Hi x Hsf. rewrite thresholded_nth by assumption. fold x.
  destruct (cut_off_family d) eqn:C; [|apply chf_formula_right; auto].
  destruct (Rlt_dec 0 (location d)) as [L|L].
  - destruct (Rlt_dec (location d) x) as [M|M]; [apply chf_formula_right; [assumption|right; lra|assumption]|].
    rewrite sf_low; [rewrite ln_1; f_equal; ring|assumption|]. rewrite supp_lo_location by exact C. simpl. lra.
  - apply chf_formula_right; [assumption| |assumption]. right.
    pose proof (array_nonneg d X i Hok (cut_not_signed d C) Hi). fold x in H. lra.
Qed.

(** ** Location shift *)
Lemma unshifted_valid d : valid d -> valid (unshifted d).
Proof. destruct d; simpl; lra. Qed.

Lemma shift_functions d x : pdf d x = pdf (unshifted d) (x - location d) /\ cdf d x = cdf (unshifted d) (x - location d) /\
  sf d x = sf (unshifted d) (x - location d) /\ hf_formula d x = hf_formula (unshifted d) (x - location d) /\
  chf_formula d x = chf_formula (unshifted d) (x - location d).
Proof. destruct d; cbn [unshifted location]; cbn [hf_formula chf_formula pdf cdf sf]; rewrite !Rminus_0_r; repeat split. Qed.

Lemma inside_shift d x : inside d x <-> inside (unshifted d) (x - location d).
Proof. destruct d; unfold inside; cbn [unshifted location supp_lo supp_hi Rbar_lt]; try (rewrite Rminus_0_r; tauto); intuition lra. Qed.

Lemma shift_ppf d q : valid d -> 0 < q < 1 -> ppf d q = ppf (unshifted d) q + location d /\ isf d q = isf (unshifted d) q + location d.
Proof.
  intros Hv Hq. assert (forall q, 0 < q < 1 -> ppf d q = ppf (unshifted d) q + location d) as P.
  { intros p Hp. destruct (F_ppf _ (all_facts _ (unshifted_valid d Hv)) p Hp) as [I E].
    set (z := ppf (unshifted d) p) in *.
    assert (inside d (z + location d)) as I2 by (apply inside_shift; replace (z + location d - location d) with z by ring; exact I).
    pose proof (ppf_cdf d Hv _ I2) as Q. destruct (shift_functions d (z + location d)) as (_ & C & _).
    replace (z + location d - location d) with z in C by ring. rewrite C, E in Q. exact Q. }
  split; [now apply P|]. rewrite (F_isf _ (all_facts d Hv)), (F_isf _ (all_facts _ (unshifted_valid d Hv))) by exact Hq. apply P. lra.
Qed.

Lemma shift_median d : valid d -> median d = median (unshifted d) + location d.
Proof. intros Hv. destruct (shift_ppf d (1 / 2) Hv ltac:(lra)) as [E _]. destruct d; try exact E; cbn [median unshifted location]; ring. Qed.
Lemma shift_mode d m0 : mode (unshifted d) = Some m0 -> mode d = Some (m0 + location d).
Proof.
  destruct d; cbn [mode unshifted location]; intros H;
    try solve [injection H as <-; f_equal; (ring || (simpl pow; ring) || (destruct (Rle_dec 1 beta); ring))].
  rewrite H. f_equal. ring.
Qed.

Lemma HF_below d X i : valid d -> array_ok d X = true -> cut_off_safe d X -> (i < length X)%nat -> supp_lo d = Finite (location d) ->
  nth i X 0 < location d ->
  nth i (thresholded d X (map (hf_formula d) X)) NaN = Fin 0 /\ nth i (thresholded d X (map (chf_formula d) X)) NaN = Fin 0.
Proof.
  intros Hv Hok Hs Hi Hl Hlt. assert (sf d (nth i X 0) = 1) as S by (apply sf_low; [exact Hv|rewrite Hl; left; exact Hlt]).
  split.
  - rewrite HF_entry; try assumption.
    + rewrite S, (F_out d (all_facts d Hv)); [|left; rewrite Hl; exact Hlt]. rewrite ediv_fin by lra. f_equal. field.
    + rewrite S. lra.
    + right. right. lra.
  - rewrite CHF_entry; try assumption; rewrite S; [rewrite ln_1; f_equal; ring|lra].
Qed.

Lemma HF_above d X i : valid d -> array_ok d X = true -> cut_off_safe d X -> (i < length X)%nat ->
  location d < nth i X 0 ->
  nth i (thresholded d X (map (hf_formula d) X)) NaN = hf_formula (unshifted d) (nth i X 0 - location d) /\
  nth i (thresholded d X (map (chf_formula d) X)) NaN = chf_formula (unshifted d) (nth i X 0 - location d).
Proof.
  intros Hv Hok Hs Hi Hlt. destruct (shift_functions d (nth i X 0)) as (_ & _ & _ & A & B). rewrite !thresholded_nth by assumption. rewrite <- A, <- B.
  destruct (cut_off_family d), (Rlt_dec 0 (location d)), (Rlt_dec (location d) (nth i X 0)); split; reflexivity || contradiction.
Qed.

Lemma unshifted_single d x : location (unshifted d) = 0 /\ array_ok (unshifted d) [x] = array_ok d [x].
Proof. destruct d; split; reflexivity. Qed.

Lemma thresholded_zero d X Y : location d = 0 -> thresholded d X Y = Y.
Proof.
  intros H. unfold thresholded. destruct d; cbn [zeroised location] in *; try reflexivity; subst; unfold zeroise_below_gamma; destruct (Rlt_dec 0 0); lra || reflexivity.
Qed.

(** ** Scalars *)
Lemma py_pow_pos x y : 0 < x -> py_pow x y = Ok (Some (Rpower x y)).
Proof. intros H. unfold py_pow. destruct (Rlt_dec 0 x); [reflexivity|contradiction]. Qed.

Lemma scalar_agrees d x : valid d -> array_ok d [x] = true -> (cut_off_family d = false \/ (location d = 0 /\ x <> 0)) ->
  exists h c, HF_scalar d x = Ok (Some h) /\ HF d [x] = Ok [h] /\ CHF_scalar d x = Ok (Some c) /\ CHF d [x] = Ok [c].
Proof.
  intros Hv Hok Hc. exists (hf_formula d x), (chf_formula d x). unfold HF, CHF. rewrite Hok.
  assert (forall A (v : A), scalar_threshold d v = Ok v) as T.
  { intros A v. unfold scalar_threshold. destruct Hc as [Hc|[Hc _]]; destruct d; cbn [cut_off_family location zeroised] in *; try discriminate; try reflexivity; subst; destruct (Rlt_dec 0 0); lra || reflexivity. }
  assert (forall f, thresholded d [x] (map f [x]) = [f x]) as U.
  { intros f. destruct Hc as [Hc|[Hc _]]; [|now rewrite thresholded_zero]. unfold thresholded. destruct d; simpl in *; try discriminate; reflexivity. }
  rewrite !U.
  destruct d; cbn [HF_scalar CHF_scalar]; try (rewrite !T; repeat split; reflexivity).
  - destruct Hc as [Hc|[Hg Hx]]; [discriminate|]. simpl in Hg. subst gamma. destruct Hv as (Ha & Hb & _).
    pose proof (array_nonneg _ _ 0 Hok eq_refl ltac:(simpl; lia)) as Hx0. simpl in Hx0.
    assert (0 < (x - 0) / alpha) as Hy by (apply scaled_pos; lra).
    rewrite !py_pow_pos by exact Hy. cbn [bind option_map]. rewrite !T. cbn [hf_formula chf_formula]. rewrite !npow_pos by exact Hy. repeat split; reflexivity.
  - destruct Hc as [Hc|[Hg Hx]]; [discriminate|]. simpl in Hg. subst gamma. destruct Hv as (Ha & Hb & _).
    pose proof (array_nonneg _ _ 0 Hok eq_refl ltac:(simpl; lia)) as Hx0. simpl in Hx0.
    assert (0 < (x - 0) / alpha) as Hy by (apply scaled_pos; lra). pose proof (Rpower_gt_0 ((x - 0) / alpha) beta) as Hp.
    rewrite !py_pow_pos by exact Hy. cbn [bind]. destruct (Req_EM_T (1 + Rpower ((x - 0) / alpha) beta) 0); [lra|].
    rewrite !T. cbn [hf_formula chf_formula]. rewrite !npow_pos by exact Hy. cbn [escale eadd]. rewrite ediv_fin by lra. repeat split; reflexivity.
Qed.
