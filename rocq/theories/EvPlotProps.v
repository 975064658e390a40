(** C169: what the histogram and the P-P plots of Fit_Everything show. *)
From Coquelicot Require Import Coquelicot.
From Coq Require Import List Arith ZArith Reals Bool Lra Lia Permutation Sorted.
From Verif Require Import Base RealFacts Gauss Ext RList NonparModel NonparSpec NonparProofs NonparProofs4 NonparProps RepairModel RepairProofs RepairProofs2 TestingModel TestingSpec TestingProofs TestingProofs4 CIModel CIProofs MCFProofs PlotModel PlotProofs PlotProps EvPlotModel EvPlotSpec EvPlotProofs.
Import ListNotations.
Open Scope R_scope.

Lemma width_zero X : X <> [] -> 2 * iqr X * Rpower (INR (length X)) (- (1 / 3)) = 0 <-> percentile (3 / 4) X = percentile (1 / 4) X.
Proof.
  intros _. assert (0 < Rpower (INR (length X)) (- (1 / 3))) as HP by apply exp_pos. unfold iqr. set (p := Rpower _ _) in *. split; intros H.
  - apply Rmult_integral in H. lra.
  - rewrite H. ring.
Qed.

Lemma percentile_const c X q : X <> [] -> 0 <= q <= 1 -> (forall x, In x X -> x = c) -> percentile q X = c.
Proof.
  intros Hne Hq Hc. unfold percentile. cbv zeta. set (s := isort Rleb X). assert (length s = length X) as L by apply isort_length.
  assert (forall i d, (i < length X)%nat -> nth i s d = c) as Hs.
  { intros i d Hi. apply Hc. apply (Permutation_in _ (Permutation_sym (isort_perm Rleb X))). apply nth_In. rewrite isort_length. exact Hi. }
  set (h := q * INR (length X - 1)). set (i := Z.to_nat (rfloor h)).
  assert (0 < length X)%nat as HX by (destruct X; [congruence|simpl; lia]).
  assert (i < length X)%nat as Hi.
  { unfold i. pose proof (pos_INR (length X - 1)). assert (0 <= rfloor h)%Z as H0 by (apply rfloor_spec; unfold h; nra).
    assert (IZR (rfloor h) <= h) as H1 by (apply rfloor_spec; lia). assert (IZR (rfloor h) <= IZR (Z.of_nat (length X - 1))) as H2 by (rewrite <- INR_IZR_INZ; unfold h in *; nra). apply le_IZR in H2. lia. }
  rewrite (Hs i 0 Hi). destruct (Nat.lt_ge_cases (S i) (length X)) as [A|A]; [rewrite (Hs (S i) c A); ring|]. rewrite nth_overflow by lia. ring.
Qed.
Lemma span_pos X : X <> [] -> percentile (1 / 4) X < percentile (3 / 4) X -> rmin X < rmax X.
Proof.
  intros Hne H. destruct (Rlt_le_dec (rmin X) (rmax X)) as [A|A]; [exact A|exfalso].
  assert (forall x, In x X -> x = rmin X) as Hc by (intros x Hx; pose proof (rmin_le X x Hx); pose proof (rmax_ge X x Hx); lra).
  rewrite (percentile_const (rmin X) X (1 / 4)), (percentile_const (rmin X) X (3 / 4)) in H by (assumption || lra). lra.
Qed.

(** The histogram is drawn, with bars that show the data, whenever the interquartile range of
    the failures is positive. *)
Theorem C169_bars_partial : forall f rc rows,
  is_sorting_of (all_rows f rc) rows -> Forall (Rlt 0) f -> (2 <= length f)%nat -> percentile (1 / 4) f < percentile (3 / 4) f ->
  exists p times ecdf, histogram_plot f (length rc) rows = inl p /\ plotting_positions_sorted None rows = Ok (times, ecdf) /\
    tiles (rmin f) (rmax f) (h_pdf p) /\ tiles (rmin f) (rmax f) (h_cdf p) /\
    (forall m, (length (h_pdf p) <= m)%nat <-> rmax f - rmin f <= INR m * (2 * (percentile (3 / 4) f - percentile (1 / 4) f) * Rpower (INR (length f)) (- (1 / 3)))) /\
    (forall i, (i < length (h_pdf p))%nat ->
       b_height (nth i (h_pdf p) no_bar) * b_width (nth i (h_pdf p) no_bar) = INR (count (in_bar (h_pdf p) i) f) / INR (length f + length rc)) /\
    (forall i, (i < length (h_cdf p))%nat ->
       b_height (nth i (h_cdf p) no_bar) = INR (count (up_to_bar (h_cdf p) i) f) / INR (length f) * rmax ecdf) /\
    Forall (fun b => inside (h_xlim p) (left_edge b) /\ inside (h_xlim p) (right_edge b)) (h_pdf p ++ h_cdf p) /\
    Forall (fun b => inside (h_pdf_ylim p) 0 /\ inside (h_pdf_ylim p) (b_height b)) (h_pdf p) /\
    Forall (fun b => inside (h_cdf_ylim p) 0 /\ inside (h_cdf_ylim p) (b_height b)) (h_cdf p).
Proof.
  intros f rc rows HS Hf Hn Hq.
  destruct (plotting_positions_succeeds None rows) as (times & ecdf & EP); [simpl; lra|rewrite (sorting_failed f rc rows HS); lia|left; simpl; lra|].
  assert (f <> []) as Hne by (intros ->; simpl in Hn; lia). pose proof (span_pos f Hne Hq) as Hr.
  set (bw := 2 * iqr f * Rpower (INR (length f)) (- (1 / 3))).
  assert (0 < bw) as Hbw. { unfold bw. apply Rmult_lt_0_compat; [unfold iqr; lra|apply exp_pos]. }
  assert (exists k, (0 < k)%nat /\ num_bins f = inl k /\ forall m, (k <= m)%nat <-> rmax f - rmin f <= INR m * bw) as (k & Hk & EK & Hfd).
  { exists (Z.to_nat (rceil ((rmax f - rmin f) / bw))). split.
    - assert (0 < (rmax f - rmin f) / bw) by (apply Rdiv_lt_0_compat; lra). destruct (Z.le_gt_cases 1 (rceil ((rmax f - rmin f) / bw))) as [A|A]; [lia|exfalso].
      assert (rceil ((rmax f - rmin f) / bw) <= 0)%Z as B by lia. apply rceil_spec in B. lra.
    - split; [unfold num_bins; fold bw; cbv zeta; destruct (Req_EM_T bw 0); [lra|reflexivity]|].
      intros m. transitivity (rceil ((rmax f - rmin f) / bw) <= Z.of_nat m)%Z; [lia|]. rewrite rceil_spec, <- INR_IZR_INZ.
      assert ((rmax f - rmin f) / bw * bw = rmax f - rmin f) as E by (field; lra). set (v := (rmax f - rmin f) / bw) in *. rewrite <- E. split; intros; nra. }
  unfold histogram_plot. rewrite EK. destruct k as [|k']; [lia|]. set (k := S k') in *. rewrite EP.
  set (bins := linspace (rmin f) (rmax f) (S k)). cbv zeta.
  eexists. exists times, ecdf. split; [reflexivity|]. split; [reflexivity|]. cbn [h_pdf h_cdf h_xlim h_pdf_ylim h_cdf_ylim].
  assert (0 < INR (length f + length rc)) as HT by (apply lt_0_INR; lia). assert (0 < INR (length f)) as HF by (apply lt_0_INR; lia).
  set (hp := map (fun h => h * (INR (length f) / INR (length f + length rc))) (density bins f)).
  set (hc := map (fun c => c * rmax ecdf) (map (fun c => c / rsum (density bins f)) (cumsum 0 (density bins f)))).
  assert (length (density bins f) = k) as LD by (unfold bins; rewrite density_eq, map_length by assumption; now apply counts_length).
  assert (length hp = k) as Lp by (unfold hp; now rewrite map_length).
  assert (length hc = k) as Lc by (unfold hc; rewrite !map_length, cumsum_length; exact LD).
  split; [now apply bars_tile|]. split; [now apply bars_tile|].
  assert (length (bars (centres bins) (np_diff bins) hp) = k) as -> by now apply bars_length. assert (length (bars (centres bins) (np_diff bins) hc) = k) as -> by now apply bars_length.
  split; [exact Hfd|]. split; [intros i Hi; exact (pdf_area f k Hk Hr (INR (length f + length rc)) hp i Hi eq_refl HT)|]. split; [intros i Hi; exact (cdf_height f k Hk Hr (rmax ecdf) hc i Hi eq_refl)|].
  assert (0 < rmin f) as Hmin by (rewrite Forall_forall in Hf; apply Hf, rmin_in, Hne).
  assert (forall h, length h = k -> forall b, In b (bars (centres bins) (np_diff bins) h) -> rmin f <= left_edge b <= rmax f /\ rmin f <= right_edge b <= rmax f) as HB.
  { intros h Hh b Hb. apply (In_nth _ _ no_bar) in Hb as (i & Hi & <-). unfold bins in Hi. rewrite bars_length in Hi by assumption.
    destruct (bars_edges f k Hk Hr h i Hh Hi) as [EL ER]. fold bins in EL, ER. rewrite EL, ER. unfold bins. rewrite !bins_nth by (assumption || lia).
    pose proof (w_pos f k Hk Hr) as Hw. assert (0 < INR k) as HK by (apply lt_0_INR; lia). pose proof (pos_INR i). pose proof (pos_INR (S i)).
    assert (INR i <= INR k) by (apply le_INR; lia). assert (INR (S i) <= INR k) by (apply le_INR; lia).
    set (w := (rmax f - rmin f) / INR k) in *. assert (INR k * w = rmax f - rmin f) by (unfold w; field; lra). nra. }
  split. { apply Forall_forall. intros b Hb. unfold inside. cbn [fst snd]. apply in_app_iff in Hb as [Hb|Hb]; apply HB in Hb; try assumption; lra. }
  split; cycle 1.
  { assert (0 <= rmax ecdf) as He.
    { destruct (C09_plotting_positions_increasing f rc None rows times ecdf HS ltac:(simpl; lra) EP) as [_ He]. destruct ecdf as [|e0 er]; [simpl; lra|]. rewrite Forall_forall in He.
      assert (In (rmax (e0 :: er)) (e0 :: er)) as Hi by now apply rmax_in. apply He in Hi. lra. }
    apply Forall_forall. intros b Hb. apply (In_nth _ _ no_bar) in Hb as (i & Hi & <-). assert (i < k)%nat as Hik by (unfold bins in Hi; rewrite bars_length in Hi by assumption; exact Hi).
    unfold inside. cbn [fst snd]. unfold bins. rewrite (cdf_height f k Hk Hr (rmax ecdf) hc i Hik eq_refl). match goal with |- context [count ?t f] => set (c := count t f); assert (c <= length f)%nat as Hc by apply filter_length_le end.
    apply le_INR in Hc. pose proof (pos_INR c). assert (0 <= INR c / INR (length f) <= 1) as Hq1. { split; [apply Rdiv_le_0_compat; lra|]. apply Rmult_le_reg_r with (INR (length f)); [exact HF|]. unfold Rdiv. rewrite Rmult_assoc, Rinv_l by lra. lra. }
    set (u := INR c / INR (length f)) in *. nra. }
  apply Forall_forall. intros b Hb. apply (In_nth _ _ no_bar) in Hb as (i & Hi & <-). unfold bins in Hi. rewrite bars_length in Hi by assumption.
  unfold inside. unfold bins. rewrite bars_nth by assumption. cbn [b_height fst snd].
  assert (forall v, In v hp -> 0 <= v) as Hpos.
  { intros v Hv. unfold hp, bins in Hv. rewrite density_eq in Hv by assumption. rewrite map_map in Hv. apply in_map_iff in Hv as (n & <- & _).
    pose proof (pos_INR n). pose proof (w_pos f k Hk Hr). apply Rmult_le_pos; [apply Rdiv_le_0_compat; [lra|nra]|apply Rdiv_le_0_compat; lra]. }
  assert (In (nth i hp 0) hp) as Hin by (apply nth_In; lia). pose proof (Hpos _ Hin). pose proof (rmax_ge hp _ Hin). lra.
Qed.
Print Assumptions C169_bars_partial.

(** With an interquartile range of zero there is no histogram: OverflowError. *)
Theorem C169_no_histogram : forall f (rc : list R) rows, f <> [] -> rmin f <> rmax f ->
  percentile (3 / 4) f = percentile (1 / 4) f -> histogram_plot f (length rc) rows = inr Overflow_error.
Proof.
  intros f rc rows Hne Hr Hq. unfold histogram_plot, num_bins. cbv zeta. apply (width_zero f Hne) in Hq. rewrite Hq.
  destruct (Req_EM_T 0 0); [|congruence]. destruct (Req_EM_T (rmax f - rmin f) 0); [lra|reflexivity].
Qed.
Print Assumptions C169_no_histogram.

Lemma floor_at x (z : Z) : IZR z <= x < IZR z + 1 -> rfloor x = z.
Proof.
  intros [H1 H2]. apply Z.le_antisymm.
  - apply Z.lt_succ_r. destruct (Z.lt_ge_cases (rfloor x) (Z.succ z)) as [A|A]; [exact A|exfalso]. apply rfloor_spec in A. rewrite succ_IZR in A. lra.
  - now apply rfloor_spec.
Qed.

(** Not every data set that can be fitted has a histogram: five of these seven failure times
    are equal. *)
Theorem C169_histogram_refuted : exists f rows, is_sorting_of (all_rows f []) rows /\ Forall (Rlt 0) f /\ (2 <= length f)%nat /\ rmin f < rmax f /\
  histogram_plot f 0 rows = inr Overflow_error.
Proof.
  exists [1; 2; 2; 2; 2; 2; 3], (map (fun t => (t, true)) [1; 2; 2; 2; 2; 2; 3]).
  assert (StronglySorted Rle [1; 2; 2; 2; 2; 2; 3]) as HS by (repeat first [apply SSorted_cons|apply SSorted_nil|apply Forall_cons|apply Forall_nil]; lra).
  assert (rmin [1; 2; 2; 2; 2; 2; 3] <= 1) as Em by (apply rmin_le; left; reflexivity).
  assert (3 <= rmax [1; 2; 2; 2; 2; 2; 3]) as EM by (apply rmax_ge; do 6 right; left; reflexivity).
  split. { split; [simpl; apply Permutation_refl|]. repeat first [apply SSorted_cons|apply SSorted_nil|apply Forall_cons|apply Forall_nil]; simpl; lra. }
  split; [repeat first [apply SSorted_cons|apply SSorted_nil|apply Forall_cons|apply Forall_nil]; lra|]. split; [simpl; lia|]. split; [lra|].
  apply (C169_no_histogram _ []); [discriminate|lra|].
  unfold percentile. rewrite (isort_sorted_perm _ [1; 2; 2; 2; 2; 2; 3] (Permutation_refl _) HS). cbv zeta.
  rewrite (floor_at (3 / 4 * INR (length [1; 2; 2; 2; 2; 2; 3] - 1)) 4) by (simpl; lra). rewrite (floor_at (1 / 4 * INR (length [1; 2; 2; 2; 2; 2; 3] - 1)) 1) by (simpl; lra).
  change (Z.to_nat 4) with 4%nat. change (Z.to_nat 1) with 1%nat. cbn [nth]. ring.
Qed.
Print Assumptions C169_histogram_refuted.

(** ** P-P plots *)
Lemma sorted_times f rc rows es : is_sorting_of (all_rows f rc) rows -> kaplan_meier (95 / 100) rows = Ok es -> isort Rleb (f ++ rc) = map e_time es.
Proof.
  intros HS EK. destruct (C13_kaplan_meier_survival f rc _ rows es HS EK) as (_ & _ & EM & _). destruct HS as [HP HS].
  assert (map e_time es = map fst rows) as -> by (rewrite <- EM, map_map; reflexivity).
  apply isort_sorted_perm.
  - apply (Permutation_map fst) in HP. unfold all_rows in HP. rewrite map_app, !map_map in HP. cbn [fst] in HP. now rewrite !map_id in HP.
  - clear HP EM EK. induction HS as [|r rs HS IH HF]; [constructor|]. cbn [map]. constructor; [exact IH|]. rewrite Forall_map. exact HF.
Qed.

(** Every point of a P-P plot pairs the Kaplan-Meier failure probability and the fitted
    probability at one observed time, and lies within the plot's limits. *)
Theorem C169_pp : forall cdf f rc rows ds p,
  is_sorting_of (all_rows f rc) rows -> (forall u v, u <= v -> cdf u <= cdf v) -> (forall u, 0 <= cdf u <= 1) ->
  P_P_plot cdf f rc rows ds = Ok p ->
  exists es, kaplan_meier (95 / 100) rows = Ok es /\
    Forall (fun q => (exists e, In e es /\ fst q = 1 - e_est e /\ snd q = cdf (e_time e)) /\ inside (pp_lim p) (fst q) /\ inside (pp_lim p) (snd q)) (pp_points p) /\
    (ds = DF_False -> pp_points p = map (fun e => (1 - e_est e, cdf (e_time e))) es).
Proof.
  intros cdf f rc rows ds p HS Hm H01 H. unfold P_P_plot in H. destruct (kaplan_meier (95 / 100) rows) as [es|] eqn:EK; [|discriminate]. cbn [bind] in H.
  pose proof (sorted_times f rc rows es HS EK) as ET. rewrite ET in H. exists es. split; [reflexivity|].
  destruct (C13_kaplan_meier_survival f rc _ rows es HS EK) as (_ & _ & EM & Hdec & Hrange & _).
  set (xx := map (fun e => 1 - e_est e) es) in *. rewrite map_map in H. set (yy := map (fun e => cdf (e_time e)) es) in *.
  cbv zeta in H. set (lim := if Rltb (rmax xx) (rmax yy) then rmax yy else rmax xx) in *.
  destruct (xy_downsample xx yy ds 1000) as [[xs ys]|] eqn:ED; [|discriminate]. cbn [bind] in H.
  assert (length xx = length yy) as HL by (unfold xx, yy; now rewrite !map_length).
  assert (StronglySorted Rle xx) as Sx.
  { unfold xx. apply StronglySorted_inv in Hdec. destruct Hdec as [Hd _]. clear - Hd. induction es as [|e es IH]; [constructor|]. cbn [map] in *. apply StronglySorted_inv in Hd. destruct Hd as [H1 H2]. constructor; [now apply IH|].
    rewrite Forall_map in *. eapply Forall_impl; [|exact H2]. cbn. intros a Ha. lra. }
  assert (StronglySorted Rle yy) as Sy.
  { unfold yy. rewrite <- (map_map e_time cdf). rewrite <- ET. pose proof (isort_R_sorted (f ++ rc)) as HI. clear - HI Hm. induction HI as [|r rs HI IH HF]; [constructor|]. cbn [map]. constructor; [exact IH|]. rewrite Forall_map. eapply Forall_impl; [|exact HF]. cbn. intros a Ha. now apply Hm. }
  destruct (C69_points_partial xx yy ds _ xs ys HL Sx Sy ED) as (ix & _ & Hix & Exs & Eys).
  assert (Hlim : (forall v, In v xx -> v <= lim) /\ (forall v, In v yy -> v <= lim)).
  { unfold lim. destruct (Rltb (rmax xx) (rmax yy)) eqn:E; [apply Rltb_true in E|apply Rltb_false in E]; split; intros v Hv; [pose proof (rmax_ge xx v Hv)|pose proof (rmax_ge yy v Hv)|pose proof (rmax_ge xx v Hv)|pose proof (rmax_ge yy v Hv)]; lra. }
  assert (p = mkPP (combine xs ys) (- lim * (5 / 100), lim * (105 / 100))) as ->.
  { apply (f_equal (fun r => match r with Ok c => c | Err _ => p end)) in H. symmetry. exact H. }
  cbn [pp_points pp_lim]. split.
  - apply Forall_forall. intros q Hq. rewrite Exs, Eys in Hq.
    assert (exists i, In i ix /\ q = (nth i xx 0, nth i yy 0)) as (i & Hi & ->).
    { clear - Hq. induction ix as [|i ix IH]; [destruct Hq|]. cbn [map combine] in Hq. destruct Hq as [<-|Hq]; [exists i; split; [now left|reflexivity]|]. destruct (IH Hq) as (j & Hj & ->). exists j. split; [now right|reflexivity]. }
    rewrite Forall_forall in Hix. specialize (Hix i Hi). cbn [fst snd]. assert (i < length es)%nat as Hie by (unfold xx in Hix; now rewrite map_length in Hix).
    destruct es as [|e0 es']; [simpl in Hie; lia|]. set (es := e0 :: es') in *.
    assert (In (nth i xx 0) xx) as Ix by (apply nth_In; lia). assert (In (nth i yy 0) yy) as Iy by (apply nth_In; lia).
    pose proof (proj1 Hlim _ Ix). pose proof (proj2 Hlim _ Iy).
    assert (nth i xx 0 = 1 - e_est (nth i es e0)) as Ex by (unfold xx; apply (nth_map_in (fun e => 1 - e_est e)); exact Hie).
    assert (nth i yy 0 = cdf (e_time (nth i es e0))) as Ey by (unfold yy; apply (nth_map_in (fun e => cdf (e_time e))); exact Hie).
    assert (In (nth i es e0) es) as Ie by now apply nth_In. rewrite Forall_forall in Hrange. pose proof (Hrange _ Ie) as B. cbn beta in B. pose proof (H01 (e_time (nth i es e0))).
    split; [exists (nth i es e0); repeat split; assumption|]. unfold inside. cbn [fst snd]. lra.
  - intros ->. cbn in ED. assert (xs = xx /\ ys = yy) as [-> ->]. { apply (f_equal (fun r => match r with Ok c => c | Err _ => (xs, ys) end)) in ED. apply pair_equal_spec in ED. destruct ED. split; congruence. }
    unfold xx, yy. clear. induction es as [|e es IH]; [reflexivity|]. cbn [map combine]. f_equal. exact IH.
Qed.
Print Assumptions C169_pp.

(** The title says that the fitted probability is on the x axis and the Kaplan-Meier one on
    the y axis.  It is the other way round. *)
Theorem C169_axes_refuted : exists cdf f rows es p,
  is_sorting_of (all_rows f []) rows /\ (forall u v, u <= v -> cdf u <= cdf v) /\ (forall u, 0 <= cdf u <= 1) /\
  kaplan_meier (95 / 100) rows = Ok es /\ P_P_plot cdf f [] rows DF_False = Ok p /\
  exists q, In q (pp_points p) /\ ~ (exists t, fst q = cdf t) /\ ~ (exists e, In e es /\ snd q = 1 - e_est e).
Proof.
  exists (fun t => if Rlt_dec t 2 then 0 else 3 / 4), [1; 2], [(1, true); (2, true)].
  assert (is_sorting_of (all_rows [1; 2] []) [(1, true); (2, true)]) as HS.
  { split; [apply Permutation_refl|]. repeat first [apply SSorted_cons|apply SSorted_nil|apply Forall_cons|apply Forall_nil]; simpl; lra. }
  set (F := fun t => if Rlt_dec t 2 then 0 else 3 / 4).
  assert (forall u v, u <= v -> F u <= F v) as Hm by (intros u v Huv; unfold F; destruct (Rlt_dec u 2); destruct (Rlt_dec v 2); lra).
  assert (forall u, 0 <= F u <= 1) as H01 by (intros u; unfold F; destruct (Rlt_dec u 2); lra).
  destruct (C13_kaplan_meier_succeeds [1; 2] [] (95 / 100) _ HS ltac:(lra) ltac:(simpl; lia)) as [es EK].
  assert (exists p, P_P_plot F [1; 2] [] [(1, true); (2, true)] DF_False = Ok p) as [p EP] by (unfold P_P_plot; rewrite EK; cbn [bind xy_downsample]; eexists; reflexivity).
  exists es, p. split; [exact HS|]. split; [exact Hm|]. split; [exact H01|]. split; [exact EK|]. split; [exact EP|].
  destruct (C169_pp F _ _ _ _ p HS Hm H01 EP) as (es' & EK' & _ & Hpts). assert (es' = es) as -> by congruence. specialize (Hpts eq_refl).
  assert (map (fun e => (e_time e, e_est e)) es = [(1, 1 / 2); (2, 0)]) as EE.
  { unfold kaplan_meier in EK. destruct (np_checks _ _); [|discriminate]. cbn [bind] in EK.
    apply (f_equal (fun r => match r with Ok c => map (fun e => (e_time e, e_est e)) c | Err _ => [] end)) in EK. rewrite <- EK. clear.
    cbn [km_loop length]. destruct (greenwood _ 2 _ _) as [s1 d1]. destruct (greenwood _ 1 _ _) as [s2 d2]. cbn [map e_time e_est].
    match goal with |- [(_, ?a); (_, ?b)] = _ => replace b with 0 by (simpl; field); replace a with (1 / 2) by (simpl; field) end. reflexivity. }
  destruct es as [|e1 [|e2 [|]]]; try discriminate EE. cbn [map] in EE.
  assert (e_time e1 = 1 /\ e_est e1 = 1 / 2 /\ e_time e2 = 2 /\ e_est e2 = 0) as (T1 & E1 & T2 & E2).
  { pose proof (f_equal (fun l => fst (nth 0 l (0, 0))) EE) as A. pose proof (f_equal (fun l => snd (nth 0 l (0, 0))) EE) as B. pose proof (f_equal (fun l => fst (nth 1 l (0, 0))) EE) as C. pose proof (f_equal (fun l => snd (nth 1 l (0, 0))) EE) as D.
    cbn [nth fst snd] in A, B, C, D. auto. }
  exists (1 - e_est e2, F (e_time e2)). split; [rewrite Hpts; cbn [map]; right; left; reflexivity|]. cbn [fst snd]. rewrite T2, E2. unfold F. split.
  - intros [t Ht]. destruct (Rlt_dec t 2); lra.
  - intros (e & He & Hy). destruct (Rlt_dec 2 2); [lra|]. destruct He as [<-|[<-|[]]]; lra.
Qed.
Print Assumptions C169_axes_refuted.

(** Every fitted distribution has a subplot: there are at most 16. *)
Theorem C169_layout : forall items cols rows, probplot_layout items = Ok (cols, rows) -> (1 <= items <= cols * rows)%nat.
Proof.
  intros items cols rows H. do 17 (destruct items as [|items]; [cbn in H; try discriminate H; pose proof (f_equal (fun r => match r with Ok c => fst c | Err _ => 0%nat end) H) as A; pose proof (f_equal (fun r => match r with Ok c => snd c | Err _ => 0%nat end) H) as B; cbn in A, B; subst; lia|]).
  cbn in H. discriminate H.
Qed.
Print Assumptions C169_layout.
Theorem C169_layout_runs : forall items, (1 <= items <= 16)%nat -> exists cols rows, probplot_layout items = Ok (cols, rows).
Proof. intros items H. do 17 (destruct items as [|items]; [try lia; cbn; eauto|]). lia. Qed.
Print Assumptions C169_layout_runs.

(** A case that meets the hypotheses of C169_bars_partial. *)
Example C169_case : percentile (1 / 4) [1; 2; 3] < percentile (3 / 4) [1; 2; 3] /\ Forall (Rlt 0) [1; 2; 3] /\ (2 <= length [1; 2; 3])%nat /\
  is_sorting_of (all_rows [1; 2; 3] [5]) [(1, true); (2, true); (3, true); (5, false)].
Proof.
  split.
  - unfold percentile. rewrite (isort_sorted_perm _ [1; 2; 3] (Permutation_refl _)) by (repeat first [apply SSorted_cons|apply SSorted_nil|apply Forall_cons|apply Forall_nil]; lra). cbv zeta.
    rewrite (floor_at (3 / 4 * INR (length [1; 2; 3] - 1)) 1) by (simpl; lra). rewrite (floor_at (1 / 4 * INR (length [1; 2; 3] - 1)) 0) by (simpl; lra).
    change (Z.to_nat 1) with 1%nat. change (Z.to_nat 0) with 0%nat. cbn [nth]. simpl. lra.
  - split; [repeat first [apply Forall_cons|apply Forall_nil]; lra|]. split; [simpl; lia|]. split; [apply Permutation_refl|].
    repeat first [apply SSorted_cons|apply SSorted_nil|apply Forall_cons|apply Forall_nil]; simpl; lra.
Qed.
