(** The properties C121-C123 of the PP and QQ plots and plot_points. *)
From Coquelicot Require Import Coquelicot.
From Coq Require Import String.
From Coq Require Import List Arith Reals Lra Lia Bool Permutation Sorted.
From Verif Require Import Base RealFacts RList Gauss Ext Linear NonparModel NonparSpec NonparProofs NonparProofs2 NonparProofs3 NonparProofs4 NonparProofs5
  RepairModel RepairProofs2 TestingModel DistModel DistSpec DistProofs DistProofs2 CombModel RegModel PoFModel PoFProofs3 SelModel
  CIProofs2 PlotProofs OtherProofs3 QQModel QQSpec QQProofs.
Import ListNotations.
Open Scope R_scope.

(** ** C121 QQ plots pair quantiles of equal probability, with least squares lines *)
Theorem C121_parametric : forall X Y, valid X -> valid Y -> exists pts m m1 c1,
  QQ_plot_parametric X Y = Ok (pts, (m, Some (m1, c1))) /\ length pts = 100%nat /\
  (forall i, (i < 100)%nat -> let '(x, y) := nth i pts (0, 0) in
     inside X x /\ inside Y y /\ cdf X x = 99 / 100 - INR i * (98 / 9900) /\ cdf Y y = 99 / 100 - INR i * (98 / 9900)) /\
  (forall m', sse pts m 0 <= sse pts m' 0) /\
  (forall m' c', sse pts m1 c1 <= sse pts m' c') /\
  (forall m' c', sse pts m' c' <= sse pts m1 c1 -> m' = m1 /\ c' = c1).
Proof. exact qq_param. Qed.
Print Assumptions C121_parametric.

(** A linear image of the distribution: the line is found exactly. *)
Theorem C121_related : forall X Y k c pts m m1 c1, valid X -> valid Y -> linear_image inside X Y k c ->
  QQ_plot_parametric X Y = Ok (pts, (m, Some (m1, c1))) ->
  m1 = k /\ c1 = c /\ (forall p, In p pts -> snd p = k * fst p + c) /\ (c = 0 -> m = k).
Proof. intros. now apply (qq_related X Y k c). Qed.
Print Assumptions C121_related.

Example C121_related_example : linear_image inside (Normal 0 1) (Normal 5 2) 2 5 /\
  linear_image inside (Exponential 1 0) (Exponential (1 / 3) 0) 3 0.
Proof.
  split; intros x Hx.
  - split; [split; exact I|]. cbn. f_equal. field.
  - destruct Hx as [Hx _]. cbn in Hx. split; [split; [cbn; lra|exact I]|]. unfold cdf, on_pos.
    replace (3 * x + 0 - 0) with (3 * x) by ring. replace (x - 0) with x by ring.
    destruct (Rlt_dec 0 _) as [L|L]; destruct (Rlt_dec 0 _) as [L'|L']; try reflexivity.
    + f_equal. f_equal. field.
    + exfalso. apply L'. lra.
    + exfalso. apply L. lra.
Qed.

(** Data against a distribution: the i-th failure is paired with the quantile of 1 minus the
    i-th estimated probability counted from the last. *)
Theorem C121_semiparametric_value : forall method a f rc rows Y es pts, valid Y ->
  is_sorting_of (all_rows f rc) rows -> estimated_by method a rows es ->
  QQ_plot_semiparametric method a f rows Y = Ok pts ->
  let q := failure_probabilities es in
  length q = length f /\ length pts = length f /\
  forall i, (i < length f)%nat -> fst (nth i pts (0, PInf)) = nth i (isort Rleb f) 0 /\
    (0 < nth (length f - 1 - i) q 0 < 1 ->
     exists y, snd (nth i pts (0, PInf)) = Fin y /\ inside Y y /\ cdf Y y = 1 - nth (length f - 1 - i) q 0).
Proof.
  intros method a f rc rows Y es pts V HS HE H. destruct (qq_semi_value method a f rc rows Y pts V HS H) as (q & E & L1 & L2 & N).
  assert (q = failure_probabilities es) as <-; [|now split].
  unfold ecdf, ecdf_entries in E. destruct HE as [[-> HE]|[[-> (hes & HE & ->)]|[-> (r & HE & ->)]]]; cbn [String.eqb Ascii.eqb Bool.eqb] in E; rewrite HE in E; cbn [bind] in E; injection E as E; symmetry; exact E.
Qed.
Print Assumptions C121_semiparametric_value.

(** Complete data and rank adjustment: the pairing is with the failure's own probability.
    Missing from the full statement: censored data and the other two methods, see the
    refutation. *)
Theorem C121_semiparametric_partial : forall a f rows Y pts, valid Y -> a_value a < 1 ->
  is_sorting_of (all_rows f []) rows -> QQ_plot_semiparametric "RA" a f rows Y = Ok pts ->
  length pts = length f /\
  forall i, (i < length f)%nat -> exists y, nth i pts (0, PInf) = (nth i (isort Rleb f) 0, Fin y) /\ inside Y y /\
    cdf Y y = (INR (S i) - a_value a) / (INR (length f) + 1 - 2 * a_value a).
Proof. intros. now apply (qq_rank a f rows Y). Qed.
Print Assumptions C121_semiparametric_partial.

Lemma km_two : ecdf "KM" None [(1, true); (2, true); (3, false); (3, false)] = Ok [1 / 4; 1 / 2].
Proof.
  unfold ecdf, ecdf_entries, kaplan_meier. cbn [String.eqb Ascii.eqb Bool.eqb filter snd length].
  assert (np_checks (95 / 100) 2 = Ok tt) as -> by (apply np_checks_ok; split; [lra|lia]). cbn [bind].
  f_equal. cbn [km_loop length]. repeat destruct (greenwood _ _ _ _). cbn [filter e_code map e_est]. unfold NonparModel.code. cbn [INR]. f_equal; [field|f_equal; field].
Qed.
Lemma sorting_two : is_sorting_of (all_rows [1; 2] [3; 3]) [(1, true); (2, true); (3, false); (3, false)].
Proof. split; [reflexivity|]. repeat constructor; cbn; lra. Qed.

(** With censored data the first of two failures, with estimated probability 1/4, is drawn
    against the median. *)
Theorem C121_semiparametric_refuted : exists method a f rc rows Y es pts y, valid Y /\
  is_sorting_of (all_rows f rc) rows /\ estimated_by method a rows es /\
  QQ_plot_semiparametric method a f rows Y = Ok pts /\ nth 0 pts (0, PInf) = (nth 0 (isort Rleb f) 0, Fin y) /\
  nth 0 (failure_probabilities es) 0 = 1 / 4 /\ cdf Y y = 1 / 2.
Proof.
  destruct (ecdf_inv _ _ _ _ km_two) as (es & E & Eq & _).
  assert (QQ_plot_semiparametric "KM" None [1; 2] [(1, true); (2, true); (3, false); (3, false)] (Exponential 1 0) =
    Ok (combine (isort Rleb [1; 2]) [Fin (isf (Exponential 1 0) (1 / 2)); Fin (isf (Exponential 1 0) (1 / 4))])) as EQ.
  { unfold QQ_plot_semiparametric. rewrite km_two. cbn [bind map all_ok].
    destruct (Rlt_dec (1 / 4) 0); [lra|]. destruct (Rlt_dec 1 (1 / 4)); [lra|]. cbn [bind].
    destruct (Rlt_dec (1 / 2) 0); [lra|]. destruct (Rlt_dec 1 (1 / 2)); [lra|]. cbn [bind rev app].
    unfold qq_quantile. destruct (Req_EM_T (1 / 4) 1); [lra|]. destruct (Req_EM_T (1 / 4) 0); [lra|].
    destruct (Req_EM_T (1 / 2) 1); [lra|]. destruct (Req_EM_T (1 / 2) 0); [lra|]. reflexivity. }
  assert (valid (Exponential 1 0)) as V by (cbn; lra).
  assert (isort Rleb [1; 2] = [1; 2]) as EI by (apply isort_sorted_perm; [reflexivity|repeat constructor; lra]).
  eexists "KM"%string, None, [1; 2], [3; 3], _, (Exponential 1 0), es, _, (isf (Exponential 1 0) (1 / 2)).
  split; [exact V|]. split; [exact sorting_two|]. split; [left; split; [reflexivity|]; exact E|]. split; [exact EQ|].
  rewrite EI. split; [reflexivity|]. split; [unfold failure_probabilities; rewrite <- Eq; reflexivity|].
  rewrite (proj2 (isf_inside _ (1 / 2) V ltac:(lra))). lra.
Qed.
Print Assumptions C121_semiparametric_refuted.

Example C121_example : is_sorting_of (all_rows [5; 1] []) [(1, true); (5, true)] /\ valid (Weibull 4 2 0) /\
  exists pts, QQ_plot_semiparametric "RA" None [5; 1] [(1, true); (5, true)] (Weibull 4 2 0) = Ok pts.
Proof.
  destruct uncensored_example as [S (x & y & E)]. split; [exact S|]. split; [cbn; lra|].
  destruct (plotting_positions_range None _ x y ltac:(cbn; lra) E) as [_ F].
  assert (exists q, ecdf "RA" None [(1, true); (5, true)] = Ok q) as [q Eq].
  { unfold ecdf, ecdf_entries, rank_adjustment. cbn [String.eqb Ascii.eqb Bool.eqb filter snd length].
    assert (np_checks (95 / 100) 2 = Ok tt) as -> by (apply np_checks_ok; split; [lra|lia]). cbn [bind]. rewrite E. cbn [bind]. eexists. reflexivity. }
  unfold QQ_plot_semiparametric. rewrite Eq. cbn [bind]. apply (ecdf_RA None [5; 1] [] _ q S) in Eq. destruct Eq as (x' & Eq).
  assert (y = q) as <- by congruence.
  rewrite (all_ok_map _ (qq_quantile (Weibull 4 2 0))); [eexists; reflexivity|]. intros p Hp. rewrite Forall_forall in F. specialize (F p Hp).
  destruct (Rlt_dec p 0); [lra|]. destruct (Rlt_dec 1 p); [lra|reflexivity].
Qed.

(** ** C122 PP plots pair probabilities of failure by the same time *)
Theorem C122_parametric_partial : forall X Y, valid X -> valid Y ->
  let lo := Rmin (ppf X (1 / 100)) (ppf Y (1 / 100)) in let hi := Rmax (ppf X (99 / 100)) (ppf Y (99 / 100)) in
  let covered d := (supp_lo d = m_infty \/ 0 <= lo) /\ (supp_hi d = p_infty \/ hi <= 1) in
  (covered X /\ covered Y -> exists pts, PP_plot_parametric X Y = Ok pts /\ length pts = 100%nat /\
     (forall i, (i < 100)%nat -> exists t : R, lo <= t <= hi /\ t = lo + INR i * ((hi - lo) / 99) /\ nth i pts (0, 0) = (cdf X t, cdf Y t)) /\
     (forall i j, (i <= j)%nat -> (j < 100)%nat ->
        fst (nth i pts (0, 0)) <= fst (nth j pts (0, 0)) /\ snd (nth i pts (0, 0)) <= snd (nth j pts (0, 0))) /\
     (fst (nth 0 pts (0, 0)) <= 1 / 100 /\ snd (nth 0 pts (0, 0)) <= 1 / 100 /\
      99 / 100 <= fst (nth 99 pts (0, 0)) /\ 99 / 100 <= snd (nth 99 pts (0, 0)))) /\
  (~ (covered X /\ covered Y) -> PP_plot_parametric X Y = Err ValueError).
Proof.
  intros X Y VX VY lo hi covered. destruct (pp_param X Y VX VY) as [H1 H2]. fold lo in H1, H2. fold hi in H1, H2.
  assert (lo <= hi) as L by now apply pp_lo_hi. split; [|unfold covered; intros H; apply H2; tauto].
  intros H. eexists. split; [apply H1; unfold covered in H; tauto|]. split; [now rewrite map_length, linspace_length|].
  assert (forall i, (i < 100)%nat -> nth i (map (fun t => (cdf X t, cdf Y t)) (linspace lo hi 100)) (0, 0) =
    (cdf X (lo + INR i * ((hi - lo) / 99)), cdf Y (lo + INR i * ((hi - lo) / 99)))) as N.
  { intros i Hi. rewrite (nth_map_lt _ _ _ 0) by (now rewrite linspace_length). rewrite linspace_nth by exact Hi.
    replace (INR (100 - 1)) with 99 by (simpl; lra). reflexivity. }
  split; [|split].
  - intros i Hi. eexists. split; [|split; [reflexivity|now apply N]]. 
    pose proof (pos_INR i). assert (INR i <= 99) by (replace 99 with (INR 99) by (simpl; lra); apply le_INR; lia). split; nra.
  - intros i j Hij Hj. rewrite !N by lia. cbn [fst snd]. assert (INR i <= INR j) by now apply le_INR. split; (apply cdf_incr; [assumption|nra]).
  - rewrite !N by lia. cbn [fst snd]. replace (lo + INR 0 * ((hi - lo) / 99)) with lo by (simpl; lra).
    replace (lo + INR 99 * ((hi - lo) / 99)) with hi by (simpl; field).
    destruct (F_ppf X (all_facts X VX) (1 / 100)) as [_ X1]; [lra|]. destruct (F_ppf X (all_facts X VX) (99 / 100)) as [_ X2]; [lra|].
    destruct (F_ppf Y (all_facts Y VY) (1 / 100)) as [_ Y1]; [lra|]. destruct (F_ppf Y (all_facts Y VY) (99 / 100)) as [_ Y2]; [lra|].
    pose proof (cdf_incr X VX lo _ (Rmin_l _ _)). pose proof (cdf_incr Y VY lo _ (Rmin_r _ _)).
    pose proof (cdf_incr X VX _ hi (Rmax_l _ _)). pose proof (cdf_incr Y VY _ hi (Rmax_r _ _)). lra.
Qed.
Print Assumptions C122_parametric_partial.

(** A Normal distribution cannot be compared with an Exponential one. *)
Theorem C122_parametric_refuted : exists X Y, valid X /\ valid Y /\ PP_plot_parametric X Y = Err ValueError.
Proof.
  exists (Normal 0 1), (Exponential 1 0). assert (valid (Normal 0 1)) as V1 by (cbn; lra). assert (valid (Exponential 1 0)) as V2 by (cbn; lra).
  split; [exact V1|]. split; [exact V2|]. apply (proj2 (pp_param _ _ V1 V2)). intros (_ & _ & [H|H] & _); [discriminate|].
  pose proof (Rmin_l (ppf (Normal 0 1) (1 / 100)) (ppf (Exponential 1 0) (1 / 100))) as L.
  pose proof (norm_ppf_neg (1 / 100) ltac:(lra)) as N. assert (ppf (Normal 0 1) (1 / 100) = norm_ppf (1 / 100) * 1 + 0) as E by reflexivity. rewrite E in L at 2. unfold Rbar_le in H. lra.
Qed.
Print Assumptions C122_parametric_refuted.

(** A distribution against itself lies on the diagonal. *)
Theorem C122_diagonal : forall X pts p, valid X -> PP_plot_parametric X X = Ok pts -> In p pts -> fst p = snd p.
Proof.
  intros X pts p V H Hp. unfold PP_plot_parametric in H. destruct (CDF X _) as [v|] eqn:E; cbn [bind] in H; [|discriminate].
  injection H as <-. clear E. induction v as [|x v IH]; [destruct Hp|]. destruct Hp as [<-|Hp]; [reflexivity|now apply IH].
Qed.
Print Assumptions C122_diagonal.

Example C122_example : let X := Normal 0 1 in let Y := Gumbel 3 2 in valid X /\ valid Y /\
  exists pts, PP_plot_parametric X Y = Ok pts.
Proof.
  cbn zeta. assert (valid (Normal 0 1)) as V1 by (cbn; lra). assert (valid (Gumbel 3 2)) as V2 by (cbn; lra).
  split; [exact V1|]. split; [exact V2|]. eexists. apply (proj1 (pp_param _ _ V1 V2)). cbn. auto.
Qed.

(** Data against a distribution: each failure contributes its estimated probability and the
    distribution function at its time. *)
Theorem C122_semiparametric : forall method a f rc rows Y es, valid Y -> f <> [] ->
  is_sorting_of (all_rows f rc) rows -> estimated_by method a rows es ->
  (supp_lo Y = m_infty \/ Forall (fun t => 0 <= t) f) -> (supp_hi Y = p_infty \/ Forall (fun t => t <= 1) f) ->
  PP_plot_semiparametric method a f rows Y = Ok (map (fun e => (1 - e_est e, cdf Y (e_time e))) (filter e_code es)) /\
  map e_time (filter e_code es) = isort Rleb f.
Proof.
  intros method a f rc rows Y es V Hf HS HE H0 H1.
  assert (ecdf_entries method a rows = Ok es) as E.
  { unfold ecdf_entries. destruct HE as [[-> HE]|[[-> (hes & HE & ->)]|[-> (r & HE & ->)]]]; cbn [String.eqb Ascii.eqb Bool.eqb]; rewrite HE; reflexivity. }
  assert (map e_time (filter e_code es) = isort Rleb f) as T.
  { rewrite filter_pairs, (ecdf_rows _ _ _ _ E). symmetry. now apply failure_times_isort with rc. }
  split; [|exact T]. unfold PP_plot_semiparametric, ecdf. rewrite E. cbn [bind].
  unfold CDF. assert (array_ok Y (isort Rleb f) = true) as ->.
  { assert (forall x, In x (isort Rleb f) -> In x f) as HI by (intros x Hx; apply (Permutation_in _ (Permutation_sym (isort_perm Rleb f)) Hx)).
    assert (isort Rleb f <> []) as Hn.
    { intros E0. pose proof (isort_length Rleb f) as EL. rewrite E0 in EL. destruct f; [congruence|discriminate]. }
    unfold array_ok. destruct (isort Rleb f) as [|u l]; [congruence|]. apply andb_true_iff. split; apply orb_true_iff.
    - destruct H0 as [H0|H0]; [left; now destruct Y|right]. apply forallb_forall. intros x Hx. rewrite Forall_forall in H0. specialize (H0 x (HI x Hx)).
      unfold Rltb'. destruct (Rlt_dec x 0); [lra|reflexivity].
    - destruct H1 as [H1|H1]; [left; now destruct Y|right]. apply forallb_forall. intros x Hx. rewrite Forall_forall in H1. specialize (H1 x (HI x Hx)).
      unfold Rltb'. destruct (Rlt_dec 1 x); [lra|reflexivity]. }
  cbn [bind]. rewrite <- T, map_map, combine_map2. reflexivity.
Qed.
Print Assumptions C122_semiparametric.

Example C122_semiparametric_example : [1; 2] <> [] /\ is_sorting_of (all_rows [1; 2] [3; 3]) [(1, true); (2, true); (3, false); (3, false)] /\
  (exists es, estimated_by "KM" None [(1, true); (2, true); (3, false); (3, false)] es) /\ Forall (fun t => 0 <= t) [1; 2].
Proof.
  split; [discriminate|]. split; [exact sorting_two|]. split; [|repeat constructor; lra].
  destruct (ecdf_inv _ _ _ _ km_two) as (es & E & _). exists es. left. split; [reflexivity|exact E].
Qed.

(** ** C123 plot_points draws the empirical functions at the failures *)
Theorem C123_functions : forall f rc a rows xy, f <> [] -> a_value a < 1 -> sorted_data f rc rows ->
  plotting_positions_unsorted a rows = Ok xy ->
  exists y, xy = (f, y) /\ length y = length f /\ Forall (fun p => 0 < p < 1) y /\
    plot_points "CDF" f xy = Ok (combine f (map Some y)) /\
    plot_points "SF" f xy = Ok (combine f (map (fun p => Some (1 - p)) y)) /\
    plot_points "CHF" f xy = Ok (combine f (map (fun p => Some (- ln (1 - p))) y)).
Proof.
  intros f rc a rows [x y] Hf Ha [P S] H. destruct (plotting_positions_restores f rc a rows x y P H) as (-> & L & xs & ys & E & N).
  exists y. split; [reflexivity|]. split; [exact L|].
  assert (Forall (fun p => 0 < p < 1) y) as F.
  { destruct (plotting_positions_range a _ _ _ Ha E) as [_ F]. rewrite Forall_forall in F. apply Forall_forall. intros p Hp.
    apply In_nth_error in Hp. destruct Hp as (i & Hi). assert (i < length f)%nat as Li by (rewrite <- L; apply nth_error_Some; congruence).
    destruct (nth_error f i) as [t|] eqn:Et; [|apply nth_error_None in Et; lia].
    assert (In (i, (t, true)) rows) as Hin by (apply (Permutation_in _ P), indexed_nth; now apply all_rows_nth_failure).
    apply in_split in Hin. destruct Hin as (pre & post & Er). destruct (N pre i t post Er) as [_ N2]. rewrite Hi in N2. symmetry in N2. apply nth_error_In in N2. now apply F. }
  split; [exact F|]. unfold plot_points. destruct f as [|t0 f]; [congruence|]. cbn [length Nat.ltb Nat.leb]. cbn [str_in existsb String.eqb Ascii.eqb Bool.eqb orb].
  split; [reflexivity|]. split; [reflexivity|]. f_equal. f_equal. apply map_ext_in. intros p Hp. rewrite Forall_forall in F. specialize (F p Hp).
  unfold chf_of. destruct (Rlt_dec p 1); [reflexivity|lra].
Qed.
Print Assumptions C123_functions.

(** PDF and HF for increasing data: the density and hazard of each interval between failures
    account for the increase of the empirical function. Missing from the full statement:
    failures that are not given in increasing order, see the refutation. *)
Theorem C123_density_partial : forall f rc a rows xs ys xy, f <> [] -> a_value a < 1 -> sorted_data f rc rows ->
  StronglySorted Rlt f -> Forall (fun t => 0 < t) f ->
  plotting_positions_sorted a (map snd rows) = Ok (xs, ys) -> plotting_positions_unsorted a rows = Ok xy ->
  exists pdf_pts hf_pts, plot_points "PDF" f xy = Ok pdf_pts /\ plot_points "HF" f xy = Ok hf_pts /\
    length pdf_pts = length f /\ length hf_pts = length f /\
    forall i, (i < length f)%nat -> exists d h, nth i pdf_pts (0, None) = (nth i f 0, Some d) /\ nth i hf_pts (0, None) = (nth i f 0, Some h) /\
      0 < d /\ 0 < h /\
      d * (nth i f 0 - before f i) = nth i ys 0 - before ys i /\
      h * (nth i f 0 - before f i) = - ln (1 - nth i ys 0) - - ln (1 - before ys i).
Proof.
  intros f rc a rows xs ys [x y] Hf Ha [P S] SF PF H2 H1. destruct (unsorted_increasing f rc a rows x y xs ys P S SF H1 H2) as [-> ->].
  destruct (plotting_positions_restores f rc a rows f ys P H1) as (_ & L & _).
  destruct (plotting_positions_range a _ _ _ Ha H2) as [SY FY].
  assert (forall i, (i < length f)%nat -> 0 < nth i ys 0 < 1) as RY by (intros i Hi; rewrite Forall_forall in FY; apply FY, nth_In; lia).
  assert (forall l i, StronglySorted Rlt l -> (forall j, (j < length l)%nat -> 0 < nth j l 0) -> (i < length l)%nat -> before l i < nth i l 0) as B.
  { intros l i SL PL Hi. destruct i as [|i]; [now apply PL|]. cbn [before]. clear PL. revert i Hi. induction SL as [|u l SL IH F]; intros i Hi; [simpl in Hi; lia|].
    destruct i as [|i]; cbn [nth]; [rewrite Forall_forall in F; apply F, nth_In; simpl in Hi; lia|]. apply IH. simpl in Hi. lia. }
  assert (forall i, (i < length f)%nat -> before f i < nth i f 0) as BF.
  { intros i Hi. apply B; [exact SF| |exact Hi]. intros j Hj. rewrite Forall_forall in PF. now apply PF, nth_In. }
  assert (forall i, (i < length f)%nat -> 0 <= before ys i < nth i ys 0) as BY.
  { intros i Hi. split; [destruct i as [|i]; cbn [before]; [lra|]; specialize (RY i ltac:(lia)); lra|]. apply B; [exact SY| |lia]. intros j Hj. specialize (RY j ltac:(lia)). lra. }
  unfold plot_points. assert ((length f <? 1)%nat = false) as -> by (destruct f; [congruence|reflexivity]).
  cbn [str_in existsb String.eqb Ascii.eqb Bool.eqb orb]. do 2 eexists. split; [reflexivity|]. split; [reflexivity|].
  split; [rewrite combine_length, zip_length, !diffs_length; lia|]. split; [rewrite combine_length, hf_points_length, combine_length; lia|].
  intros i Hi. specialize (BF i Hi). specialize (BY i Hi). specialize (RY i Hi).
  exists ((nth i ys 0 - before ys i) / (nth i f 0 - before f i)), ((- ln (1 - nth i ys 0) - - ln (1 - before ys i)) / (nth i f 0 - before f i)).
  assert (ln (1 - nth i ys 0) < ln (1 - before ys i)) as HL by (apply ln_increasing; lra).
  split; [|split; [|split; [apply Rdiv_lt_0_compat; lra|split; [apply Rdiv_lt_0_compat; lra|split; field; lra]]]].
  - rewrite combine_nth by (rewrite zip_length, !diffs_length; lia). f_equal. rewrite (zip_nth _ _ _ 0 0) by (rewrite diffs_length; lia).
    rewrite !diffs_nth by lia. change (match i with O => 0 | S j => nth j f 0 end) with (before f i). change (match i with O => 0 | S j => nth j ys 0 end) with (before ys i). unfold slope_abs. destruct (Req_EM_T _ 0); [lra|]. f_equal. apply Rabs_pos_eq. left. apply Rdiv_lt_0_compat; lra.
  - rewrite combine_nth by (rewrite hf_points_length, combine_length; lia). f_equal. rewrite hf_points_nth.
    + rewrite !combine_nth by lia. cbn [fst snd].
      assert (match i with O => 0 | S j => - ln (1 - snd (nth j (combine f ys) (0, 0))) end = - ln (1 - before ys i)) as ->.
      { destruct i as [|j]; cbn [before]; [rewrite Rminus_0_r, ln_1; lra|]. rewrite combine_nth by lia. reflexivity. }
      assert (match i with O => 0 | S j => fst (nth j (combine f ys) (0, 0)) end = before f i) as ->.
      { destruct i as [|j]; cbn [before]; [reflexivity|]. rewrite combine_nth by lia. reflexivity. }
      unfold slope_abs. destruct (Req_EM_T _ 0); [lra|]. f_equal. apply Rabs_pos_eq. left. apply Rdiv_lt_0_compat; lra.
    + intros p Hp. destruct p as [u v]. apply in_combine_r in Hp. rewrite Forall_forall in FY. apply FY. exact Hp.
    + rewrite combine_length. lia.
Qed.
Print Assumptions C123_density_partial.

Lemma positions_three : positions (3 / 10) [true; true; true] = Ok [7 / 34; 17 / 34; 27 / 34].
Proof.
  unfold positions. assert (adjusted_ranks [true; true; true] = Ok [1; 2; 3]) as ->.
  { unfold adjusted_ranks. cbn. f_equal. f_equal. f_equal; [field|f_equal; field]. }
  cbn [bind]. destruct (Req_EM_T _ 0) as [E|_]; [exfalso; simpl in E; lra|]. cbn [map length INR]. f_equal. f_equal; [field|f_equal; [field|f_equal; field]].
Qed.
Lemma pp_increasing : plotting_positions_unsorted None [(0%nat, (1, true)); (1%nat, (2, true)); (2%nat, (4, true))] = Ok ([1; 2; 4], [7 / 34; 17 / 34; 27 / 34]).
Proof. unfold plotting_positions_unsorted, check_a. cbn [bind map snd]. rewrite positions_three. reflexivity. Qed.
Lemma pp_swapped : plotting_positions_unsorted None [(0%nat, (1, true)); (2%nat, (2, true)); (1%nat, (4, true))] = Ok ([1; 4; 2], [7 / 34; 27 / 34; 17 / 34]).
Proof. unfold plotting_positions_unsorted, check_a. cbn [bind map snd]. rewrite positions_three. reflexivity. Qed.
Lemma sorted_increasing : sorted_data [1; 2; 4] [] [(0%nat, (1, true)); (1%nat, (2, true)); (2%nat, (4, true))].
Proof. split; [reflexivity|]. repeat constructor; cbn; lra. Qed.
Lemma sorted_swapped : sorted_data [1; 4; 2] [] [(0%nat, (1, true)); (2%nat, (2, true)); (1%nat, (4, true))].
Proof. split; [apply perm_skip, perm_swap|]. repeat constructor; cbn; lra. Qed.

(** The same failures in another order: another density at 2. *)
Theorem C123_density_refuted : exists f f' rows rows' xy xy' pts pts' d d',
  Permutation f f' /\ sorted_data f [] rows /\ sorted_data f' [] rows' /\
  plotting_positions_unsorted None rows = Ok xy /\ plotting_positions_unsorted None rows' = Ok xy' /\
  plot_points "PDF" f xy = Ok pts /\ plot_points "PDF" f' xy' = Ok pts' /\
  In (2, Some d) pts /\ In (2, Some d') pts' /\ d = 10 / 34 /\ d' = 5 / 34.
Proof.
  exists [1; 2; 4], [1; 4; 2]. do 4 eexists. eexists (combine [1; 2; 4] (zip slope_abs (diffs 0 [7 / 34; 17 / 34; 27 / 34]) (diffs 0 [1; 2; 4]))).
  eexists (combine [1; 4; 2] (zip slope_abs (diffs 0 [7 / 34; 27 / 34; 17 / 34]) (diffs 0 [1; 4; 2]))). exists (10 / 34), (5 / 34).
  split; [apply perm_skip, perm_swap|]. split; [exact sorted_increasing|]. split; [exact sorted_swapped|]. split; [exact pp_increasing|]. split; [exact pp_swapped|].
  split; [reflexivity|]. split; [reflexivity|]. split; [|split; [|now split]].
  - cbn [diffs zip combine]. right. left. f_equal. unfold slope_abs. destruct (Req_EM_T _ 0); [lra|]. f_equal. rewrite Rabs_pos_eq; [field|]. left. apply Rdiv_lt_0_compat; lra.
  - cbn [diffs zip combine]. right. right. left. f_equal. unfold slope_abs. destruct (Req_EM_T _ 0); [lra|]. f_equal.
    replace ((17 / 34 - 27 / 34) / (2 - 4)) with (5 / 34) by field. apply Rabs_pos_eq. lra.
Qed.
Print Assumptions C123_density_refuted.

(** CDF, SF and CHF do not depend on the order. *)
Theorem C123_order : forall func f f' rc rc' a rows rows' xy xy' pts pts', In func ["CDF"; "SF"; "CHF"]%string ->
  f <> [] -> a_value a < 1 -> Permutation f f' -> Permutation rc rc' -> (forall u, In u f -> ~ In u rc) ->
  sorted_data f rc rows -> sorted_data f' rc' rows' ->
  plotting_positions_unsorted a rows = Ok xy -> plotting_positions_unsorted a rows' = Ok xy' ->
  plot_points func f xy = Ok pts -> plot_points func f' xy' = Ok pts' -> forall p, In p pts <-> In p pts'.
Proof.
  intros func f f' rc rc' a rows rows' xy xy' pts pts' Hfn Hf Ha P1 P2 NT SD SD' H H' E E'.
  assert (forall f rc rows, sorted_data f rc rows -> is_sorting_of (all_rows f rc) (map snd rows)) as SS.
  { clear. intros f rc rows [P S]. split.
    - apply (Permutation_map snd) in P. rewrite <- P. unfold indexed. rewrite map_snd_combine; [reflexivity|]. now rewrite seq_length.
    - clear -S. induction S as [|r rows S IH F]; cbn; constructor; [exact IH|]. apply Forall_map. exact F. }
  pose proof (same_rows_no_ties f f' rc rc' _ _ P1 P2 NT (SS _ _ _ SD) (SS _ _ _ SD')) as ER.
  assert (f' <> []) as Hf' by (intros E0; apply Hf; rewrite E0 in P1; symmetry in P1; now apply Permutation_nil in P1).
  destruct (C123_functions f rc a rows xy Hf Ha SD H) as (y & Exy & L & FY & C1 & C2 & C3).
  destruct (C123_functions f' rc' a rows' xy' Hf' Ha SD' H') as (y' & Exy' & L' & FY' & C1' & C2' & C3').
  assert (forall t v, In (t, v) (combine f y) <-> In (t, v) (combine f' y')) as K.
  { subst xy xy'.
    assert (forall f rc rows x y xs ys, sorted_data f rc rows -> plotting_positions_unsorted a rows = Ok (x, y) -> plotting_positions_sorted a (map snd rows) = Ok (xs, ys) ->
      forall t v, In (t, v) (combine f y) <-> In (t, v) (combine xs ys)) as Q.
    { clear. intros f rc rows x y xs ys [P S] H1 H2 t v. destruct (plotting_positions_restores f rc a rows x y P H1) as (-> & L & xs' & ys' & E & N).
      assert (xs' = xs) as -> by congruence. assert (ys' = ys) as -> by congruence. clear E.
      destruct (plotting_positions_johnson _ _ _ _ H2) as (Lx & Lys & rank & _ & J). split; intros Hin.
      - apply In_nth_error in Hin. destruct Hin as (i & Hi).
        assert (nth_error f i = Some t /\ nth_error y i = Some v) as [Hf Hv].
        { clear -Hi. revert y i Hi. induction f as [|u f IH]; intros [|w y] [|i] Hi; cbn in Hi; try discriminate; [injection Hi as <- <-; now split|]. cbn. now apply IH. }
        assert (In (i, (t, true)) rows) as Hr by (apply (Permutation_in _ P), indexed_nth; now apply all_rows_nth_failure).
        apply in_split in Hr. destruct Hr as (pre & post & Er). destruct (N pre i t post Er) as [_ N2].
        assert (map snd rows = map snd pre ++ (t, true) :: map snd post) as Em by now rewrite Er, map_app.
        destruct (J _ _ _ Em) as (_ & J2 & _). apply nth_error_In with (n_failed (map snd pre)). apply NonparProofs.nth_error_combine; [exact J2|congruence].
      - apply In_nth_error in Hin. destruct Hin as (k & Hk).
        assert (nth_error xs k = Some t /\ nth_error ys k = Some v) as [Hx Hv].
        { clear -Hk. revert ys k Hk. induction xs as [|u f IH]; intros [|w y] [|i] Hi; cbn in Hi; try discriminate; [injection Hi as <- <-; now split|]. cbn. now apply IH. }
        apply sorted_inv in H2. destruct H2 as (_ & Ex & _). subst xs.
        assert (exists pre i post, rows = pre ++ (i, (t, true)) :: post /\ n_failed (map snd pre) = k) as (pre & i & post & Er & Ek).
        { clear -Hx. revert k Hx. unfold failure_times, n_failed. induction rows as [|[i [u c]] rows IH]; intros k Hx; [now destruct k|].
          cbn [map snd filter] in Hx. destruct c; cbn [snd] in Hx.
          - destruct k as [|k]; [injection Hx as ->; now exists [], i, rows|]. cbn in Hx. destruct (IH k Hx) as (pre & j & post & -> & <-).
            exists ((i, (u, true)) :: pre), j, post. split; reflexivity.
          - destruct (IH k Hx) as (pre & j & post & -> & <-). exists ((i, (u, false)) :: pre), j, post. split; reflexivity. }
        destruct (N pre i t post Er) as [N1 N2]. rewrite Ek, Hv in N2. apply nth_error_In with i. now apply NonparProofs.nth_error_combine. }
    destruct SD as [P S], SD' as [P' S'].
    destruct (plotting_positions_restores f rc a rows f y P H) as (_ & _ & xs & ys & ES & _).
    intros t v. rewrite (Q f rc rows f y xs ys (conj P S) H ES). symmetry. apply (Q f' rc' rows' f' y' xs ys (conj P' S') H'). now rewrite <- ER. }
  assert (forall g : R -> option R, forall p, In p (combine f (map g y)) <-> In p (combine f' (map g y'))) as KG.
  { assert (forall (g : R -> option R) (f y : list R), combine f (map g y) = map (fun p => (fst p, g (snd p))) (combine f y)) as CM.
    { clear. intros g. induction f as [|u f IH]; intros [|v y]; try reflexivity. cbn. now rewrite IH. }
    intros g p. rewrite !CM, !in_map_iff. split; intros ([u v] & Ep & Hp); exists (u, v); (split; [exact Ep|]); now apply K. }
  subst xy xy'. destruct Hfn as [<-|[<-|[<-|[]]]].
  - rewrite C1 in E. rewrite C1' in E'. injection E as <-. injection E' as <-. apply KG.
  - rewrite C2 in E. rewrite C2' in E'. injection E as <-. injection E' as <-. apply KG.
  - rewrite C3 in E. rewrite C3' in E'. injection E as <-. injection E' as <-. apply KG.
Qed.
Print Assumptions C123_order.

Example C123_example : [1; 2; 4] <> [] /\ a_value None < 1 /\ StronglySorted Rlt [1; 2; 4] /\ Forall (fun t => 0 < t) [1; 2; 4] /\
  sorted_data [1; 2; 4] [] [(0%nat, (1, true)); (1%nat, (2, true)); (2%nat, (4, true))] /\
  plotting_positions_sorted None (map snd [(0%nat, (1, true)); (1%nat, (2, true)); (2%nat, (4, true))]) = Ok ([1; 2; 4], [7 / 34; 17 / 34; 27 / 34]) /\
  plotting_positions_unsorted None [(0%nat, (1, true)); (1%nat, (2, true)); (2%nat, (4, true))] = Ok ([1; 2; 4], [7 / 34; 17 / 34; 27 / 34]).
Proof.
  split; [discriminate|]. split; [cbn; lra|]. split; [repeat constructor; lra|]. split; [repeat constructor; lra|]. split; [exact sorted_increasing|].
  split; [|exact pp_increasing]. unfold plotting_positions_sorted, check_a. cbn [bind map snd]. rewrite positions_three. reflexivity.
Qed.
