(** C128: likelihood contours. *)
From Coquelicot Require Import Coquelicot.
From Coq Require Import String.
From Coq Require Import List Arith Reals Lra Lia Bool Permutation Sorted.
From Verif Require Import Base RealFacts Ext RList Gauss ConvertModel NonparModel RepairModel RepairProofs RepairProofs2 DistModel CombSpec FitModel FitSpec FitProofs FitSpec2 FitProofs2 FitProps2
  SelModel CIModel CISpec CIProofs CIProps PlotProofs RegProofs LPlotModel LPlotSpec LPlotProofs.
Import ListNotations.
Open Scope R_scope.

(** The contour drawn for the level CI is the level line of a surface over the parameters on which
    a point is inside (at least as high as the line) exactly when the data are at least (1 - CI) times
    as likely under it as under the reported estimate. *)
Theorem C128_region : forall fit contour previous name failures rc CI r,
  likelihood_plot fit contour previous name failures rc CI = Ok r ->
  exists d F surface, In (upper name, d, F) documented_names /\
    forall c, In c (lp_contours r) -> 0 < d_CI c < 1 /\ d_paths c = contour (lp_X r) (lp_Y r) surface (d_level c) /\
      forall x y L L0, let f := F x y in let f0 := F (fst (lp_estimate r)) (snd (lp_estimate r)) in
        allowed f failures (censored rc) -> allowed f0 failures (censored rc) ->
        data_likelihood f failures rc L -> data_likelihood f0 failures rc L0 ->
        (d_level c <= surface x y <-> (1 - d_CI c) * L0 <= L).
Proof.
  intros fit contour prev name T_f rc CI r H.
  destruct (plot_inv _ _ _ _ _ _ _ _ H) as (cis & d & F & rx & ry & rest & X & Y & _ & HF & _ & _ & _ & EX & EY & EE & EM & HD & _).
  exists d, F, (fun x y => LLfunction F x y T_f rc). split; [now apply family_model|]. intros c Hc.
  destruct (draw_inv _ _ _ _ HD) as [_ FA]. rewrite Forall_forall in FA. destruct (FA c Hc) as (C1 & C2 & C3 & _).
  split; [exact C1|]. split; [now rewrite EX, EY|]. intros x y L L0 f f0 A A0 HL HL0. subst f f0. rewrite EE in A0, HL0. cbn [fst snd] in A0, HL0.
  apply (LLfunction_likelihood name d F) in HL; [|exact HF|exact A]. apply (LLfunction_likelihood name d F) in HL0; [|exact HF|exact A0].
  rewrite <- EM in HL0. rewrite C2. subst L L0.
  replace ((1 - d_CI c) * exp (lp_LLmax r)) with (exp (lp_LLmax r + ln (1 - d_CI c))) by (rewrite exp_plus, exp_ln by lra; ring).
  split; intros Q; [destruct Q as [Q|Q]; [left; now apply exp_increasing|right; now rewrite Q]|].
  destruct (Rle_lt_dec (lp_LLmax r + ln (1 - d_CI c)) (LLfunction F x y T_f rc)) as [G|G]; [exact G|]. apply exp_increasing in G. lra.
Qed.
Print Assumptions C128_region.

(** One contour per level asked for, from the highest to the lowest. *)
Theorem C128_levels : forall fit contour previous name failures rc CI r,
  likelihood_plot fit contour previous name failures rc CI = Ok r ->
  (forall c, CI = L_float c -> map d_CI (lp_contours r) = [c]) /\
  (forall l, CI = L_list l -> Permutation (map d_CI (lp_contours r)) l /\ StronglySorted Rge (map d_CI (lp_contours r))) /\
  (forall c, CI <> L_number c).
Proof.
  intros fit contour prev name T_f rc CI r H.
  destruct (plot_inv _ _ _ _ _ _ _ _ H) as (cis & d & F & rx & ry & rest & X & Y & HS & _ & _ & _ & _ & _ & _ & _ & _ & HD & _).
  destruct (draw_inv _ _ _ _ HD) as [E _]. rewrite E. split; [|split].
  - intros c ->. cbn in HS. congruence.
  - intros l ->. cbn in HS. injection HS as <-. destruct (isort_R l) as [S P]. split; [rewrite <- Permutation_rev; now symmetry|].
    clear P H HD E. induction S as [|x m S IH HX]; cbn; [constructor|].
    assert (forall a b : list R, StronglySorted Rge a -> StronglySorted Rge b -> (forall p q, In p a -> In q b -> p >= q) -> StronglySorted Rge (a ++ b)) as App.
    { induction a as [|p a IHa]; intros b Sa Sb Q; [exact Sb|]. cbn. inversion Sa; subst. constructor; [apply IHa; auto; intros; apply Q; auto; now right|].
      apply Forall_app. split; [assumption|]. apply Forall_forall. intros q Hq. apply Q; [now left|exact Hq]. }
    apply App; [exact IH|repeat constructor|]. intros p q Hp [<-|[]]. apply in_rev in Hp. rewrite Forall_forall in HX. now apply Rle_ge, HX.
  - intros c ->. discriminate.
Qed.
Print Assumptions C128_levels.

(** The estimate lies strictly inside every contour, and a higher level encloses a lower one. *)
Theorem C128_nested : forall fit contour previous name failures rc CI r,
  likelihood_plot fit contour previous name failures rc CI = Ok r ->
  forall c, In c (lp_contours r) -> d_level c < lp_LLmax r /\
    forall c', In c' (lp_contours r) -> (d_CI c < d_CI c' -> d_level c' < d_level c) /\ (d_CI c = d_CI c' -> d_level c' = d_level c).
Proof.
  intros fit contour prev name T_f rc CI r H c Hc.
  destruct (plot_inv _ _ _ _ _ _ _ _ H) as (cis & d & F & rx & ry & rest & X & Y & _ & _ & _ & _ & _ & _ & _ & _ & _ & HD & _).
  destruct (draw_inv _ _ _ _ HD) as [_ FA]. rewrite Forall_forall in FA. destruct (FA c Hc) as (C1 & C2 & _). split.
  - rewrite C2. assert (ln (1 - d_CI c) < ln 1) by (apply ln_increasing; lra). rewrite ln_1 in *. lra.
  - intros c' Hc'. destruct (FA c' Hc') as (C1' & C2' & _). rewrite C2, C2'. split; intros E; [|now rewrite E].
    assert (ln (1 - d_CI c') < ln (1 - d_CI c)) by (apply ln_increasing; lra). lra.
Qed.
Print Assumptions C128_nested.

(** Changing the unit of time changes the region in the same way: the converted parameters are inside
    the contour of the converted data exactly when the parameters are inside the original one. *)
Theorem C128_units : forall k name d F failures rc x y a b x' y' a' b',
  0 < k -> In (upper name, d, F) documented_names ->
  has_scale (F x y) -> allowed (F x y) failures (censored rc) -> allowed (F a b) failures (censored rc) ->
  rescaled k (F x y) = F x' y' -> rescaled k (F a b) = F a' b' ->
  forall fit contour previous CI r fit' contour' previous' CI' r' c c',
  likelihood_plot fit contour previous name failures rc CI = Ok r -> lp_estimate r = (a, b) -> In c (lp_contours r) ->
  likelihood_plot fit' contour' previous' name (map (Rmult k) failures) (option_map (map (Rmult k)) rc) CI' = Ok r' -> lp_estimate r' = (a', b') ->
  In c' (lp_contours r') -> d_CI c = d_CI c' ->
  forall L L0 L' L0', data_likelihood (F x y) failures rc L -> data_likelihood (F a b) failures rc L0 ->
  data_likelihood (F x' y') (map (Rmult k) failures) (option_map (map (Rmult k)) rc) L' ->
  data_likelihood (F a' b') (map (Rmult k) failures) (option_map (map (Rmult k)) rc) L0' ->
  ((1 - d_CI c) * L0 <= L <-> (1 - d_CI c') * L0' <= L').
Proof.
  intros k name d F T rc x y a b x' y' a' b' Hk HN HS A A0 E1 E2 fit contour prev CI r fit' contour' prev' CI' r' c c' H HE Hc H' HE' Hc' EC L L0 L' L0' HL HL0 HL' HL0'.
  destruct (plot_inv _ _ _ _ _ _ _ _ H) as (cis & d1 & F1 & rx & ry & rest & X & Y & _ & HF & _).
  assert (F1 = F) as ->.
  { apply family_model in HF. clear -HF HN. unfold documented_names in *. cbn in HF, HN.
    repeat match goal with H : _ \/ _ |- _ => destruct H as [H|H] end; try contradiction;
      (assert (F1 = F) by congruence; assumption) || (exfalso; congruence). }
  assert (has_scale (F a b)) as HS0.
  { clear -HS HN. unfold documented_names in HN. cbn in HN. repeat match goal with H : _ \/ _ |- _ => destruct H as [H|H] end; try contradiction; injection HN as _ _ <-; exact HS. }
  destruct A as (P & AF & AC). destruct A0 as (P0 & AF0 & AC0).
  assert (forall p q, params_ok (F p q) -> Forall (support (F p q)) T -> Forall (support (F p q)) (censored rc) -> has_scale (F p q) ->
    allowed (rescaled k (F p q)) (map (Rmult k) T) (censored (option_map (map (Rmult k)) rc))) as AL.
  { intros p q Hp Hf Hc0 Hs. split; [now apply rescaled_ok|]. rewrite !Forall_forall in *. split; intros t Ht.
    - apply in_map_iff in Ht. destruct Ht as (u & <- & Hu). apply rescaled_support; auto.
    - destruct rc as [l|]; cbn in Ht; [|contradiction]. apply in_map_iff in Ht. destruct Ht as (u & <- & Hu). apply rescaled_support; auto. }
  pose proof (AL x y P AF AC HS) as B. pose proof (AL a b P0 AF0 AC0 HS0) as B0. rewrite E1 in B. rewrite E2 in B0.
  apply (LLfunction_likelihood name d1 F) in HL; [|exact HF|now repeat split]. apply (LLfunction_likelihood name d1 F) in HL0; [|exact HF|now repeat split].
  apply (LLfunction_likelihood name d1 F) in HL'; [|exact HF|exact B]. apply (LLfunction_likelihood name d1 F) in HL0'; [|exact HF|exact B0].
  assert (forall p q p' q', has_scale (F p q) -> params_ok (F p q) -> Forall (support (F p q)) T -> Forall (support (F p q)) (censored rc) -> rescaled k (F p q) = F p' q' ->
    LLfunction F p' q' (map (Rmult k) T) (option_map (map (Rmult k)) rc) = LLfunction F p q T rc - INR (length T) * ln k) as SC.
  { intros p q p' q' Hs Hp Hf Hr E. rewrite !(LLfunction_LL name d1) by exact HF. rewrite <- E.
    replace (censored (option_map (map (Rmult k)) rc)) with (map (Rmult k) (censored rc)) by (destruct rc; reflexivity).
    change (@nil R) with (map (Rmult k) []) at 1. rewrite (C110_likelihood k (F p q) [] T (censored rc)) by (auto; now repeat split). ring. }
  rewrite (SC x y x' y') in HL' by assumption. rewrite (SC a b a' b') in HL0' by assumption.
  rewrite <- EC. subst L L0 L' L0'. unfold Rminus. rewrite !exp_plus. set (z := exp (- (INR (length T) * ln k))). assert (0 < z) by apply exp_pos.
  set (u := exp (LLfunction F x y T rc)). set (v := exp (LLfunction F a b T rc)).
  replace ((1 + - d_CI c) * (v * z)) with ((1 + - d_CI c) * v * z) by ring.
  split; intros Q; [apply Rmult_le_compat_r; lra|apply Rmult_le_reg_r with z; lra].
Qed.
Print Assumptions C128_units.

(** The limits of the axes show the first line of every contour and what was shown before. *)
Theorem C128_limits : forall fit contour previous name failures rc CI r,
  likelihood_plot fit contour previous name failures rc CI = Ok r ->
  (forall c p v, In c (lp_contours r) -> nth_error (d_paths c) 0 = Some p -> In v p ->
     fst (lp_xlim r) <= fst v <= snd (lp_xlim r) /\ fst (lp_ylim r) <= snd v <= snd (lp_ylim r)) /\
  (forall xl xu yl yu, previous = Some ((xl, xu), (yl, yu)) ->
     fst (lp_xlim r) <= xl /\ xu <= snd (lp_xlim r) /\ fst (lp_ylim r) <= yl /\ yu <= snd (lp_ylim r)).
Proof.
  intros fit contour prev name T_f rc CI r H.
  destruct (plot_inv _ _ _ _ _ _ _ _ H) as (cis & d & F & rx & ry & rest & X & Y & _ & _ & _ & _ & _ & _ & _ & _ & _ & _ & NE & EX & EY).
  rewrite EX, EY. set (V := first_paths (lp_contours r)) in *.
  destruct (widened_spec (map fst V) (option_map fst prev)) as [X1 X2]; [now destruct V|]. destruct (widened_spec (map snd V) (option_map snd prev)) as [Y1 Y2]; [now destruct V|].
  split.
  - intros c p v Hc Hp Hv. assert (In v V) as HV. { unfold V, first_paths. apply in_flat_map. exists c. split; [exact Hc|]. destruct (d_paths c); [discriminate|]. injection Hp as ->. exact Hv. }
    split; [apply X1|apply Y1]; now apply in_map.
  - intros xl xu yl yu ->. destruct (X2 xl xu eq_refl), (Y2 yl yu eq_refl). auto.
Qed.
Print Assumptions C128_limits.

(** The grid reaches beyond the 95% limits of a parameter whose lower limit is positive, as that of a
    positive parameter is. Missing: the mu of the Normal, Gumbel and Lognormal distributions. *)
Theorem C128_grid_partial : forall d ests diag optimizer rows fit contour previous name failures rc CI r,
  fit_limits d false (95 / 100) ests diag optimizer = Ok rows -> Forall2 in_range (parameter_ranges d) ests ->
  fit d = Ok rows -> (exists F, In (upper name, d, F) documented_names) ->
  likelihood_plot fit contour previous name failures rc CI = Ok r ->
  forall i row l u, nth_error rows i = Some row -> (i < 2)%nat -> p_lower row = Fin l -> p_upper row = Fin u ->
  (nth_error (parameter_ranges d) i = Some Positive \/ 0 <= l) ->
  covers (if (i =? 0)%nat then lp_X r else lp_Y r) l u /\ l <= p_est row <= u.
Proof.
  intros d ests diag opt rows fit contour prev name T rc CI r HL HR HFit (F & HN) H i row l u Hi Hlt El Eu Hpos.
  destruct (plot_inv _ _ _ _ _ _ _ _ H) as (cis & d1 & F1 & rx & ry & rest & X & Y & _ & HF & HFit1 & GX & GY & EX & EY & _).
  assert (d1 = d) as ->.
  { apply family_model in HF. clear -HF HN. unfold documented_names in *. cbn in HF, HN.
    repeat match goal with H : _ \/ _ |- _ => destruct H as [H|H] end; try contradiction; congruence. }
  rewrite HFit in HFit1. injection HFit1 as ->.
  assert (exists k, nth_error (parameter_ranges d) i = Some k) as (k & Hk).
  { unfold documented_names in HN. cbn in HN. clear -HN Hlt. destruct i as [|[|i]]; [| |lia];
      repeat match goal with H : _ \/ _ |- _ => destruct H as [H|H] end; try contradiction; injection HN as _ <- _; cbn; eauto. }
  destruct (C66_bracket_partial d false (95 / 100) ests diag opt _ i row k ltac:(lra) HR HL Hi Hk) as (_ & (l0 & u0 & B1 & B2 & B3) & BP & _).
  rewrite El in B1. rewrite Eu in B2. injection B1 as <-. injection B2 as <-. split; [|exact B3].
  assert (0 <= l) as Hl0. { destruct Hpos as [Hp|Hp]; [|exact Hp]. rewrite Hk in Hp. injection Hp as ->. destruct (BP eq_refl) as (l1 & Q1 & Q2). rewrite El in Q1. injection Q1 as <-. lra. }
  assert (parameter_grid row = Some (if (i =? 0)%nat then lp_X r else lp_Y r)) as G.
  { destruct i as [|[|i]]; [| |lia]; injection Hi as <-; cbn; congruence. }
  unfold parameter_grid in G. rewrite El, Eu in G. injection G as G. rewrite <- G.
  destruct (linspace_ends (l * (1 / 4)) (u * 4) 500 ltac:(lia)) as [I1 I2].
  exists (l * (1 / 4)), (u * 4). repeat split; [exact I1|exact I2|lra|lra].
Qed.
Print Assumptions C128_grid_partial.

(** The mu of a Lognormal with times near 1, of a Normal or a Gumbel: the grid runs from a quarter of
    the lower limit to four times the upper one, which need not contain even the estimate. *)
Theorem C128_grid_refuted : exists ests diag rows contour r,
  fit_limits D_Lognormal_2P false (95 / 100) ests (Some diag) (Some "TNC"%string) = Ok rows /\ Forall2 in_range (parameter_ranges D_Lognormal_2P) ests /\
  likelihood_plot (fun _ => Ok rows) contour None "Lognormal" [1 / 2; 3 / 4] None (L_float (95 / 100)) = Ok r /\
  ~ (exists u, covers (lp_X r) (fst (lp_estimate r)) u).
Proof.
  set (Z := Z_of (95 / 100)). assert (0 < Z) as HZ by (apply C66_multiplier; lra).
  set (se := 1 / (2 * Z)). assert (0 < se) as Hse by (apply Rdiv_lt_0_compat; lra).
  exists [- (1 / 2); 1], [se ^ 2; 1]. eexists. exists (fun _ _ _ _ => [[(1, 1)]]). eexists. split; [reflexivity|]. split; [repeat constructor; cbn; lra|].
  split.
  - unfold likelihood_plot. cbn [sorted_levels bind]. replace (family "Lognormal") with (Some (D_Lognormal_2P, Lognormal_2P)) by (vm_compute; reflexivity).
    unfold parameter_grid. cbn [bind limits_of param_kinds map param_limits p_lower p_upper p_est]. unfold draw_contours.
    replace (Rleb (95 / 100) 0 || Rleb 1 (95 / 100))%bool with false
      by (symmetry; unfold Rleb; destruct (Rle_dec (95 / 100) 0), (Rle_dec 1 (95 / 100)); cbn; auto; lra).
    rewrite contour_level_eq by lra. cbn [bind]. unfold first_paths. cbn [flat_map d_paths app]. reflexivity.
  - cbn [lp_X lp_estimate fst]. fold Z. intros (u & lo & hi & H1 & _ & H2 & _).
    apply linspace_bounds in H1. replace (sqrt (Rabs (se ^ 2))) with se in H1
      by (rewrite Rabs_right by (apply Rle_ge, pow_le; lra); replace (se ^ 2) with (se * se) by ring; now rewrite sqrt_square by lra).
    assert (Z * se = 1 / 2) as E by (unfold se; field; lra).
    assert (- (1 / 2) - Z * se = -1) as E1 by lra. assert (- (1 / 2) + Z * se = 0) as E2 by lra.
    assert (- (1 / 2) + - Z * se = -1) as E3 by (rewrite <- Ropp_mult_distr_l; lra).
    rewrite ?E1, ?E2, ?E3 in H1. rewrite Rmin_left in H1 by lra. lra.
Qed.
Print Assumptions C128_grid_refuted.

(** What is refused. *)
Theorem C128_errors : forall fit contour previous name failures rc CI,
  (forall c, CI = L_number c -> likelihood_plot fit contour previous name failures rc CI = Err ValueError) /\
  ((forall d F, ~ In (upper name, d, F) documented_names) -> likelihood_plot fit contour previous name failures rc CI = Err ValueError) /\
  (forall l c r, (CI = L_list l /\ In c l \/ CI = L_float c) -> c <= 0 \/ 1 <= c -> likelihood_plot fit contour previous name failures rc CI <> Ok r).
Proof.
  intros fit contour prev name T rc CI. split; [|split].
  - intros c ->. reflexivity.
  - intros N. unfold likelihood_plot. destruct (sorted_levels CI) as [cis|e] eqn:E; [|destruct CI; cbn in E; try discriminate; injection E as <-; reflexivity]. cbn [bind].
    destruct (family name) as [[d F]|] eqn:EF; [|reflexivity]. apply family_model in EF. now apply N in EF.
  - intros l c r HC Hr H. destruct (plot_inv _ _ _ _ _ _ _ _ H) as (cis & d & F & rx & ry & rest & X & Y & HS & _ & _ & _ & _ & _ & _ & _ & _ & HD & _).
    destruct (draw_inv _ _ _ _ HD) as [E FA]. assert (In c cis) as I.
    { destruct HC as [[-> Hc] | ->]; cbn in HS; injection HS as <-; [|now left]. rewrite <- in_rev. destruct (isort_R l) as [_ P]. revert Hc. apply Permutation_in. now symmetry. }
    rewrite <- E in I. apply in_map_iff in I. destruct I as (q & <- & Hq). rewrite Forall_forall in FA. destruct (FA q Hq) as [Q _]. lra.
Qed.
Print Assumptions C128_errors.

Example C128_case : exists fit contour r c, likelihood_plot fit contour None "weibull" [10; 20; 30] (Some [40]) (L_list [9 / 10; 95 / 100]) = Ok r /\
  In c (lp_contours r) /\ d_CI c = 9 / 10 /\ allowed (Weibull_2P (fst (lp_estimate r)) (snd (lp_estimate r))) [10; 20; 30] [40].
Proof.
  exists (fun _ => Ok [{| p_est := 30; p_se := 1; p_lower := Fin 20; p_upper := Fin 40 |}; {| p_est := 2; p_se := 1; p_lower := Fin 1; p_upper := Fin 3 |}]),
    (fun _ _ _ _ => [[(30, 2); (31, 2)]]). do 2 eexists. split; [|split; [|split]].
  - unfold likelihood_plot, sorted_levels. cbn [isort insert]. unfold Rleb at 1. destruct (Rle_dec (9 / 10) (95 / 100)) as [_|N]; [|lra]. cbn [rev app bind].
    replace (family "weibull") with (Some (D_Weibull_2P, Weibull_2P)) by (vm_compute; reflexivity).
    unfold parameter_grid. cbn [bind p_lower p_upper p_est]. unfold draw_contours.
    replace (Rleb (95 / 100) 0 || Rleb 1 (95 / 100))%bool with false by (symmetry; unfold Rleb; destruct (Rle_dec (95 / 100) 0), (Rle_dec 1 (95 / 100)); cbn; auto; lra).
    rewrite contour_level_eq by lra.
    replace (Rleb (9 / 10) 0 || Rleb 1 (9 / 10))%bool with false by (symmetry; unfold Rleb; destruct (Rle_dec (9 / 10) 0), (Rle_dec 1 (9 / 10)); cbn; auto; lra).
    rewrite contour_level_eq by lra. cbn [bind]. unfold first_paths. cbn [flat_map d_paths app]. reflexivity.
  - cbn [lp_contours]. right. left. reflexivity.
  - reflexivity.
  - cbn [lp_estimate fst snd]. split; [cbn; lra|]. split; repeat (constructor; [cbn; lra|]); constructor.
Qed.
