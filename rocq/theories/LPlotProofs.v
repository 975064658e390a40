(** Proofs about likelihood_plot. *)
From Coquelicot Require Import Coquelicot.
From Coq Require Import String.
From Coq Require Import List Arith Reals Lra Lia Bool Permutation Sorted.
From Verif Require Import Base RealFacts Ext RList Gauss Binom ConvertModel NonparModel RepairModel RepairProofs RepairProofs2 DistModel CombSpec FitModel FitSpec FitProofs FitSpec2 FitProofs2
  SelModel TestingModel TestingProofs CIModel CISpec CIProofs ALTProofs RegProofs PlotProofs LPlotModel LPlotSpec.
Import ListNotations.
Open Scope R_scope.

(** The 2 degrees of freedom quantile in closed form. *)
Lemma chi2_ppf_2 ci : 0 < ci < 1 -> chi2_ppf ci 1 = Some (- (2 * ln (1 - ci))).
Proof.
  intros H. replace (- (2 * ln (1 - ci))) with (2 * - ln (1 - ci)) by ring. apply chi2_ppf_eq; [|unfold pois, bsum; cbn|lra].
  - assert (ln (1 - ci) < ln 1) by (apply ln_increasing; lra). rewrite ln_1 in *. lra.
  - rewrite Ropp_involutive, exp_ln by lra. field.
Qed.
Lemma contour_level_eq m ci : 0 < ci < 1 -> contour_level m ci = Ok (m + ln (1 - ci)).
Proof. intros H. unfold contour_level. rewrite chi2_ppf_2 by exact H. f_equal. field. Qed.

Lemma family_model s d F : family s = Some (d, F) -> In (upper s, d, F) documented_names.
Proof.
  unfold family. set (u := upper s). clearbody u. intros H.
  repeat match type of H with (if ?b then _ else _) = _ => let B := fresh "B" in destruct b eqn:B; [apply str_in_In in B; assert (d = fst (d, F)) as Ed by reflexivity;
    assert (F = snd (d, F)) as EF by reflexivity; assert (Some (d, F) = Some (d, F)) as EE by reflexivity; rewrite <- H in EE at 1; clear H; injection EE as E1 E2; subst d F; clear Ed EF;
    unfold documented_names; cbn in B |- *; destruct B as [B|[B|[B|[]]]]; rewrite <- B; tauto|] end. discriminate.
Qed.
Lemma family_none s : family s = None -> forall d F, ~ In (upper s, d, F) documented_names.
Proof.
  unfold family. intros H d F K.
  repeat match type of H with (if ?b then _ else _) = _ => destruct b eqn:?B; [discriminate|] end.
  repeat match goal with B : str_in _ _ = false |- _ => apply not_true_iff_false in B; rewrite str_in_In in B end.
  unfold documented_names in K. cbn in K.
  repeat match goal with H : _ \/ _ |- _ => destruct H as [H|H] end; try contradiction;
    injection K as E _ _; rewrite <- E in *; cbn in *; tauto.
Qed.
Lemma two_parameter s d F x y : family s = Some (d, F) -> zero_mass (F x y) = 0 /\ ~ zero_inflated (F x y) /\ log0 (F x y) 0 = 0.
Proof.
  intros H. apply family_model in H. unfold documented_names in H. cbn in H.
  repeat match goal with H : _ \/ _ |- _ => destruct H as [H|H] end; try contradiction; injection H as _ _ <-; cbn; tauto.
Qed.
Lemma LLfunction_LL s d F x y T_f rc : family s = Some (d, F) -> LLfunction F x y T_f rc = - LL (F x y) [] T_f (censored rc).
Proof.
  intros H. unfold LLfunction, LL. cbn [length]. destruct (two_parameter s d F x y H) as (_ & _ & ->).
  destruct rc; cbn [censored map rsum]; unfold rsum; cbn; ring.
Qed.
Lemma LLfunction_likelihood s d F x y T_f rc L : family s = Some (d, F) -> allowed (F x y) T_f (censored rc) -> data_likelihood (F x y) T_f rc L ->
  exp (LLfunction F x y T_f rc) = L.
Proof.
  intros H (Hp & Hf & Hc) (P & S & HP & HS & ->). rewrite (LLfunction_LL s d) by exact H.
  rewrite (LL_likelihood _ [] _ _ P S Hp (or_introl eq_refl) Hf Hc HP HS). unfold likelihood. cbn [length pow]. ring.
Qed.

(** The parts of a plot that succeeds. *)
Lemma draw_inv contour m : forall cis cs, draw_contours contour m cis = Ok cs ->
  map d_CI cs = cis /\ Forall (fun c => 0 < d_CI c < 1 /\ d_level c = m + ln (1 - d_CI c) /\ d_paths c = contour (d_level c) /\ d_paths c <> []) cs.
Proof.
  induction cis as [|ci cis IH]; cbn [draw_contours]; intros cs H; [injection H as <-; split; constructor|].
  destruct (Rleb ci 0 || Rleb 1 ci)%bool eqn:B; [discriminate|]. apply orb_false_iff in B. destruct B as [B1 B2].
  assert (0 < ci < 1) as HC. { unfold Rleb in *. destruct (Rle_dec ci 0), (Rle_dec 1 ci); try discriminate. lra. }
  rewrite contour_level_eq in H by exact HC. cbn [bind] in H. destruct (contour (m + ln (1 - ci))) as [|p ps] eqn:E; [discriminate|].
  apply bind_ok in H. destruct H as (others & H1 & H2). injection H2 as <-. destruct (IH _ H1) as [E1 E2].
  cbn. split; [now rewrite E1|]. constructor; [|exact E2]. cbn. rewrite E. split; [exact HC|]. split; [reflexivity|]. split; [reflexivity|discriminate].
Qed.
Lemma plot_inv fit contour prev name T_f rc CI r : likelihood_plot fit contour prev name T_f rc CI = Ok r ->
  exists cis d F rx ry rest X Y, sorted_levels CI = Ok cis /\ family name = Some (d, F) /\ fit d = Ok (rx :: ry :: rest) /\
    parameter_grid rx = Some X /\ parameter_grid ry = Some Y /\ lp_X r = X /\ lp_Y r = Y /\ lp_estimate r = (p_est rx, p_est ry) /\
    lp_LLmax r = LLfunction F (p_est rx) (p_est ry) T_f rc /\
    draw_contours (contour X Y (fun x y => LLfunction F x y T_f rc)) (lp_LLmax r) cis = Ok (lp_contours r) /\
    first_paths (lp_contours r) <> [] /\
    lp_xlim r = widened (map fst (first_paths (lp_contours r))) (option_map fst prev) /\
    lp_ylim r = widened (map snd (first_paths (lp_contours r))) (option_map snd prev).
Proof.
  unfold likelihood_plot. intros H. apply bind_ok in H. destruct H as (cis & H1 & H). destruct (family name) as [[d F]|] eqn:E; [|discriminate].
  apply bind_ok in H. destruct H as (rows & H2 & H). destruct rows as [|rx [|ry rest]]; try discriminate.
  destruct (parameter_grid rx) as [X|] eqn:EX; [|discriminate]. destruct (parameter_grid ry) as [Y|] eqn:EY; [|discriminate].
  cbv zeta in H. apply bind_ok in H. destruct H as (cs & H3 & H). destruct (first_paths cs) as [|v vs] eqn:EV; [discriminate|].
  injection H as <-. exists cis, d, F, rx, ry, rest, X, Y. cbn [lp_X lp_Y lp_estimate lp_LLmax lp_contours lp_xlim lp_ylim]. rewrite EV.
  repeat (split; [first [assumption|reflexivity|discriminate]|]). reflexivity.
Qed.

Lemma linspace_ends a b n : (2 <= n)%nat -> In a (linspace a b n) /\ In b (linspace a b n).
Proof.
  intros H. split.
  - replace a with (nth 0 (linspace a b n) 0) at 1; [apply nth_In; rewrite linspace_length; lia|]. rewrite linspace_nth by lia. cbn [INR]. ring.
  - replace b with (nth (n - 1) (linspace a b n) 0) at 1; [apply nth_In; rewrite linspace_length; lia|]. rewrite linspace_nth by lia.
    field. apply not_0_INR. lia.
Qed.
Lemma linspace_bounds a b n x : In x (linspace a b n) -> Rmin a b <= x <= Rmax a b.
Proof.
  unfold linspace. rewrite in_map_iff. intros (i & <- & Hi). apply in_seq in Hi. destruct (Nat.eq_dec n 1) as [->|Hn].
  - replace i with 0%nat by lia. cbn [INR]. rewrite Rmult_0_l, Rplus_0_r. split; [apply Rmin_l|apply Rmax_l].
  - assert (0 < INR (n - 1)) by (apply lt_0_INR; lia). assert (INR i <= INR (n - 1)) by (apply le_INR; lia). pose proof (pos_INR i).
    set (w := INR i / INR (n - 1)). assert (0 <= w <= 1). { unfold w. split; [apply Rdiv_le_0_compat; lra|apply Rle_div_l; lra]. }
    replace (a + INR i * ((b - a) / INR (n - 1))) with (a + w * (b - a)) by (unfold w; field; lra).
    unfold Rmin, Rmax. destruct (Rle_dec a b); split; nra.
Qed.

Lemma widened_spec v prev : v <> [] ->
  (forall x, In x v -> fst (widened v prev) <= x <= snd (widened v prev)) /\
  (forall a b, prev = Some (a, b) -> fst (widened v prev) <= a /\ b <= snd (widened v prev)).
Proof.
  intros Hv. assert (CIModel.rmin v <= rmax v) as L.
  { destruct v as [|x v]; [congruence|]. apply Rle_trans with x; [apply rmin_le|apply rmax_ge]; now left. }
  unfold widened. split.
  - intros x Hx. pose proof (rmin_le v x Hx). pose proof (rmax_ge v x Hx). destruct prev as [[a b]|]; cbn [fst snd]; [|lra].
    split; [eapply Rle_trans; [apply Rmin_r|lra]|eapply Rle_trans; [|apply Rmax_r]; lra].
  - intros a b ->. cbn [fst snd]. split; [apply Rmin_l|apply Rmax_l].
Qed.
Lemma isort_R l : StronglySorted Rle (isort Rleb l) /\ Permutation (isort Rleb l) l.
Proof. split; [apply isort_R_sorted|symmetry; apply isort_perm]. Qed.
