(** * C131: what the probability plots show *)
From Coquelicot Require Import Coquelicot.
From Coq Require Import String.
From Coq Require Import List Arith Reals Bool Permutation Sorted Lra Lia.
From Verif Require Import Base RealFacts Gauss Ext RList RepairModel RepairProofs CIProofs CIProofs2 NonparModel NonparSpec NonparProofs DistModel CIModel DistSpec DistProofs DistProofs3 DistProofs2 RegProofs
  PlotModel PlotSpec PlotProofs PlotProofs2 PlotProps QQSpec InputModel FArgModel PPlotModel PPlotSpec PPlotProofs.
Import ListNotations.
Open Scope R_scope.

(** One point per failure, in the order given, at its time less the gamma of the fitted distribution (if one
    is shown) and at the plotting position of the unshifted data. Missing: the Exponential plot on Weibull paper, see the
    refutation. *)
Theorem C131_points_partial : forall fit sort k a r, sorts sort -> proper_fits fit a k -> k <> K_Exponential_W -> probability_plot fit sort k a = Ok r ->
  p_show_scatter a = Is_true -> p_downsample a = DF_False ->
  exists f rows y g, p_failures a = D_seq f /\ sorted_data f (censored a) rows /\ plotting_positions_unsorted (p_a a) rows = Ok (f, y) /\
    d_points r = Some (combine (map (fun t => t - g) f) y) /\
    (d_minus_gamma r = false -> g = 0) /\
    (forall L c, d_line r = Some (L, c) -> exists D, fitted fit k a f D c /\ g = location D /\ L = unshifted D).
Proof.
  intros fit sort k a r HS HP HK H HSc HD. destruct (plot_inv fit sort k a r HS H) as (f & chosen & h & rows & y & EF & _ & _ & _ & EC & Eh & D & EP & L & EPt & EL & _ & EM).
  rewrite HSc, HD in EPt. cbn [flagged] in EPt. destruct EPt as (s & Es & EPt). cbn in Es. injection Es as <-. cbn [fst snd] in EPt.
  set (g := match chosen with Some ((d, _), true) => location d | _ => 0 end). exists f, rows, y, g. split; [exact EF|]. split; [exact D|]. split; [exact EP|]. split.
  { rewrite EPt. do 2 f_equal. apply map_ext. intros t. rewrite Eh. unfold g. destruct chosen as [[[d c] [|]]|]; try lra. rewrite dist_gamma_location. destruct k; try reflexivity. congruence. }
  split. { rewrite EM. unfold g. destruct chosen as [[[d c] [|]]|]; congruence. }
  intros Ld c HL. rewrite EL in HL. destruct (flagged (p_show_fitted a)) eqn:ES; [|discriminate]. cbn [orb] in EC. destruct EC as ([[d c0] b] & EC & ->). cbn in HL. injection HL as <- <-.
  destruct (choose_inv fit k a f _ d c0 b EC) as (_ & Hfit & HB). destruct (HB HP) as (V & _ & HB2). exists d. split; [exact Hfit|]. split; [|apply without_gamma_unshifted].
  unfold g. destruct b; [reflexivity|symmetry; now apply HB2].
Qed.
Print Assumptions C131_points_partial.

(** The line is the fitted distribution function, at the time less gamma, and it is straight. *)
Lemma scale_straight k D : valid D -> of_kind k D -> exists slope intercept, 0 < slope /\ forall x, inside (unshifted D) x -> y_scale k D (cdf (unshifted D) x) = slope * x_scale k x + intercept.
Proof.
  intros V K. pose proof (unshifted_valid D V) as VU. assert (k = K_Exponential_W \/ k <> K_Exponential_W) as [-> |HK] by (destruct k; (now left) || (right; discriminate)).
  - destruct D; try destruct K. cbn [unshifted] in *. exists 1, (ln Lambda). split; [lra|]. intros x [Hx _]. cbn in Hx, VU. unfold y_scale, x_scale.
    destruct (straight_line (Exponential Lambda 0) x VU) as [_ E]; [split; cbn; lra|]. cbn [own_paper forward line_slope line_intercept x_axis ppf] in E.
    match type of E with ?u = ?v => assert (- ln (1 - cdf (Exponential Lambda 0) x) = Lambda * x) as -> by lra end. rewrite ln_mult by lra. ring.
  - destruct (C97_straight_line (unshifted D) VU) as (sl & ic & Hs & HL). exists sl, ic. split; [exact Hs|]. intros x Hx. specialize (HL x Hx).
    pose proof (F_in _ (all_facts _ VU) x Hx) as HR. 
    destruct k; destruct D; try destruct K; try congruence; cbn [unshifted own_paper forward x_axis] in HL; cbn [y_scale x_scale unshifted]; rewrite ?Rminus_0_r in HL; try exact HL.
    + rewrite <- HL. f_equal. cbn [unshifted] in HR. field. lra.
    + cbn [ppf] in HL. rewrite <- HL. field.
    + cbn [ppf] in HL. rewrite <- HL. ring.
Qed.
Theorem C131_line : forall fit sort k a r L c, sorts sort -> proper_fits fit a k -> probability_plot fit sort k a = Ok r -> d_line r = Some (L, c) ->
  p_show_fitted a = Is_true /\
  exists f D, p_failures a = D_seq f /\ fitted fit k a f D c /\ valid D /\ of_kind k D /\
    (forall x, cdf L x = cdf D (x + location D)) /\
    exists slope intercept, 0 < slope /\ forall x, 0 < cdf L x < 1 -> y_scale k D (cdf L x) = slope * x_scale k x + intercept.
Proof.
  intros fit sort k a r L c HS HP H HL. destruct (plot_inv fit sort k a r HS H) as (f & chosen & h & rows & y & EF & _ & _ & _ & EC & _ & _ & _ & _ & _ & EL & _ & _).
  rewrite EL in HL. destruct (p_show_fitted a) eqn:ES; cbn [flagged] in HL; try discriminate. split; [reflexivity|]. cbn [flagged orb] in EC. destruct EC as ([[d c0] b] & EC & ->).
  cbn in HL. injection HL as <- <-. destruct (choose_inv fit k a f _ d c0 b EC) as (_ & Hfit & HB). destruct (HB HP) as (V & K & _).
  exists f, d. split; [exact EF|]. split; [exact Hfit|]. split; [exact V|]. split; [exact K|]. rewrite without_gamma_unshifted. split.
  - intros x. rewrite (proj1 (proj2 (shift_functions d (x + location d)))). f_equal. ring.
  - destruct (scale_straight k d V K) as (sl & ic & Hs & HL). exists sl, ic. split; [exact Hs|]. intros x Hx. apply HL.
    pose proof (all_facts _ (unshifted_valid d V)) as F. unfold inside. split.
    + destruct (Rbar_lt_dec (supp_lo (unshifted d)) x) as [Q|Q]; [exact Q|]. apply Rbar_not_lt_le in Q. pose proof (F_low _ F x Q). lra.
    + destruct (Rbar_lt_dec x (supp_hi (unshifted d))) as [Q|Q]; [exact Q|]. apply Rbar_not_lt_le in Q. pose proof (F_high _ F x Q). lra.
Qed.
Print Assumptions C131_line.

(** So a point lies on the line exactly when its plotting position is the fitted probability of failure by that time, and
    above it exactly when it is greater. *)
Theorem C131_on_line_partial : forall fit sort k a r L c pts i, sorts sort -> proper_fits fit a k -> k <> K_Exponential_W -> probability_plot fit sort k a = Ok r ->
  p_downsample a = DF_False -> d_points r = Some pts -> d_line r = Some (L, c) ->
  exists f D, p_failures a = D_seq f /\ fitted fit k a f D c /\ length pts = length f /\
    ((i < length f)%nat -> cdf L (fst (nth i pts (0, 0))) = cdf D (nth i f 0)).
Proof.
  intros fit sort k a r L c pts i HS HP HK H HD HPt HL. assert (p_show_scatter a = Is_true) as HSc.
  { destruct (plot_inv fit sort k a r HS H) as (f & chosen & h & rows & y & _ & _ & _ & _ & _ & _ & _ & _ & _ & EPt & _). destruct (p_show_scatter a); [reflexivity| |]; cbn in EPt; congruence. }
  destruct (C131_points_partial fit sort k a r HS HP HK H HSc HD) as (f & rows & y & g & EF & SD & EP & E & _ & EL). rewrite HPt in E. injection E as ->.
  destruct (EL L c HL) as (D & Hfit & -> & ->). exists f, D. split; [exact EF|]. split; [exact Hfit|].
  destruct (plotting_positions_restores f _ _ rows f y (proj1 SD) EP) as (_ & LY & _). split; [rewrite combine_length, map_length; lia|].
  intros Hi. rewrite combine_nth by (rewrite map_length; lia). cbn [fst]. rewrite (nth_map_lt (fun t => t - location D) f i 0) by exact Hi.
  symmetry. apply shift_functions.
Qed.
Print Assumptions C131_on_line_partial.

(** The axes show every point, if there is more than one. *)
Theorem C131_limits : forall fit sort k a r pts, sorts sort -> proper_fits fit a k -> probability_plot fit sort k a = Ok r ->
  (match p_a a with Some v => v < 1 | None => True end) -> p_downsample a = DF_False -> d_points r = Some pts ->
  (k <> K_Normal -> k <> K_Gumbel -> forall x p, In (x, p) pts -> 0 <= x) ->
  (exists p q, In p pts /\ In q pts /\ fst p < fst q /\ snd p <> snd q) ->
  shows (d_xlim r) (map fst pts) /\ shows (d_ylim r) (map snd pts).
Proof.
  intros fit sort k a r pts HS HP H HA HD HPt HX HT. destruct (plot_inv fit sort k a r HS H) as (f & chosen & h & rows & y & EF & Hf & _ & _ & EC & Eh & SD & EP & L & EPt & _ & EX & _).
  destruct (flagged (p_show_scatter a)); [|congruence]. destruct EPt as (s & Es & EPt). rewrite HD in Es. cbn in Es. injection Es as <-. rewrite HPt in EPt. injection EPt as ->. cbn [fst snd] in *.
  assert (map fst (combine (map h f) y) = map h f) as E1 by (apply map_fst_combine; rewrite map_length; lia).
  assert (map snd (combine (map h f) y) = y) as E2.
  { clear -L. revert y L. induction f as [|t f IH]; intros [|v y] L; try discriminate; [reflexivity|]. cbn in *. f_equal. apply IH. lia. }
  rewrite E1, E2. destruct HT as (p & q & Hp & Hq & Hlt & Hne).
  assert (two_values (map h f)) as TX. { exists (fst p), (fst q). rewrite <- E1. split; [now apply in_map|]. split; [now apply in_map|exact Hlt]. }
  assert (two_values y) as TY. { assert (In (snd p) y) by (rewrite <- E2; now apply in_map). assert (In (snd q) y) by (rewrite <- E2; now apply in_map). destruct (Rtotal_order (snd p) (snd q)) as [Q|[Q|Q]]; [exists (snd p), (snd q)|congruence|exists (snd q), (snd p)]; auto. }
  assert (y <> []) as Hy by (intros ->; destruct f; [congruence|discriminate]). assert (map h f <> []) as Hhf by (destruct f; [congruence|discriminate]).
  set (ax := axes_of k (option_map (fun c => fst (fst c)) chosen)) in *.
  split.
  - apply (C99_x_partial ax (1 / 10) (map h f) ltac:(lra) Hhf) with (y := y) (yl := d_ylim r).
    + intros HLx v Hv. destruct (Rlt_dec 0 v) as [Q|Q]; [exact Q|exfalso]. unfold probability_plot_xylims in EX. destruct (map h f) as [|u0 us] eqn:EU; [congruence|].
      destruct y as [|y0 ys]; [congruence|]. apply bind_ok in EX. destruct EX as (xl & EX & _). unfold x_limits in EX. rewrite HLx in EX. unfold Rleb in EX.
      assert (rmin (u0 :: us) <= v) by (apply rmin_le; exact Hv). destruct (Rle_dec (rmin (u0 :: us)) 0); [discriminate|lra].
    + intros HSg v Hv. rewrite <- E1 in Hv. apply in_map_iff in Hv. destruct Hv as ([v' p'] & E & Hv). cbn in E. subst v'.
      apply (HX ltac:(intros ->; discriminate) ltac:(intros ->; discriminate) v p' Hv).
    + now left.
    + exact Hy.
    + exact EX.
  - apply (C99_y_partial ax (1 / 10) y) with (x := map h f) (xl := d_xlim r); try assumption; try lra.
    + unfold ax, axes_of. destruct k; cbn [y_paper valid_paper]; try exact I.
      * destruct (flagged (p_show_fitted a) || always_fitted K_Gamma) eqn:Q; [|now rewrite orb_true_r in Q]. destruct EC as ([[d c] b] & EC & ->). cbn.
        destruct (choose_inv fit _ a f _ d c b EC) as (_ & _ & HB). destruct (HB HP) as (V & K & _). destruct d; try destruct K. cbn in *. tauto.
      * destruct (flagged (p_show_fitted a) || always_fitted K_Beta) eqn:Q; [|now rewrite orb_true_r in Q]. destruct EC as ([[d c] b] & EC & ->). cbn.
        destruct (choose_inv fit _ a f _ d c b EC) as (_ & _ & HB). destruct (HB HP) as (V & K & _). destruct d; try destruct K. cbn in *. tauto.
    + destruct (plotting_positions_restores f _ _ rows f y (proj1 SD) EP) as (_ & _ & xs & ys & ES & N).
      assert (a_value (p_a a) < 1) as HA2 by (destruct (p_a a); cbn; lra). destruct (plotting_positions_range _ _ _ _ HA2 ES) as [_ FY]. rewrite Forall_forall in FY.
      intros v Hv. apply In_nth_error in Hv. destruct Hv as (i & Hi). assert (i < length f)%nat as Li by (rewrite <- L; apply nth_error_Some; congruence).
      destruct (nth_error f i) as [t|] eqn:Et; [|apply nth_error_None in Et; lia].
      assert (In (i, (t, true)) rows) as Hin by (apply (Permutation_in _ (proj1 SD)), indexed_nth; now apply all_rows_nth_failure).
      apply in_split in Hin. destruct Hin as (pre & post & Er). destruct (N pre i t post Er) as [_ N2]. rewrite Hi in N2. symmetry in N2. apply nth_error_In in N2. now apply FY.
    + now left.
Qed.
Print Assumptions C131_limits.


(** ** Which calls succeed *)
Lemma choose_shown fit k a f rc d c b : choose_dist fit k a f rc = Ok ((d, c), b) <-> shown fit k a f rc b d c.
Proof.
  unfold choose_dist, shown, Rleb. destruct (Rle_dec (p_CI a) 0); [split; [discriminate|intros [Q _]; lra]|]. destruct (Rle_dec 1 (p_CI a)); [split; [discriminate|intros [Q _]; lra]|]. cbn [orb].
  destruct (p_fitted a) as [[d0 c0]|].
  - destruct (has_gamma k) eqn:HG.
    + rewrite dist_gamma_location. destruct (Rlt_dec 0 (location d0)) as [Q|Q].
      * split; [intros H; injection H as -> -> <-|intros (_ & H & HB & _); injection H as -> ->].
        -- split; [lra|]. split; [reflexivity|]. split; [split; [split; [reflexivity|now left]|reflexivity]|now right].
        -- assert (b = true) as -> by (apply HB; split; [reflexivity|now left]). reflexivity.
      * destruct (p_fit_gamma a).
        -- split; [intros H; injection H as -> -> <-|intros (_ & H & HB & _); injection H as -> ->].
           ++ split; [lra|]. split; [reflexivity|]. split; [split; [split; [reflexivity|now right]|reflexivity]|now left].
           ++ assert (b = true) as -> by (apply HB; split; [reflexivity|now right]). reflexivity.
        -- split; [intros H; injection H as -> -> <-|intros (_ & H & HB & _); injection H as -> ->].
           ++ split; [lra|]. split; [reflexivity|]. split; [split; [discriminate|intros (_ & [Q2|Q2]); [contradiction|discriminate]]|now left].
           ++ destruct b; [destruct (proj1 HB eq_refl) as (_ & [Q2|Q2]); [contradiction|discriminate]|reflexivity].
        -- split; [discriminate|]. intros (_ & H & _ & HO). injection H as -> ->. destruct (HO eq_refl) as [Q2|Q2]; [now destruct Q2|contradiction].
    + split; [intros H; injection H as -> -> <-|intros (_ & H & HB & _); injection H as -> ->].
      * split; [lra|]. split; [reflexivity|]. split; [split; [discriminate|intros [Q _]; discriminate]|discriminate].
      * destruct b; [destruct (proj1 HB eq_refl); discriminate|reflexivity].
  - destruct (has_gamma k) eqn:HG.
    + destruct (p_fit_gamma a).
      * split; [intros H; apply bind_ok in H; destruct H as (dc & E & H); injection H as -> <-|intros (_ & E & HB & _)].
        -- split; [lra|]. split; [exact E|]. split; [reflexivity|discriminate].
        -- specialize (HB eq_refl). destruct b; [|discriminate]. rewrite E. reflexivity.
      * split; [intros H; apply bind_ok in H; destruct H as (dc & E & H); injection H as -> <-|intros (_ & E & HB & _)].
        -- split; [lra|]. split; [exact E|]. split; [reflexivity|discriminate].
        -- specialize (HB eq_refl). destruct b; [discriminate|]. rewrite E. reflexivity.
      * split; [discriminate|]. intros (_ & _ & HB & _). specialize (HB eq_refl). destruct b; discriminate.
    + split; [intros H; apply bind_ok in H; destruct H as (dc & E & H); injection H as -> <-|intros (_ & E & _ & HB)].
      * split; [lra|]. split; [exact E|]. split; [discriminate|reflexivity].
      * rewrite (HB eq_refl) in E. rewrite E. rewrite (HB eq_refl). reflexivity.
Qed.
Lemma log_axes k d : log_x (axes_of k d) = true <-> log_kind k.
Proof. destruct k; cbn; try (split; [intros _; exact I|reflexivity]); try (split; [discriminate|intros []]). destruct d as [[]|]; cbn; split; try discriminate; intros []. Qed.
Lemma xylims_ok ax s x y : x <> [] -> y <> [] -> (exists r, probability_plot_xylims ax s x y = Ok r) <-> (log_x ax = true -> forall v, In v x -> 0 < v).
Proof.
  intros Hx Hy. unfold probability_plot_xylims. destruct x as [|x0 xs]; [congruence|]. destruct y as [|y0 ys]; [congruence|]. unfold x_limits. split.
  - intros [r H] HL v Hv. apply bind_ok in H. destruct H as (xl & H & _). rewrite HL in H. unfold Rleb at 1 in H. assert (rmin (x0 :: xs) <= v) by (apply rmin_le; exact Hv).
    destruct (Rle_dec (rmin (x0 :: xs)) 0); [discriminate|lra].
  - intros H. destruct (log_x ax) eqn:E.
    + specialize (H eq_refl _ (rmin_in (x0 :: xs) ltac:(discriminate))). unfold Rleb at 1. destruct (Rle_dec (rmin (x0 :: xs)) 0); [lra|].
      match goal with |- context[Req_EM_T ?u ?v] => destruct (Req_EM_T u v) end; cbn [bind]; match goal with |- context[if ?b then Ok _ else Ok _] => destruct b end; cbn [bind]; eexists; reflexivity.
    + match goal with |- context[Req_EM_T ?u ?v] => destruct (Req_EM_T u v) end; cbn [bind]; match goal with |- context[if ?b then Ok _ else Ok _] => destruct b end; cbn [bind]; eexists; reflexivity.
Qed.
Theorem C131_accepts : forall fit sort k a, sorts sort -> p_a a <> Some 1 -> p_downsample a = DF_False ->
  ((exists r, probability_plot fit sort k a = Ok r) <->
   exists f, p_failures a = D_seq f /\ f <> [] /\ (p_fitted a = None -> (minimum_failures k <= length f)%nat) /\ p_right_censored a <> D_other /\
     (match p_a a with Some v => 0 <= v <= 1 | None => True end) /\
     ((p_show_fitted a = Is_true \/ k = K_Gamma \/ k = K_Beta) ->
        exists located D c, shown fit k a f (rc_opt a) located D c /\ (log_kind k -> forall t, In t f -> 0 < (if located then shift_of k (location D) t else t))) /\
     (p_show_fitted a <> Is_true -> log_kind k -> forall t, In t f -> 0 < t)).
Proof.
  intros fit sort k a HS Ha1 HD. split.
  - intros (r & H). destruct (plot_inv fit sort k a r HS H) as (f & chosen & h & rows & y & EF & Hf & Hm & HR & EC & Eh & SD & EP & L & EPt & EL & EX & EM).
    exists f. split; [exact EF|]. split; [exact Hf|]. split; [exact Hm|]. split; [exact HR|].
    assert (map h f <> []) as Hhf by (destruct f; [congruence|discriminate]). assert (y <> []) as Hy by (intros ->; destruct f; [congruence|discriminate]).
    pose proof (proj1 (xylims_ok _ _ _ _ Hhf Hy) (ex_intro _ _ EX)) as HL. rewrite log_axes in HL.
    assert (log_kind k -> forall t, In t f -> 0 < h t) as HL2 by (intros K t Ht; apply HL; [exact K|now apply in_map]).
    split.
    { unfold plotting_positions_unsorted, check_a in EP. destruct (p_a a) as [v|]; [|exact I]. unfold Rltb in EP. destruct (Rlt_dec v 0); [discriminate|]. destruct (Rlt_dec 1 v); [discriminate|]. lra. }
    split.
    + intros Q. assert (flagged (p_show_fitted a) || always_fitted k = true) as E by (destruct Q as [-> |[-> | ->]]; [reflexivity|apply orb_true_r|apply orb_true_r]). rewrite E in EC.
      destruct EC as ([[d c] b] & EC & ->). apply choose_shown in EC. exists b, d, c. split; [exact EC|]. intros K t Ht. specialize (HL2 K t Ht). rewrite Eh, dist_gamma_location in HL2. destruct b; exact HL2.
    + intros Q K. destruct (flagged (p_show_fitted a) || always_fitted k) eqn:E.
      * destruct (p_show_fitted a); [congruence| |]; destruct k; try discriminate; destruct K.
      * subst chosen. subst h. intros t Ht. now apply HL2.
  - intros (f & EF & Hf & Hm & HR & HA & HQ & HN).
    assert (exists chosen, (if flagged (p_show_fitted a) || always_fitted k then let! c := choose_dist fit k a f (rc_opt a) in Ok (Some c) else Ok None) = Ok chosen /\
      (log_kind k -> forall t, In t f -> 0 < match chosen with Some ((d, _), true) => shift_of k (dist_gamma d) | _ => fun t => t end t)) as (chosen & EC & HL).
    { destruct (flagged (p_show_fitted a) || always_fitted k) eqn:E.
      - assert (p_show_fitted a = Is_true \/ k = K_Gamma \/ k = K_Beta) as Q by (destruct (p_show_fitted a); [now left| |]; destruct k; try discriminate; tauto).
        destruct (HQ Q) as (b & D & c & HSh & HL). apply choose_shown in HSh. rewrite HSh. cbn [bind]. eexists. split; [reflexivity|]. intros K t Ht. specialize (HL K t Ht). rewrite <- dist_gamma_location in HL. destruct b; exact HL.
      - exists None. split; [reflexivity|]. apply HN. intros Q. now rewrite Q in E. }
    set (h := match chosen with Some ((d, _), true) => shift_of k (dist_gamma d) | _ => fun t => t end) in *.
    destruct (unsorted_ok (p_a a) (map h f) (map h (censored a)) _ ltac:(destruct f; [congruence|discriminate]) ltac:(destruct (p_a a) as [v|]; [assert (v <> 1) by congruence; lra|exact I]) (HS (map h f) (map h (censored a)))) as (y & EP).
    assert (y <> []) as Hy. { destruct (plotting_positions_restores _ _ _ _ _ _ (proj1 (HS (map h f) (map h (censored a)))) EP) as (_ & L & _). intros ->. destruct f; [congruence|discriminate]. }
    destruct (proj2 (xylims_ok (axes_of k (option_map (fun c => fst (fst c)) chosen)) (1 / 10) (map h f) y ltac:(destruct f; [congruence|discriminate]) Hy)) as ([xl yl] & EX).
    { rewrite log_axes. intros K v Hv. apply in_map_iff in Hv. destruct Hv as (t & <- & Ht). now apply HL. }
    unfold probability_plot. rewrite EF. assert ((length f =? 0)%nat = false) as -> by (destruct f; [congruence|reflexivity]).
    match goal with |- exists r, (if ?b then _ else _) = _ => assert (b = false) as -> end.
    { destruct (p_fitted a); [apply andb_false_r|]. rewrite andb_true_r. apply Nat.ltb_ge. now apply Hm. }
    assert (match p_right_censored a with D_none => Ok None | D_seq l => Ok (Some l) | D_other => Err ValueError end = Ok (rc_opt a)) as -> by (unfold rc_opt; destruct (p_right_censored a); congruence).
    cbn [bind]. rewrite EC. cbn [bind]. cbv zeta. fold h. rewrite rc_opt_shift, EP. cbn [bind fst snd]. rewrite HD. cbn [xy_downsample bind].
    destruct (flagged (p_show_scatter a)); cbn [bind]; rewrite EX; cbn [bind]; eexists; reflexivity.
Qed.
Print Assumptions C131_accepts.

(** ** Without the distribution *)
(** Without the fitted distribution the points are at the failure times themselves. Missing: the Gamma plot. *)
Theorem C131_hidden_partial : forall fit sort k a r, sorts sort -> probability_plot fit sort k a = Ok r -> k <> K_Gamma -> p_show_fitted a <> Is_true ->
  d_line r = None /\ (p_show_scatter a = Is_true -> p_downsample a = DF_False -> proper_fits fit a k ->
    exists f rows y, p_failures a = D_seq f /\ sorted_data f (censored a) rows /\ plotting_positions_unsorted (p_a a) rows = Ok (f, y) /\ d_points r = Some (combine f y)).
Proof.
  intros fit sort k a r HS H HK HF. destruct (plot_inv fit sort k a r HS H) as (f & chosen & h & rows & y & EF & _ & _ & _ & EC & Eh & D & EP & L & EPt & EL & _ & EM).
  assert (flagged (p_show_fitted a) = false) as E by (destruct (p_show_fitted a); [congruence|reflexivity|reflexivity]). rewrite E in *. split; [exact EL|]. intros HSc HD HP. rewrite HSc, HD in EPt. cbn [flagged] in EPt.
  destruct EPt as (s & Es & EPt). cbn in Es. injection Es as <-. exists f, rows, y. split; [exact EF|]. split; [exact D|]. split; [exact EP|]. rewrite EPt. cbn [fst snd]. do 2 f_equal.
  rewrite <- (map_id f) at 2. apply map_ext. intros t. rewrite Eh. destruct chosen as [[[d c] b]|]; [|reflexivity]. cbn [orb] in EC. destruct b; [|reflexivity].
  destruct (always_fitted k) eqn:EA; [|discriminate]. destruct EC as (c0 & EC & EC2). injection EC2 as <-. apply choose_shown in EC. destruct k; try discriminate; [congruence|].
  destruct EC as (_ & EC). destruct (p_fitted a); [destruct EC as (_ & HB & _); destruct (proj1 HB eq_refl); discriminate|destruct EC as (_ & _ & HB); now discriminate (HB eq_refl)].
Qed.
Print Assumptions C131_hidden_partial.

Definition by_time (r s : nat * row) : bool := Rleb (fst (snd r)) (fst (snd s)).
Lemma by_time_sorts : sorts (isort by_time).
Proof.
  intros f rc. split; [apply isort_perm|]. pose proof (isort_sorted by_time) as Q. assert (sorted by_time (isort by_time (indexed (all_rows f rc)))) as S.
  { apply Q; unfold by_time, Rleb.
    - intros x y. destruct (Rle_dec (fst (snd x)) (fst (snd y))); [now left|]. destruct (Rle_dec (fst (snd y)) (fst (snd x))); [now right|lra].
    - intros x y z. destruct (Rle_dec (fst (snd x)) (fst (snd y))); [|discriminate]. destruct (Rle_dec (fst (snd y)) (fst (snd z))); [|discriminate]. destruct (Rle_dec (fst (snd x)) (fst (snd z))); [reflexivity|lra]. }
  revert S. unfold sorted. generalize (isort by_time (indexed (all_rows f rc))). induction l as [|r l IH]; intros S; [constructor|]. inversion S as [|? ? S1 S2]; subst. constructor; [now apply IH|].
  revert S2. apply Forall_impl. intros s. unfold by_time, Rleb. now destruct (Rle_dec (fst (snd r)) (fst (snd s))).
Qed.
Definition no_fit : kind -> bool -> list R -> option (list R) -> R -> result (dist * covs) := fun _ _ _ _ _ => Err RuntimeError.
Definition given_args (fit_gamma show : flag) (d : dist) : plot_args :=
  mkPlotArgs (D_seq [7; 5; 6]) (D_seq [8]) fit_gamma (Some (d, {| se_a := 1; se_b := 1; cov_ab := 0 |})) None (95 / 100) show Is_true DF_False.
Lemma given_proper k fg s d : valid d -> of_kind k d -> proper_fits no_fit (given_args fg s d) k.
Proof. intros V K. split; [discriminate|]. intros d0 c H. cbn in H. injection H as <- _. now split. Qed.
Lemma given_ok k d fg s : has_gamma k = true -> 0 < location d <= 4 -> exists r, probability_plot no_fit (isort by_time) k (given_args fg s d) = Ok r.
Proof.
  intros HG HD. apply C131_accepts; [apply by_time_sorts|discriminate|reflexivity|]. exists [7; 5; 6]. split; [reflexivity|]. split; [discriminate|]. split; [discriminate|]. split; [discriminate|]. split; [exact I|]. split.
  - intros _. exists true, d, {| se_a := 1; se_b := 1; cov_ab := 0 |}. split.
    + split; [cbn; lra|]. split; [reflexivity|]. split; [split; [intros _; split; [exact HG|left; lra]|reflexivity]|intros _; right; lra].
    + intros _ t Ht. unfold shift_of. destruct Ht as [<-|[<-|[<-|[]]]]; destruct k; lra.
  - intros _ _ t Ht. destruct Ht as [<-|[<-|[<-|[]]]]; lra.
Qed.
(** The Gamma plot without the fitted distribution moves the points by gamma, though the warning it prints says that gamma
    is not used. *)
Theorem C131_hidden_refuted : exists fit sort a r f pts, sorts sort /\ proper_fits fit a K_Gamma /\ p_failures a = D_seq f /\ p_fit_gamma a = Is_true /\ p_show_fitted a = Is_false /\
  probability_plot fit sort K_Gamma a = Ok r /\ d_line r = None /\ d_points r = Some pts /\ map fst pts <> f.
Proof.
  destruct (given_ok K_Gamma (Gamma 1 2 3) Is_true Is_false eq_refl ltac:(cbn; lra)) as (r & H).
  destruct (plot_inv _ _ _ _ _ by_time_sorts H) as (f & chosen & h & rows & y & EF & _ & _ & _ & EC & Eh & D & EP & L & EPt & EL & _ & EM).
  cbn in EF. injection EF as <-. cbn [p_show_scatter given_args flagged] in EPt. destruct EPt as (s & Es & EPt). cbn [p_downsample given_args xy_downsample] in Es. injection Es as <-.
  cbn [p_show_fitted given_args flagged orb always_fitted] in EC. destruct EC as ([[d c] b] & EC & ->). apply choose_shown in EC. destruct EC as (_ & EC & HB & _).
  assert (d = Gamma 1 2 3) as -> by congruence. assert (b = true) as -> by (apply HB; split; [reflexivity|now right]).
  exists no_fit, (isort by_time), (given_args Is_true Is_false (Gamma 1 2 3)), r, [7; 5; 6], (combine (map h [7; 5; 6]) y).
  split; [apply by_time_sorts|]. split; [apply given_proper; [cbn; lra|exact I]|]. do 3 (split; [reflexivity|]). split; [exact H|]. split; [exact EL|]. split; [exact EPt|].
  rewrite map_fst_combine by (rewrite map_length; lia). rewrite Eh. cbn. intros Q. injection Q. lra.
Qed.
Print Assumptions C131_hidden_refuted.

(** On Weibull paper an Exponential fit with gamma has its points moved by another 0.009 of whatever unit the times are in: a
    failure whose plotting position is exactly the fitted probability is not on the line. *)
Theorem C131_points_refuted : exists fit sort a r L c pts D f i, sorts sort /\ proper_fits fit a K_Exponential_W /\ probability_plot fit sort K_Exponential_W a = Ok r /\
  p_failures a = D_seq f /\ d_points r = Some pts /\ d_line r = Some (L, c) /\ fitted fit K_Exponential_W a f D c /\ (i < length f)%nat /\
  cdf L (fst (nth i pts (0, 0))) <> cdf D (nth i f 0).
Proof.
  destruct (given_ok K_Exponential_W (Exponential 1 3) Is_true Is_true eq_refl ltac:(cbn; lra)) as (r & H).
  destruct (plot_inv _ _ _ _ _ by_time_sorts H) as (f & chosen & h & rows & y & EF & _ & _ & _ & EC & Eh & D & EP & L & EPt & EL & _ & EM).
  cbn in EF. injection EF as <-. cbn [p_show_scatter given_args flagged] in EPt. destruct EPt as (s & Es & EPt). cbn [p_downsample given_args xy_downsample] in Es. injection Es as <-.
  cbn [p_show_fitted given_args flagged orb always_fitted] in EC. destruct EC as ([[d c] b] & EC & ->). apply choose_shown in EC. destruct EC as (_ & EC & HB & _).
  assert (d = Exponential 1 3) as -> by congruence. assert (b = true) as -> by (apply HB; split; [reflexivity|now right]).
  cbn [p_show_fitted given_args flagged option_map fst snd without_gamma] in EL.
  exists no_fit, (isort by_time), (given_args Is_true Is_true (Exponential 1 3)), r, (Exponential 1 0), c, (combine (map h [7; 5; 6]) y), (Exponential 1 3), [7; 5; 6], 0%nat.
  split; [apply by_time_sorts|]. split; [apply given_proper; [cbn; lra|exact I]|]. split; [exact H|]. split; [reflexivity|]. split; [exact EPt|]. split; [exact EL|]. split; [exact EC|]. split; [simpl; lia|].
  destruct y as [|y0 y]; [discriminate|]. cbn [map combine nth fst]. rewrite Eh. cbn [dist_gamma shift_of].
  rewrite (proj1 (proj2 (shift_functions (Exponential 1 3) 7))). cbn [unshifted location]. intros Q.
  assert (valid (Exponential 1 0)) as V by (cbn; lra).
  pose proof (cdf_strict (Exponential 1 0) V (7 - 3) (7 - 3 + 9 / 1000) ltac:(split; cbn; lra) ltac:(split; cbn; lra) ltac:(lra)). lra.
Qed.
Print Assumptions C131_points_refuted.

Example C131_case : exists r, probability_plot no_fit (isort by_time) K_Weibull (given_args Is_false Is_true (Weibull 2 3 4)) = Ok r /\
  proper_fits no_fit (given_args Is_false Is_true (Weibull 2 3 4)) K_Weibull /\ d_minus_gamma r = true /\
  exists L c pts, d_line r = Some (L, c) /\ d_points r = Some pts /\ map fst pts = [7 - 4; 5 - 4; 6 - 4].
Proof.
  destruct (given_ok K_Weibull (Weibull 2 3 4) Is_false Is_true eq_refl ltac:(cbn; lra)) as (r & H). exists r. split; [exact H|].
  split; [apply given_proper; [cbn; lra|exact I]|].
  destruct (plot_inv _ _ _ _ _ by_time_sorts H) as (f & chosen & h & rows & y & EF & _ & _ & _ & EC & Eh & D & EP & L & EPt & EL & _ & EM).
  cbn in EF. injection EF as <-. cbn [p_show_scatter given_args flagged] in EPt. destruct EPt as (s & Es & EPt). cbn [p_downsample given_args xy_downsample] in Es. injection Es as <-.
  cbn [p_show_fitted given_args flagged orb always_fitted] in EC. destruct EC as ([[d c] b] & EC & ->). apply choose_shown in EC. destruct EC as (_ & EC & HB & _).
  assert (d = Weibull 2 3 4) as -> by congruence. assert (b = true) as -> by (apply HB; split; [reflexivity|left; cbn; lra]). split; [exact EM|].
  cbn [p_show_fitted given_args flagged option_map fst snd without_gamma] in EL. exists (Weibull 2 3 0), c, (combine (map h [7; 5; 6]) y). split; [exact EL|]. split; [exact EPt|].
  rewrite map_fst_combine by (rewrite map_length; lia). rewrite Eh. reflexivity.
Qed.
