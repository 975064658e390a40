(** Properties C139 and C140: the probability plots and the life-stress plots of the accelerated life test fitters. *)
From Coquelicot Require Import Coquelicot.
From Coq Require Import String.
From Coq Require Import List Arith Reals Bool Permutation Sorted Lra Lia.
From Verif Require Import Base RealFacts Gauss Ext RList RepairModel RepairProofs NonparModel NonparSpec NonparSpec2 NonparProofs NonparProofs5 RepairProofs3 DistModel CIModel CIProofs DistSpec DistProofs DistProofs2 DistProofs3 RegProofs
  SelModel PlotModel PlotSpec PlotProofs PlotProps QQSpec InputModel FArgModel OtherModel OtherSpec ALTModel ALTSpec ALTProofs ALTProofs2 ALTProps PPlotModel PPlotSpec PPlotProofs PPlotProps ALTPlotModel ALTPlotSpec ALTPlotProofs LPlotProofs QQProofs.
Import ListNotations.
Open Scope R_scope.

(** * C139 *)

Lemma plot_groups_inv fit sort d m k r P : fitter_prob_plot fit sort d m k r = Ok P ->
  exists x y, draw_groups fit sort d (fun s => alt_life m (a_params r) (fst s) (snd s)) (a_shape r) (k_failure_groups k) (k_censored_groups k) (map h_original (a_change r)) 0 (k_stresses k) = Ok (x, y, b_groups P) /\
    (match k_use k with
     | None => b_use P = None
     | Some u => b_use P = Some (at_use d (alt_life m (a_params r) (fst u) (snd u)) (a_shape r), length (k_stresses k)) /\ (length (k_stresses k) < color_cycle)%nat
     end) /\
    probability_plot_xylims (final_axes d) (1 / 10) (match b_use P with Some (D, _) => x ++ [ppf D (rmin y); ppf D (rmax y)] | None => x end) y = Ok (b_xlim P, b_ylim P).
Proof.
  unfold fitter_prob_plot, ALT_prob_plot. intros H. apply bind_ok in H. destruct H as ([[x y] gs] & EG & H). apply bind_ok in H. destruct H as (u & EU & H). apply bind_ok in H. destruct H as ([xl yl] & EL & H).
  injection H as <-. cbn [b_groups b_use b_xlim b_ylim fst snd] in *. exists x, y. split; [exact EG|]. split; [|exact EL].
  destruct (k_use k) as [s|]; [|now injection EU as <-]. destruct (k_stresses k) as [|s0 rest]; [discriminate|]. apply bind_ok in EU. destruct EU as (c & EC & EU). apply colour_ok in EC. destruct EC as [-> HC]. injection EU as <-.
  rewrite Nat.add_1_r in *. split; [reflexivity|exact HC].
Qed.

(** For every stress: the failures at that stress with their plotting positions, the distribution of life that the
    model has at that stress as a solid line, and a colour of its own. *)
Theorem C139_groups fit sort d m k r P dual i s : sorts sort -> fitter_prob_plot fit sort d m k r = Ok P -> grouped dual k -> scale_ok m (a_params r) ->
  length (b_groups P) = length (k_stresses k) /\ NoDup (map b_colour (b_groups P)) /\
  (nth_error (k_stresses k) i = Some s -> 0 < fst s ->
   exists g rows y D, nth_error (b_groups P) i = Some g /\ sorted_data (failed_at dual k s) (censored_at dual k s) rows /\
     plotting_positions_unsorted None rows = Ok (failed_at dual k s, y) /\ d_points (b_plot g) = Some (combine (failed_at dual k s) y) /\
     d_line (b_plot g) = Some (D, no_errors) /\ life_distribution d m (a_params r) (a_shape r) s D).
Proof.
  intros HS H (ND & HI & GF & GC) HP. destruct (plot_groups_inv _ _ _ _ _ _ _ H) as (x & y & EG & _ & _). destruct (draw_spec _ _ _ _ _ _ _ _ HS _ _ _ _ _ EG) as (L1 & _ & L3 & _ & _ & _ & _ & L8).
  split; [exact L1|]. split; [rewrite L3; apply seq_NoDup|]. intros Hs H1. destruct (L8 i s Hs) as (f & o & p & rows & yj & A & B & C & D & E & F & G & I & J & K). rewrite Nat.add_0_l in *.
  assert (f = failed_at dual k s) as ->. { rewrite GF in A. rewrite (map_nth_error _ _ _ Hs) in A. injection A as <-. reflexivity. }
  assert (nth_group (k_censored_groups k) i = censored_at dual k s) as EQ.
  { rewrite GC. unfold censored_at. destruct (k_censored k) as [|c0 cs].
    - cbn. destruct (censored_stresses dual k); reflexivity.
    - cbn [nth_group]. apply nth_error_nth. exact (map_nth_error _ _ _ Hs). }
  rewrite EQ in D. exists (mkGroup p (dashed d o) i), rows, yj, (fitted_params d (alt_life m (a_params r) (fst s) (snd s)) (a_shape r)).
  split; [exact C|]. split; [exact D|]. split; [exact E|]. split; [exact I|]. split; [exact J|]. rewrite fitted_params_distribution. now apply life_distribution_exists.
Qed.
Print Assumptions C139_groups.

(** The dashed line is the distribution fitted to that stress alone. Missing: Exponential (C139_dashed_refuted). *)
Theorem C139_dashed_partial fit sort d m k r P i g row : sorts sort -> d <> A_Exponential -> fitter_prob_plot fit sort d m k r = Ok P -> (i < length (k_stresses k))%nat ->
  nth_error (b_groups P) i = Some g -> nth_error (a_change r) i = Some row -> b_dashed g = option_map (alone d) (h_original row).
Proof.
  intros HS HD H Hi Hg Hr. destruct (plot_groups_inv _ _ _ _ _ _ _ H) as (x & y & EG & _ & _). destruct (draw_spec _ _ _ _ _ _ _ _ HS _ _ _ _ _ EG) as (_ & _ & _ & _ & _ & _ & _ & L8).
  destruct (nth_error (k_stresses k) i) as [s|] eqn:Es; [|apply nth_error_None in Es; lia]. destruct (L8 i s Es) as (f & o & p & rows & yj & _ & B & C & _). rewrite Nat.add_0_l in *.
  rewrite C in Hg. injection Hg as <-. cbn [b_dashed]. rewrite (map_nth_error h_original _ _ Hr) in B. injection B as <-. destruct (h_original row) as [[a b]|]; [|reflexivity]. destruct d; try reflexivity. congruence.
Qed.
Print Assumptions C139_dashed_partial.
(** Exponential: the distribution fitted to a stress alone is a Weibull distribution, and the dashed line an Exponential
    one with its scale; they differ whenever the shape is not 1. *)
Theorem C139_dashed_refuted a b : 0 < a -> 0 < b -> b <> 1 -> exists D t, dashed A_Exponential (Some (a, b)) = Some D /\ 0 < t /\ cdf D t <> cdf (alone A_Exponential (a, b)) t.
Proof.
  intros Ha Hb H1. exists (Exponential (1 / a) 0), (2 * a). split; [reflexivity|]. split; [lra|]. unfold alone. cbn [fitted_alone fst snd cdf]. unfold on_pos.
  replace ((2 * a - 0) / (1 / (1 / a))) with 2 by (field; lra). replace ((2 * a - 0) / a) with 2 by (field; lra). destruct (Rlt_dec 0 2); [|lra]. intros E.
  assert (exp (Ropp 2) = exp (- Rpower 2 b)) as E2 by lra. apply exp_inv in E2. assert (Rpower 2 b = Rpower 2 1) as E3 by (rewrite Rpower_1; lra).
  unfold Rpower in E3. apply exp_inv in E3. assert (0 < ln 2) by (rewrite <- ln_1; apply ln_increasing; lra). apply Rmult_eq_reg_r in E3; lra.
Qed.
Print Assumptions C139_dashed_refuted.
(** The use stress: the distribution the model has there, in a colour of its own. *)
Theorem C139_use fit sort d m k r P u : sorts sort -> fitter_prob_plot fit sort d m k r = Ok P -> scale_ok m (a_params r) -> k_use k = Some u -> 0 < fst u ->
  exists D c, b_use P = Some (D, c) /\ life_distribution d m (a_params r) (a_shape r) u D /\ ~ In c (map b_colour (b_groups P)).
Proof.
  intros HS H HP Hu H1. destruct (plot_groups_inv _ _ _ _ _ _ _ H) as (x & y & EG & EU & _). destruct (draw_spec _ _ _ _ _ _ _ _ HS _ _ _ _ _ EG) as (_ & _ & L3 & _). rewrite Hu in EU. destruct EU as [EU _].
  eexists _, _. split; [exact EU|]. rewrite at_use_distribution. split; [now apply life_distribution_exists|]. rewrite L3, in_seq. lia.
Qed.
Print Assumptions C139_use.
Theorem C139_no_use fit sort d m k r P : fitter_prob_plot fit sort d m k r = Ok P -> k_use k = None -> b_use P = None.
Proof. intros H E. destruct (plot_groups_inv _ _ _ _ _ _ _ H) as (x & y & _ & EU & _). now rewrite E in EU. Qed.
Print Assumptions C139_no_use.

(** The axes show the points of all groups, and the line of the use stress over the range of the plotting positions of
    the points. Missing: plotting positions that are all the same and below 1/11 (C99). *)
Lemma alt_valid d life shape : 0 < life -> shape_ok d shape -> valid (alt_distribution d life shape).
Proof. intros H1 H2. destruct d; cbn in *; repeat split; try lra; try exact H1; try exact H2. apply Rdiv_lt_0_compat; lra. Qed.
Lemma alt_ppf_pos d life shape q : d <> A_Normal -> 0 < life -> shape_ok d shape -> 0 < q < 1 -> 0 < ppf (alt_distribution d life shape) q.
Proof.
  intros HD H1 H2 Hq. destruct (F_ppf _ (all_facts _ (alt_valid d life shape H1 H2)) q Hq) as [HI _]. destruct d; try congruence; exact (proj1 HI).
Qed.
Theorem C139_limits_partial fit sort d m k r P dual : sorts sort -> fitter_prob_plot fit sort d m k r = Ok P -> grouped dual k -> scale_ok m (a_params r) -> shape_ok d (a_shape r) ->
  (forall s, In s (k_stresses k) -> 0 < fst s) -> (forall u, k_use k = Some u -> 0 < fst u) -> (forall t, In t (k_failures k) -> 0 < t) -> k_stresses k <> [] ->
  (exists g g' pts pts' v v', In g (b_groups P) /\ In g' (b_groups P) /\ d_points (b_plot g) = Some pts /\ d_points (b_plot g') = Some pts' /\ In v pts /\ In v' pts' /\ snd v < snd v') ->
  (forall g pts v, In g (b_groups P) -> d_points (b_plot g) = Some pts -> In v pts -> on_chart (b_xlim P) (b_ylim P) v) /\
  (forall D c, b_use P = Some (D, c) -> exists lo hi, 0 < lo /\ lo < hi /\ hi < 1 /\ (forall g pts v, In g (b_groups P) -> d_points (b_plot g) = Some pts -> In v pts -> lo <= snd v <= hi) /\
     forall q, lo <= q <= hi -> on_chart (b_xlim P) (b_ylim P) (ppf D q, q)).
Proof.
  intros HS H (ND & HI & GF & GC) HP HSh Hst Hus Hpos Hne HT. destruct (plot_groups_inv _ _ _ _ _ _ _ H) as (x & y & EG & EU & EL).
  destruct (draw_spec _ _ _ _ _ _ _ _ HS _ _ _ _ _ EG) as (L1 & _ & _ & L4 & L5 & L6 & L7 & L8). specialize (L6 Hne).
  assert (y <> []) as Hy by (intros ->; destruct x; [congruence|discriminate]).
  assert (forall g pts v, In g (b_groups P) -> d_points (b_plot g) = Some pts -> In v pts -> In (fst v) x /\ In (snd v) y) as HIn.
  { intros g pts v Hg Hp Hv. apply In_nth_error in Hg. destruct Hg as (i & Hi). assert (i < length (k_stresses k))%nat as Li by (rewrite <- L1; apply nth_error_Some; congruence).
    destruct (nth_error (k_stresses k) i) as [s|] eqn:Es; [|apply nth_error_None in Es; lia]. destruct (L8 i s Es) as (f & o & p & rows & yj & _ & _ & C & _ & _ & _ & _ & I & _ & K).
    rewrite Hi in C. injection C as ->. cbn [b_plot] in Hp. rewrite I in Hp. injection Hp as <-. destruct v as [a b]. apply K in Hv. split; [exact (in_combine_l _ _ _ _ Hv)|exact (in_combine_r _ _ _ _ Hv)]. }
  assert (forall t, In t x -> 0 < t) as HXP.
  { intros t Ht. destruct (L7 t Ht) as (j & f & _ & Hf & Hin). apply nth_error_In in Hf. rewrite GF in Hf. apply in_map_iff in Hf. destruct Hf as (s & <- & _). apply Hpos.
    clear -Hin. revert Hin. generalize (k_failures k). induction (failure_stresses dual k) as [|z l IH]; intros ts Hin; [destruct Hin|]. destruct ts as [|t0 ts]; [destruct Hin|]. cbn in Hin.
    destruct (Rpair_dec z s); [destruct Hin as [<-|Hin]; [now left|right; now apply IH]|right; now apply IH]. }
  assert (PlotSpec.two_values y) as TY.
  { destruct HT as (g & g' & pts & pts' & v & v' & A & B & C & D & E & F & G). exists (snd v), (snd v'). split; [now apply (HIn g pts)|]. split; [now apply (HIn g' pts')|exact G]. }
  assert (shows (b_ylim P) y /\ 0 < fst (b_ylim P) /\ snd (b_ylim P) < 1) as ([SY1 SY2] & _).
  { eapply (C99_y_partial (final_axes d) (1 / 10) y); [destruct d; exact I|lra|exact Hy|exact L4|now left|exact EL]. }
  set (x' := match b_use P with Some (D, _) => x ++ [ppf D (rmin y); ppf D (rmax y)] | None => x end) in *.
  assert (incl x x') as IX. { unfold x'. destruct (b_use P) as [[D c]|]; [intros t Ht; apply in_or_app; now left|apply incl_refl]. }
  pose proof (L4 _ (rmin_in y Hy)) as Q1. pose proof (L4 _ (rmax_in y Hy)) as Q2.
  assert (d <> A_Normal -> forall t, In t x' -> 0 < t) as HX'.
  { intros HD t Ht. unfold x' in Ht. destruct (b_use P) as [[D c]|] eqn:EB; [|now apply HXP]. apply in_app_or in Ht. destruct Ht as [Ht|Ht]; [now apply HXP|].
    destruct (k_use k) as [u|] eqn:Eu; [|discriminate EU]. destruct EU as [EU _]. injection EU as -> ->. rewrite at_use_distribution in Ht.
    assert (0 < alt_life m (a_params r) (fst u) (snd u)) as HL by (apply life_pos; [exact HP|now apply Hus]). cbn in Ht. destruct Ht as [<-|[<-|[]]]; now apply alt_ppf_pos. }
  assert (shows (b_xlim P) x') as [SX1 SX2].
  { eapply (C99_x_partial (final_axes d) (1 / 10) x'); [lra|intros E; rewrite E in IX; destruct x as [|t x]; [congruence|destruct (IX t); now left]| | | |exact Hy|exact EL].
    - intros HL. apply HX'. intros ->. discriminate.
    - intros HL v Hv. left. apply HX'; [intros ->; discriminate|exact Hv].
    - right. destruct x as [|t x]; [congruence|]. exists t. split; [apply IX; now left|apply HXP; now left]. }
  split.
  - intros g pts v A B C. destruct (HIn g pts v A B C) as [D E]. split; [apply SX2, IX, D|apply SY2, E].
  - intros D c EB. exists (rmin y), (rmax y). split; [apply Q1|]. split. { destruct TY as (a & b & A & B & C). apply rmin_le in A. apply rmax_ge in B. lra. }
    split; [apply Q2|]. split. { intros g pts v A B C. destruct (HIn g pts v A B C) as [_ E]. split; [now apply rmin_le|now apply rmax_ge]. }
    intros q Hq. destruct (k_use k) as [u|] eqn:Eu; [|congruence]. destruct EU as [EU _]. rewrite EB in EU. injection EU as ED _. rewrite at_use_distribution in ED.
    assert (valid D) as VD by (rewrite ED; apply alt_valid; [apply life_pos; [exact HP|now apply Hus]|exact HSh]).
    assert (In (ppf D (rmin y)) x' /\ In (ppf D (rmax y)) x') as [I1 I2] by (unfold x'; rewrite EB; split; apply in_or_app; right; cbn; tauto).
    apply SX2 in I1. apply SX2 in I2. pose proof (ppf_le D (rmin y) q VD ltac:(lra) ltac:(lra) ltac:(lra)). pose proof (ppf_le D q (rmax y) VD ltac:(lra) ltac:(lra) ltac:(lra)).
    split; cbn [fst snd]; [lra|]. pose proof (SY2 _ (rmin_in y Hy)). pose proof (SY2 _ (rmax_in y Hy)). lra.
Qed.
Print Assumptions C139_limits_partial.

(** The margins are those of the paper of the distribution (Weibull paper for Exponential): a tenth, on its own
    scales, of the range of the points of all groups and, for times, of the line of the use stress. *)
Definition paper_dist (d : alt_dist) : dist :=
  match d with A_Weibull | A_Exponential => Weibull 1 1 0 | A_Lognormal => Lognormal 0 1 0 | A_Normal => Normal 0 1 end.
Lemma in_combine_app {A B} (a a' : list A) (b b' : list B) v : length a = length b -> In v (combine (a ++ a') (b ++ b')) -> In v (combine a b) \/ In v (combine a' b').
Proof.
  revert b. induction a as [|x a IH]; intros [|z b] L H; try discriminate; cbn in H |- *; [now right|].
  destruct H as [H|H]; [left; now left|]. destruct (IH b ltac:(now injection L) H); [left; now right|now right].
Qed.
Lemma draw_all fit sort d life shape fg cg originals : sorts sort -> forall stresses i x y gs, draw_groups fit sort d life shape fg cg originals i stresses = Ok (x, y, gs) ->
  forall v, In v (combine x y) -> exists g pts, In g gs /\ d_points (b_plot g) = Some pts /\ In v pts.
Proof.
  intros HS. induction stresses as [|s rest IH]; intros i x y gs H v Hv.
  - cbn in H. injection H as <- <- <-. destruct Hv.
  - pose proof (draw_spec _ _ _ _ _ _ _ _ HS _ _ _ _ _ H) as (_ & _ & _ & _ & _ & _ & _ & L8). destruct (L8 0%nat s eq_refl) as (f & o & p & rows & yj & A & _ & C & D & E & F & _ & I & _).
    rewrite Nat.add_0_r in *. cbn [draw_groups] in H. apply bind_ok in H. destruct H as (f' & Ef & H). apply item_ok in Ef. replace f' with f in * by congruence. apply bind_ok in H. destruct H as (rc & Er & H).
    apply bind_ok in H. destruct H as (xy & Exy & H). apply bind_ok in H. destruct H as (c & Ec & H). apply bind_ok in H. destruct H as (p' & Ep & H). apply bind_ok in H. destruct H as (o' & Eo & H).
    apply bind_ok in H. destruct H as ([[x1 y1] g1] & Em & H). cbn [fst snd] in H. injection H as <- <- <-. cbn in C. injection C; intros; subst p'; clear C; clear E D F.
    destruct f as [|f0 fr]. { rewrite group_plot_empty in Ep. discriminate Ep. }
    change (match rc with Some l => l | None => [] end) with (listed rc) in Exy. pose proof (HS (f0 :: fr) (listed rc)) as SD.
    rewrite (group_plot_eq fit sort d (f0 :: fr) rc _ ltac:(discriminate) (fitted_params_gamma d (life s) shape)) in Ep. rewrite Exy in Ep. cbn [bind] in Ep. apply bind_ok in Ep. destruct Ep as (lims & _ & Ep). injection Ep as <-. cbn [d_points] in I.
    destruct xy as [x0 y0]. cbn [fst snd] in *. destruct (plotting_positions_restores (f0 :: fr) (listed rc) None _ x0 y0 (proj1 SD) Exy) as (-> & L & _).
    apply in_combine_app in Hv; [|now symmetry]. destruct Hv as [Hv|Hv].
    + eexists _, (combine (f0 :: fr) y0). split; [now left|]. cbn [b_plot d_points]. split; [reflexivity|exact Hv].
    + destruct (IH _ _ _ _ Em v Hv) as (g & pts & G1 & G2 & G3). exists g, pts. split; [now right|]. now split.
Qed.
Theorem C139_margins fit sort d m k r P : sorts sort -> fitter_prob_plot fit sort d m k r = Ok P ->
  exists x y, length x = length y /\ (forall v, In v (combine x y) <-> exists g pts, In g (b_groups P) /\ d_points (b_plot g) = Some pts /\ In v pts) /\
  forall x0 x1 y0 y1, least y0 y -> greatest y1 y -> y0 < y1 ->
  let xs := x ++ match b_use P with Some (D, _) => [ppf D y0; ppf D y1] | None => [] end in
  least x0 xs -> greatest x1 xs -> 0 <= x0 -> x0 < x1 ->
  let D := paper_dist d in let f := forward (own_paper D) in
  (margin_below (PlotSpec.x_scale D) (1 / 10) x0 x1 (fst (b_xlim P)) \/ x0 - 1 / 10 * (x1 - x0) < 0 /\ fst (b_xlim P) = 0) /\
  margin_above (PlotSpec.x_scale D) (1 / 10) x0 x1 (snd (b_xlim P)) /\
  (margin_below f (1 / 10) y0 y1 (fst (b_ylim P)) \/ ~ on_paper (own_paper D) (f y0 - 1 / 10 * (f y1 - f y0)) /\ fst (b_ylim P) = y0) /\
  (margin_above f (1 / 10) y0 y1 (snd (b_ylim P)) \/ ~ on_paper (own_paper D) (f y1 + 1 / 10 * (f y1 - f y0)) /\ snd (b_ylim P) = y1).
Proof.
  intros HS H. destruct (plot_groups_inv _ _ _ _ _ _ _ H) as (x & y & EG & _ & EL). pose proof (draw_spec _ _ _ _ _ _ _ _ HS _ _ _ _ _ EG) as (L1 & _ & _ & L4 & L5 & _ & _ & L8).
  exists x, y. split; [now symmetry|]. split.
  - intros v. split; [apply (draw_all _ _ _ _ _ _ _ _ HS _ _ _ _ _ EG)|]. intros (g & pts & Hg & Hp & Hv). apply In_nth_error in Hg. destruct Hg as (i & Hi).
    destruct (nth_error (k_stresses k) i) as [s|] eqn:Es; [|apply nth_error_None in Es; assert (i < length (b_groups P))%nat by (apply nth_error_Some; congruence); lia].
    destruct (L8 i s Es) as (f & o & p & rows & yj & _ & _ & C & _ & _ & _ & _ & I & _ & K). rewrite Hi in C. injection C as ->. cbn [b_plot] in Hp. rewrite I in Hp. injection Hp as <-. now apply K.
  - intros x0 x1 y0 y1 Ly Gy Hy xs Lx Gx H0 Hx D f.
    assert (rmin y = y0) as R0. { destruct Ly as (I & L). apply Rle_antisym; [now apply rmin_le|]. apply L, rmin_in. intros ->. destruct I. }
    assert (rmax y = y1) as R1. { destruct Gy as (I & L). apply Rle_antisym; [|now apply rmax_ge]. apply L, rmax_in. intros ->. destruct I. }
    assert (final_axes d = PlotSpec.plot_of D) as EA by (unfold D; now destruct d). rewrite EA, R0, R1 in EL.
    assert (probability_plot_xylims (PlotSpec.plot_of D) (1 / 10) xs y = Ok (b_xlim P, b_ylim P)) as EL'.
    { rewrite <- EL. unfold xs. destruct (b_use P) as [[DD c]|]; [reflexivity|now rewrite app_nil_r]. }
    apply (C99_margins D (1 / 10) xs y x0 x1 y0 y1 (b_xlim P) (b_ylim P)); try assumption; try lra.
    + unfold D. destruct d; exact I.
    + apply L4, Ly.
    + apply L4, Gy.
Qed.
Print Assumptions C139_margins.

(** ** When there is a plot *)
Lemma plot_inputs kle d m noisy fit2P minimize diag a k r : total_order kle -> alt_check kle (Some m) a = Ok k -> alt_fit kle d m noisy fit2P minimize diag a = Ok r ->
  length (k_failure_groups k) = length (k_stresses k) /\ length (map h_original (a_change r)) = length (k_stresses k) /\
  (forall f, In f (k_failure_groups k) -> f <> [] /\ Forall (fun t => 0 < t) f) /\ k_stresses k <> [].
Proof.
  intros Ho Hk Hr. destruct (alt_fit_inv _ _ _ _ _ _ _ _ _ Hr) as (k0 & guess & fits & lims & H1 & _ & H3 & (_ & _ & _ & _ & _ & H8)). assert (k0 = k) as -> by congruence. cbv zeta in H8.
  destruct (C73_failures kle (Some m) a k Ho Hk) as (HN & HI & HFg & _). apply group_fits_length in H3. pose proof (check_data_used _ _ _ _ Hk) as (_ & (L1 & _ & L3 & Hp & _ & _ & T1 & _) & EF & _).
  rewrite HFg, map_length in H3. split; [rewrite HFg; apply map_length|]. split; [rewrite H8, !map_length, combine_length; lia|].
  cbn [is_dual] in *. set (fs := failure_stresses (dual_stress m) k) in *.
  assert (length fs = length (k_failures k)) as LF. { unfold fs, failure_stresses, pairs_of. rewrite EF. destruct (dual_stress m); [rewrite combine_length, (proj1 (L3 eq_refl)), L1; apply Nat.min_id|now rewrite map_length]. }
  split.
  - intros f Hf. rewrite HFg in Hf. apply in_map_iff in Hf. destruct Hf as (s & <- & Hs). apply HI in Hs. split.
    + clear -Hs LF. revert Hs LF. generalize (k_failures k). induction fs as [|z l IH]; intros ts Hs LF; [destruct Hs|]. destruct ts as [|t ts]; [discriminate|]. cbn. destruct (Rpair_dec z s) as [E|N]; [discriminate|].
      destruct Hs as [E|Hs]; [congruence|]. apply IH; [exact Hs|now injection LF].
    + apply Forall_forall. intros t Ht. apply at_stress_In in Ht. apply Hp. left. now rewrite <- EF.
  - destruct T1 as (v & w & Hv & _). intros E. assert (fs = []) as E2. { destruct fs as [|z l]; [reflexivity|]. exfalso. assert (In z (k_stresses k)) as Q by (apply HI; now left). rewrite E in Q. destruct Q. }
    rewrite E2 in LF. rewrite EF in LF. cbn in LF. rewrite <- LF in L1. destruct (k_stress_1 k); [destruct Hv|discriminate].
Qed.
(** Up to ten stresses, the use stress included, are drawn. *)
Theorem C139_made_partial fit sort kle d m noisy fit2P minimize diag a k r : sorts sort -> total_order kle -> alt_check kle (Some m) a = Ok k -> alt_fit kle d m noisy fit2P minimize diag a = Ok r ->
  grouped (dual_stress m) k -> scale_ok m (a_params r) -> shape_ok d (a_shape r) -> (forall s, In s (k_stresses k) -> 0 < fst s) -> (forall u, k_use k = Some u -> 0 < fst u) ->
  (length (k_stresses k) + (match k_use k with Some _ => 1 | None => 0 end) <= 10)%nat -> exists P, fitter_prob_plot fit sort d m k r = Ok P.
Proof.
  intros HS Ho Hk Hr (ND & HI & GF & GC) HP HSh Hst Hus HL. destruct (plot_inputs _ _ _ _ _ _ _ _ _ _ Ho Hk Hr) as (L1 & L2 & L3 & L4).
  destruct (draw_ok fit sort d (fun s => alt_life m (a_params r) (fst s) (snd s)) (a_shape r) (k_failure_groups k) (k_censored_groups k) (map h_original (a_change r)) HS (k_stresses k) 0) as ([[x y] gs] & EG).
  { unfold color_cycle. lia. } { cbn [plus]. lia. } { cbn [plus]. lia. } { intros g Hg. rewrite GC in Hg. destruct (k_censored k); [discriminate|]. injection Hg as <-. rewrite map_length. cbn [plus]. lia. } { exact L3. }
  destruct (draw_spec _ _ _ _ _ _ _ _ HS _ _ _ _ _ EG) as (_ & _ & _ & D4 & D5 & D6 & D7 & _). specialize (D6 L4). unfold fitter_prob_plot, ALT_prob_plot. rewrite EG. cbn [bind].
  assert (y <> []) as Hy by (intros ->; destruct x; [congruence|discriminate]).
  assert (forall t, In t x -> 0 < t) as HXP. { intros t Ht. destruct (D7 t Ht) as (j & f & _ & Hf & Hin). apply nth_error_In in Hf. apply L3 in Hf. destruct Hf as [_ Hf]. rewrite Forall_forall in Hf. now apply Hf. }
  assert (exists u, match k_use k with Some s => match k_stresses k with [] => Err NameError | _ :: r0 => let! c := colour (length r0 + 1) in Ok (Some (at_use d (alt_life m (a_params r) (fst s) (snd s)) (a_shape r), c)) end | None => Ok None end = Ok u /\
    (log_x (final_axes d) = true -> forall D c, u = Some (D, c) -> forall q, 0 < q < 1 -> 0 < ppf D q)) as (u & -> & HU).
  { destruct (k_use k) as [s|]; [|eexists; split; [reflexivity|discriminate]]. destruct (k_stresses k) as [|s0 rest]; [congruence|]. cbn [length] in HL. assert (colour (length rest + 1) = Ok (length rest + 1)%nat) as -> by (apply colour_ok; unfold color_cycle; lia).
    eexists. split; [reflexivity|]. intros Hd D c E q Hq. injection E as <- <-. rewrite at_use_distribution. apply alt_ppf_pos; [intros ->; discriminate|apply life_pos; [exact HP|now apply Hus]|exact HSh|exact Hq]. }
  cbn [bind]. set (x' := match u with Some (D, _) => x ++ [ppf D (rmin y); ppf D (rmax y)] | None => x end).
  assert (x' <> []) as Hx' by (unfold x'; destruct u as [[D c]|]; [destruct x; discriminate|exact D6]).
  destruct (proj2 (xylims_ok (final_axes d) (1 / 10) x' y Hx' Hy)) as (lims & ->); [|eexists; reflexivity].
  intros Hd v Hv. unfold x' in Hv. destruct u as [[D c]|]; [|now apply HXP]. apply in_app_or in Hv. destruct Hv as [Hv|Hv]; [now apply HXP|]. specialize (HU Hd D c eq_refl). destruct Hv as [<-|[<-|[]]]; apply HU, D4; [now apply rmin_in|now apply rmax_in].
Qed.
Print Assumptions C139_made_partial.
(** With more stresses than colours there is no plot: the fitter raises IndexError. *)
Definition eleven (use : option use_stress) : alt_args :=
  {| g_failures := map INR (seq 1 11); g_stress_1 := Some (map INR (seq 1 11)); g_stress_2 := None; g_censored := None; g_censored_1 := None; g_censored_2 := None;
     g_CI := 19 / 20; g_optimizer := None; g_use := use |}.
Lemma eleven_acceptable : acceptable false (eleven None).
Proof.
  exists (map INR (seq 1 11)), [], [], [], []. split; [unfold used_stresses; cbn [eleven g_stress_1 g_stress_2 g_censored]; auto|]. cbn [eleven g_failures g_CI g_optimizer g_use known_optimizer use_fits].
  split; [reflexivity|]. split; [reflexivity|]. split; [discriminate|]. split.
  { intros t [H|[]]. apply in_map_iff in H. destruct H as (n & <- & Hn). apply in_seq in Hn. apply lt_0_INR. lia. }
  split; [lra|]. split; [exact I|]. split; [exact I|]. split; [exists (INR 1), (INR 2); split; [apply in_map, in_seq; lia|]; split; [apply in_map, in_seq; lia|cbn; lra]|]. split; [discriminate|]. split; [|discriminate].
  exists [((INR 1, 0), INR 1); ((INR 2, 0), INR 2); ((INR 3, 0), INR 3)]. split; [|split; [intros x Hx; cbn [In] in Hx; cbn [pairs_of seq map combine In]; tauto|reflexivity]].
  constructor; [cbn; intros [H|[H|[]]]; injection H; lra|]. constructor; [cbn; intros [H|[]]; injection H; lra|]. constructor; [intros []|constructor].
Qed.
Lemma eleven_stresses kle m k : total_order kle -> dual_stress m = false -> alt_check kle (Some m) (eleven None) = Ok k -> (11 <= length (k_stresses k))%nat.
Proof.
  intros Ho Hd Hk.
  destruct (C73_failures kle (Some m) _ k Ho Hk) as (HN & HI & _ & _). pose proof (check_data_used _ _ _ _ Hk) as ((E1 & E2 & E3 & E4 & _) & _). cbn [eleven g_stress_1 g_censored] in *. cbn [is_dual] in HI. rewrite Hd in *.
  transitivity (length (map (fun n => (INR n, 0)) (seq 1 11))); [now rewrite map_length, seq_length|]. apply NoDup_incl_length.
    - apply FinFun.Injective_map_NoDup; [|apply seq_NoDup]. intros p q E. injection E as E. now apply INR_eq.
    - intros s Hs. apply HI. unfold failure_stresses, pairs_of. replace (k_stress_1 k) with (map INR (seq 1 11)) by congruence. now rewrite map_map.
Qed.
Theorem C139_many_refuted fit sort kle d m noisy fit2P minimize diag : sorts sort -> total_order kle -> dual_stress m = false ->
  acceptable false (eleven None) /\
  forall k r, alt_check kle (Some m) (eleven None) = Ok k -> alt_fit kle d m noisy fit2P minimize diag (eleven None) = Ok r -> fitter_prob_plot fit sort d m k r = Err IndexError.
Proof.
  intros HS Ho Hd. split; [apply eleven_acceptable|]. intros k r Hk Hr. destruct (plot_inputs _ _ _ _ _ _ _ _ _ _ Ho Hk Hr) as (L1 & L2 & L3 & L4).
  pose proof (eleven_stresses kle m k Ho Hd Hk) as L11.
  unfold fitter_prob_plot, ALT_prob_plot. rewrite draw_index; [reflexivity|exact HS|unfold color_cycle; lia|unfold color_cycle; lia|cbn [plus]; lia|cbn [plus]; lia| |exact L3].
  intros g Hg. exfalso. pose proof (alt_check_form kle (Some m) (eleven None)) as [(e & E & _)|(s1 & s2 & rc & c1 & c2 & keys & fg & cg & o & u & HU & _ & _ & _ & HG & _ & E)]; [congruence|].
  rewrite Hk in E. injection E as ->. cbn [k_censored_groups] in Hg. cbn [is_dual] in *. rewrite Hd in *. destruct HU as (_ & _ & HU). cbn [eleven g_censored] in HU. destruct HU as (-> & -> & ->).
  unfold all_groups, stress_groups in HG. cbn [bind fst snd] in HG. injection HG as _ _ <-. discriminate.
Qed.
Print Assumptions C139_many_refuted.
