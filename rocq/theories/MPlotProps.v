(** C155: the plots of the mean cumulative function show the estimate. *)
From Coquelicot Require Import Coquelicot.
From Coq Require Import List Arith Reals Bool Permutation Sorted Lra Lia.
From Verif Require Import Base Gauss NonparModel NonparProofs RList RepairModel RepairSpec RepairProofs RepairProofs2 RepairProofs3 CIModel MCFModel MCFSpec MCFProofs MCFProps MPlotModel MPlotSpec MPlotProofs.
Import ListNotations.
Open Scope R_scope.

(** From time 0 to the last time of all systems the line is at the mean number of repairs per system so far; it starts at
    (0, 0), goes right and up only, goes through every point that the results give, and fills the axis of time. *)
Theorem C155_line data CI c : Forall (fun s => s <> []) data -> Forall (Forall (fun t => 0 <= t)) data -> mcf_plot data CI = Ok c ->
  (forall repairs t, repairs_of data repairs -> 0 <= t <= latest data -> flat_at (m_line c) t (mean_repairs data repairs t)) /\
  hd_error (m_line c) = Some (0, 0) /\ climbs (m_line c) /\ m_xlim c = (0, latest data) /\
  exists r data', mcf_nonparametric data CI = (Ok r, data') /\
    (forall v, In v (combine (mcf_time r) (mcf_MCF r)) -> In v (m_line c)) /\
    (forall v, In v (combine (mcf_time r) (mcf_lower r)) -> In v (m_lower c)) /\
    (forall v, In v (combine (mcf_time r) (mcf_upper r)) -> In v (m_upper c)).
Proof.
  intros HF HP H. destruct (mcf_plot_inv data CI c HF H) as (r & data' & E & E1 & E2 & E3 & E4 & _). rewrite E1, E2, E3, E4.
  split; [intros repairs t; now apply (line_heights data CI r data')|]. split; [reflexivity|]. split; [now apply (line_climbs data CI r data')|]. split; [reflexivity|].
  exists r, data'. split; [exact E|]. unfold stairs. split; [|split]; intros v Hv; right; apply in_or_app; left; now apply walk_points.
Qed.
Print Assumptions C155_line.

(** At confidence levels from one half on the band is around the line and everything is within the axes. *)
Theorem C155_view_partial data CI c : Forall (fun s => s <> []) data -> Forall (Forall (fun t => 0 <= t)) data -> 1 / 2 <= CI < 1 -> mcf_plot data CI = Ok c ->
  Forall2 (fun v w => fst v = fst w /\ snd v <= snd w) (m_lower c) (m_line c) /\ Forall2 (fun v w => fst v = fst w /\ snd v <= snd w) (m_line c) (m_upper c) /\
  forall v, In v (m_line c ++ m_lower c ++ m_upper c) -> inside (m_xlim c) (m_ylim c) v.
Proof.
  intros HF HP HC H. destruct (mcf_plot_inv data CI c HF H) as (r & data' & E & E1 & E2 & E3 & E4 & E5). rewrite E1, E2, E3, E4, E5.
  destruct (limits_order data CI r data' HF E HC) as (O1 & O2 & _). split; [now apply stairs_pair|]. split; [now apply stairs_pair|].
  intros v Hv. apply (all_inside data CI r data' HF HP E v HC). apply in_app_or in Hv as [Hv|Hv]; [now left|]. apply in_app_or in Hv as [Hv|Hv]; auto.
Qed.
Print Assumptions C155_view_partial.

(** Below one half the band is on the wrong side and the line can leave the axes. *)
Theorem C155_view_refuted : exists data CI c v, Forall (fun s => s <> []) data /\ Forall (Forall (fun t => 0 <= t)) data /\ 0 < CI < 1 /\
  mcf_plot data CI = Ok c /\ In v (m_line c) /\ ~ inside (m_xlim c) (m_ylim c) v.
Proof.
  set (CI := 1 - Phi 1). assert (0 < CI < 1) as HC by (pose proof (Phi_lt_1 1); pose proof (Phi_gt_0 1); unfold CI; lra).
  destruct (mcf_data_ok CI ltac:(lra)) as (r & data' & E). destruct (mcf_plot_ok _ _ _ _ E) as (c & H).
  exists mcf_data, CI, c, (1, 1 / 2). split; [apply mcf_data_ne|]. split; [repeat apply Forall_cons; try apply Forall_nil; lra|]. split; [exact HC|]. split; [exact H|].
  destruct (mcf_plot_inv _ CI c mcf_data_ne H) as (r2 & d2 & Er & E1 & _ & _ & _ & E5). rewrite E in Er. injection Er as <- _.
  destruct (mcf_data_values _ _ _ E) as (ET & EM & EL). split.
  - rewrite E1, ET, EM. cbn. auto.
  - rewrite E5. destruct (mcf_structure _ _ mcf_data_ne _ _ E) as (_ & _ & _ & _ & _ & _ & _ & EL' & EU). rewrite EL in EL'. rewrite EM in EL', EU.
    destruct (mcf_var r) as [|v l] eqn:EV; [discriminate EL'|]. cbn [combine map fst snd] in EL', EU. destruct l; cbn in EL', EU; [|].
    all: assert (norm_ppf (1 - CI) = 1) as EN by (unfold CI; replace (1 - (1 - Phi 1)) with (Phi 1) by ring; apply norm_ppf_Phi).
    all: rewrite EN in *; injection EL' as EL'.
    all: set (a := exp (- (1) * sqrt (1 / 8) / (1 / 2))) in *; set (b := exp (- (1) * sqrt v / (1 / 2))) in *.
    all: assert (0 < a) as Pa by apply exp_pos; assert (0 < b) as Pb by apply exp_pos.
    all: assert (b = a) as Eb by (assert (/ a = / b) as Q by (unfold Rdiv in EL'; lra); apply (f_equal Rinv) in Q; rewrite !Rinv_inv in Q; congruence).
    all: rewrite Eb in EU; rewrite EU; unfold inside; cbn [fst snd rmax fold_right]; intros [_ [_ V]].
    all: assert (a < 2 / 3) as La; [|lra].
    all: unfold a; assert (1 / 4 < sqrt (1 / 8)) as S8 by (rewrite <- (sqrt_Rsqr (1 / 4)) by lra; apply sqrt_lt_1; unfold Rsqr; lra).
    all: apply Rlt_le_trans with (exp (- (1 / 2))); [apply exp_increasing; lra|]; rewrite exp_Ropp; replace (2 / 3) with (/ (3 / 2)) by field.
    all: apply Rinv_le_contravar; [lra|]; pose proof (exp_ineq1_le (1 / 2)); lra.
Qed.
Print Assumptions C155_view_refuted.

(** The plot is drawn whenever a system was repaired. *)
Theorem C155_runs data CI : Forall (fun s => s <> []) data -> 0 < CI < 1 -> ((exists s, In s data /\ (2 <= length s)%nat) <-> exists c, mcf_plot data CI = Ok c).
Proof.
  intros HF HC. split.
  - intros S. destruct (mcf_succeeds data CI HF S ltac:(lra)) as (r & data' & E). exact (mcf_plot_ok _ _ _ _ E).
  - intros (c & H). destruct (mcf_plot_inv data CI c HF H) as (r & data' & E & _). exact (proj1 (some_repair data CI r data' HF E)).
Qed.
Print Assumptions C155_runs.

(** The parametric plot: every point of the nonparametric estimate is drawn within the axes, and the curve is the fitted
    power law at 1000 times from 0.001 to ten times the last repair, with the band around it. *)
Theorem C155_parametric cf noisy data CI r data' : Forall (fun s => s <> []) data -> Forall (Forall (fun t => 0 <= t)) data ->
  mcf_parametric cf noisy data CI = (Ok r, data') ->
  let c := pmcf_plot r CI in
  (exists np, mcf_nonparametric data (95 / 100) = (Ok np, data') /\ pc_points c = combine (mcf_time np) (mcf_MCF np)) /\
  (forall v, In v (pc_points c) -> inside (pc_xlim c) (pc_ylim c) v) /\
  (forall v, In v (pc_line c) <-> on_grid (1 / 1000) (rmax (pm_times r) * 10) 1000 (fst v) /\ snd v = Rpower (fst v / pm_alpha r) (pm_beta r)) /\
  (forall va vb, 0 < pm_alpha r -> va = pm_alpha_SE r ^ 2 -> vb = pm_beta_SE r ^ 2 -> covariance va vb (pm_cov r) ->
     Forall2 (fun v b => fst v = fst b /\ (0 < fst v -> 0 < fst (snd b) <= snd v /\ snd v <= snd (snd b))) (pc_line c) (pc_band c)).
Proof.
  intros HF HP H c. destruct (C126_points _ _ _ _ _ _ H) as (np & E & ET & EM). split; [exists np; split; [exact E|]; unfold c; cbn; congruence|]. split; [|split].
  - unfold c. cbn [pc_points pc_xlim pc_ylim pmcf_plot]. intros [t y] Hv. unfold inside. cbn [fst snd]. pose proof (in_combine_l _ _ _ _ Hv) as I1. pose proof (in_combine_r _ _ _ _ Hv) as I2.
    pose proof (rmax_ge _ _ I1) as G1. pose proof (rmax_ge _ _ I2) as G2. rewrite ET in I1. rewrite EM in I2.
    destruct (times_range data (95 / 100) np data' HF HP E t I1) as [T0 _]. destruct (mcf_positive data np data' HF E) as (_ & _ & P & _). rewrite Forall_forall in P. specialize (P y I2). lra.
  - intros [t y]. unfold c. cbn [pc_line pmcf_plot fst snd]. change 1000%nat with (N.to_nat 1000). rewrite in_map_iff, <- linspace_grid by lia. split.
    + intros (u & Eu & Hu). injection Eu as -> <-. split; [exact Hu|reflexivity].
    + intros [Hu ->]. exists t. split; [reflexivity|exact Hu].
  - intros va vb Ha Va Vb Vc. unfold c. cbn [pc_line pc_band pmcf_plot]. induction (linspace (1 / 1000) (rmax (pm_times r) * 10) 1000) as [|t l IH]; cbn [map]; [constructor|].
    constructor; [|exact IH]. cbn [fst snd]. split; [reflexivity|]. intros Ht.
    destruct (C126_band cf noisy data CI r data' va vb t H Ha Ht Va Vb Vc) as (g1 & g2 & sd & _ & _ & _ & _ & L & _ & B1 & B2). rewrite L. split; assumption.
Qed.
Print Assumptions C155_parametric.

(** The systems of the documentation. *)
Example C155_example : exists c, mcf_plot [[5; 10; 15; 17]; [6; 13; 17; 19]; [12; 20; 25; 26]; [13; 15; 24]; [16; 22; 25; 28]] (95 / 100) = Ok c /\
  Forall (fun s => s <> []) [[5; 10; 15; 17]; [6; 13; 17; 19]; [12; 20; 25; 26]; [13; 15; 24]; [16; 22; 25; 28]] /\
  Forall (Forall (fun t => 0 <= t)) [[5; 10; 15; 17]; [6; 13; 17; 19]; [12; 20; 25; 26]; [13; 15; 24]; [16; 22; 25; 28]].
Proof.
  set (data := [[5; 10; 15; 17]; _; _; _; _]). assert (Forall (fun s => s <> []) data) as HF by (repeat apply Forall_cons; try apply Forall_nil; discriminate).
  assert (exists s, In s data /\ (2 <= length s)%nat) as S by (exists [5; 10; 15; 17]; split; [now left|cbn [length]; lia]).
  destruct (proj1 (C155_runs data (95 / 100) HF ltac:(lra)) S) as (c & H). exists c. split; [exact H|]. split; [exact HF|].
  repeat apply Forall_cons; try apply Forall_nil; lra.
Qed.
