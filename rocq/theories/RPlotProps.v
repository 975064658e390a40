(** C154: the replacement plots show the optimum. *)
From Coquelicot Require Import Coquelicot.
From Coq Require Import List Arith Reals Bool Lra Lia ZArith.
From Verif Require Import Base RepairModel RepairSpec RepairProofs3 RPlotModel RPlotSpec RPlotProofs RPlotProofs2.
Import ListNotations.
Open Scope R_scope.

(** The plot against time: the mark is the pair that is returned, the line is the cost per unit time of replacing at
    each time of the grid, no point of the line is below the mark, and the height of the mark is within the axes. *)
Theorem C154_time PM CM alpha beta q p : proper PM alpha beta q -> time_plot PM CM alpha beta q = Ok p ->
  optimal_replacement_time PM CM alpha beta q = Ok (p_mark p) /\
  (forall v, In v (p_line p) <-> cost_line PM CM alpha beta q v) /\
  (forall v, In v (p_line p) -> snd (p_mark p) <= snd v) /\
  (q = 0%nat -> In (p_mark p) (p_line p)) /\
  snd (p_mark p) = match q with
                   | 1%nat => (PM * Rpower (fst (p_mark p) / alpha) beta + CM) / fst (p_mark p)
                   | _ => renewal_cost PM CM (weibull_reliability alpha beta) (fst (p_mark p))
                   end /\
  0 < fst (p_mark p) /\ 0 < snd (p_mark p) <= snd (p_ylim p).
Proof. apply c154_time. Qed.
Print Assumptions C154_time.

(** As good as old: the mark is within the axes exactly when the optimum is at most four times alpha. *)
Theorem C154_time_view_old PM CM alpha beta p : proper PM alpha beta 1 -> time_plot PM CM alpha beta 1 = Ok p ->
  (sees p (p_mark p) <-> CM <= PM * (beta - 1) * Rpower 4 beta).
Proof. apply c154_time_view_old. Qed.
Print Assumptions C154_time_view_old.
(** As good as new: it is when alpha is at least 1/3. *)
Theorem C154_time_view_new_partial PM CM alpha beta p : proper PM alpha beta 0 -> 1 / 3 <= alpha ->
  time_plot PM CM alpha beta 0 = Ok p -> sees p (p_mark p).
Proof. apply c154_time_view_new. Qed.
Print Assumptions C154_time_view_new_partial.
(** It is not always. *)
Theorem C154_time_view_refuted :
  (exists PM CM alpha beta p, proper PM alpha beta 1 /\ time_plot PM CM alpha beta 1 = Ok p /\ ~ sees p (p_mark p)) /\
  (exists PM CM alpha beta p, proper PM alpha beta 0 /\ time_plot PM CM alpha beta 0 = Ok p /\ ~ sees p (p_mark p)).
Proof.
  split.
  - destruct c154_time_old_out as (p & H). exists 1, 25, 1, 2, p. split; [repeat split; lra|exact H].
  - destruct c154_time_new_out as (p & H). exists 1, 1, (1 / 10), 2, p. split; [repeat split; lra|exact H].
Qed.
Print Assumptions C154_time_view_refuted.

(** The plot against the ratio of the costs: the mark is at the ratio of the costs that were given and at the time that is
    returned; the line has, at 200 ratios from 1 to twice the nearest whole number, the time that is returned for
    that ratio; the mark is within the axes. *)
Theorem C154_ratio PM CM alpha beta q p : proper PM alpha beta q -> ratio_plot PM CM alpha beta q = Ok p ->
  fst (p_mark p) = CM / PM /\ (exists c, optimal_replacement_time PM CM alpha beta q = Ok (snd (p_mark p), c)) /\
  (exists m, Rabs (IZR m - CM / PM) <= 1 / 2 /\ p_xlim p = (1, IZR m * 2) /\
     forall v, In v (p_line p) <-> ratio_line PM alpha beta q (IZR m * 2) v) /\
  sees p (p_mark p).
Proof. apply c154_ratio. Qed.
Print Assumptions C154_ratio.

(** The dearer a failure, the earlier the replacement: as good as new, for a hazard that does not decrease. Then the part
    of the line to the right of the mark is within the axes. *)
Theorem C154_ratio_new_partial PM CM alpha beta p : proper PM alpha beta 0 -> 1 / 3 <= alpha -> 1 <= beta ->
  ratio_plot PM CM alpha beta 0 = Ok p ->
  (forall v w, (In v (p_line p) \/ v = p_mark p) -> (In w (p_line p) \/ w = p_mark p) -> fst v <= fst w -> snd w <= snd v) /\
  (forall v, In v (p_line p) -> CM / PM <= fst v -> sees p v).
Proof. apply c154_ratio_new. Qed.
Print Assumptions C154_ratio_new_partial.
(** As good as old, the plot shows the opposite: the dearer a failure, the later the replacement. *)
Theorem C154_ratio_old_refuted PM CM alpha beta p : proper PM alpha beta 1 -> ratio_plot PM CM alpha beta 1 = Ok p ->
  forall v w, (In v (p_line p) \/ v = p_mark p) -> (In w (p_line p) \/ w = p_mark p) -> fst v < fst w -> snd v < snd w.
Proof. apply c154_ratio_old. Qed.
Print Assumptions C154_ratio_old_refuted.
(** As good as old, the line is within the axes exactly when its end is; it is for beta at least 3/2. *)
Theorem C154_ratio_view_old PM CM alpha beta p : proper PM alpha beta 1 -> ratio_plot PM CM alpha beta 1 = Ok p ->
  ((forall v, In v (p_line p) -> sees p v) <-> snd (p_xlim p) <= CM / PM * Rpower 2 beta) /\
  (3 / 2 <= beta -> forall v, In v (p_line p) -> sees p v).
Proof. intros Pr H. split; [now apply (c154_ratio_view_old PM CM alpha beta p)|]. intros Hb. now apply (c154_ratio_view_old_3_2 PM CM alpha beta p). Qed.
Print Assumptions C154_ratio_view_old.
(** The line is not always within the axes. *)
Theorem C154_ratio_view_refuted :
  (exists PM CM alpha beta p v, proper PM alpha beta 1 /\ ratio_plot PM CM alpha beta 1 = Ok p /\ In v (p_line p) /\ ~ sees p v) /\
  (exists PM CM alpha beta p v, proper PM alpha beta 0 /\ 1 <= beta /\ ratio_plot PM CM alpha beta 0 = Ok p /\ In v (p_line p) /\ ~ sees p v).
Proof.
  split.
  - destruct c154_ratio_old_out as (p & v & H). exists 5, 8, 1, (5 / 4), p, v. split; [repeat split; lra|exact H].
  - destruct c154_ratio_new_out as (p & v & H). exists 1, 1000000, 1000, 2, p, v. split; [repeat split; lra|]. split; [lra|exact H].
Qed.
Print Assumptions C154_ratio_view_refuted.

(** Both plots are drawn whenever the cost of maintenance is positive and not above the cost of failure, and for the two
    policies only. *)
Theorem C154_runs PM CM alpha beta q : 0 < PM ->
  (PM <= CM /\ (q <= 1)%nat <-> exists p, time_plot PM CM alpha beta q = Ok p) /\
  (PM <= CM /\ (q <= 1)%nat <-> exists p, ratio_plot PM CM alpha beta q = Ok p).
Proof.
  intros HP. split; split.
  - intros [HC Hq]. destruct (ratio_plot_ok PM CM alpha beta q HP HC Hq) as (ORT & c & _ & E & _). unfold time_plot. rewrite E. cbn [bind]. eexists. reflexivity.
  - intros (p & H). apply time_plot_inv in H as (E & _). apply ort_inv in E as [E1 E2]. split; [exact E1|lia].
  - intros [HC Hq]. destruct (ratio_plot_ok PM CM alpha beta q HP HC Hq) as (ORT & c & p & _ & H & _). now exists p.
  - intros (p & H). destruct (ratio_plot_inv _ _ _ _ _ _ HP H) as (A & B & _). split; assumption.
Qed.
Print Assumptions C154_runs.

(** The documented example: cost_PM = 1, cost_CM = 5, alpha = 1000, beta = 2.5, both policies. *)
Example C154_example :
  (exists p, time_plot 1 5 1000 (5 / 2) 0 = Ok p /\ proper 1 1000 (5 / 2) 0 /\ sees p (p_mark p)) /\
  (exists p, ratio_plot 1 5 1000 (5 / 2) 0 = Ok p /\ p_xlim p = (1, 10)) /\
  (exists p, time_plot 1 5 1000 (5 / 2) 1 = Ok p /\ proper 1 1000 (5 / 2) 1 /\ sees p (p_mark p)) /\
  (exists p, ratio_plot 1 5 1000 (5 / 2) 1 = Ok p /\ forall v, In v (p_line p) -> sees p v).
Proof.
  destruct (proj1 (proj1 (C154_runs 1 5 1000 (5 / 2) 0 ltac:(lra))) ltac:(split; [lra|lia])) as (p0 & H0).
  destruct (proj1 (proj1 (C154_runs 1 5 1000 (5 / 2) 1 ltac:(lra))) ltac:(split; [lra|lia])) as (p1 & H1).
  destruct (proj1 (proj2 (C154_runs 1 5 1000 (5 / 2) 0 ltac:(lra))) ltac:(split; [lra|lia])) as (r0 & R0).
  destruct (proj1 (proj2 (C154_runs 1 5 1000 (5 / 2) 1 ltac:(lra))) ltac:(split; [lra|lia])) as (r1 & R1).
  assert (proper 1 1000 (5 / 2) 0) as P0 by (repeat split; lra). assert (proper 1 1000 (5 / 2) 1) as P1 by (repeat split; lra).
  split; [|split; [|split]].
  - exists p0. split; [exact H0|]. split; [exact P0|]. apply (C154_time_view_new_partial 1 5 1000 (5 / 2)); [exact P0|lra|exact H0].
  - exists r0. split; [exact R0|]. destruct (C154_ratio _ _ _ _ _ _ P0 R0) as (_ & _ & (m & Em & -> & _) & _).
    assert (m = 5%Z) as ->; [|f_equal; lra]. pose proof (Rle_abs (IZR m - 5 / 1)). pose proof (Rle_abs (- (IZR m - 5 / 1))) as B. rewrite Rabs_Ropp in B.
    assert (m < 6)%Z by (apply lt_IZR; lra). assert (4 < m)%Z by (apply lt_IZR; lra). lia.
  - exists p1. split; [exact H1|]. split; [exact P1|]. apply (C154_time_view_old 1 5 1000 (5 / 2)); [exact P1|exact H1|].
    assert (Rpower 4 2 <= Rpower 4 (5 / 2)) as L by (apply Rle_Rpower; lra). rewrite Rpower_2 in L by lra. lra.
  - exists r1. split; [exact R1|]. apply (C154_ratio_view_old 1 5 1000 (5 / 2)); [exact P1|exact R1|lra].
Qed.
