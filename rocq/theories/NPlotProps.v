(** Property theorems about the plots of KaplanMeier, NelsonAalen and RankAdjustment. *)
From Coq Require Import String.
From Coq Require Import List Arith Reals Bool Lia Lra.
From Verif Require Import Base Ext NonparModel NonparSpec NPlotModel NPlotSpec NPlotProofs3.
Import ListNotations.
Open Scope R_scope.

(** ** C153 The nonparametric plots show the estimate *)
(** The line starts at time 0 with reliability 1, has horizontal and vertical pieces only, is at the estimate above the time of every item,
    and every one of its points has the time and the estimate of items. *)
Theorem C153_curve : forall e s b CI xhi yhi f rc rows c, is_sorting_of (all_rows f rc) rows ->
  Forall (fun t => 0 <= t) f -> Forall (fun t => 0 <= t) rc -> sane e -> np_plot e s b CI xhi yhi rows = Ok c ->
  exists k es, In s (names k) /\ np_entries e CI rows = Ok es /\ length (ch_x c) = length (ch_y c) /\
  (exists y0, shown k 1 y0 /\ hd_error (ch_x c) = Some 0 /\ hd_error (ch_y c) = Some y0) /\
  steps_only c /\
  (forall v, In v es -> exists y, shown k (e_est v) y /\ covers c (e_time v) y) /\
  (forall i x y, nth_error (ch_x c) i = Some x -> nth_error (ch_y c) i = Some y ->
    (x = 0 \/ exists v, In v es /\ x = e_time v) /\ exists r, (r = 1 \/ exists v, In v es /\ r = e_est v) /\ shown k r y).
Proof. exact c153_curve. Qed.
Print Assumptions C153_curve.

(** The survival function never rises, the other two never fall. *)
Theorem C153_monotone : forall e s b CI xhi yhi f rc rows c, is_sorting_of (all_rows f rc) rows ->
  Forall (fun t => 0 <= t) f -> Forall (fun t => 0 <= t) rc -> sane e -> np_plot e s b CI xhi yhi rows = Ok c ->
  exists k, In s (names k) /\ forall i y y', nth_error (ch_y c) i = Some y -> nth_error (ch_y c) (S i) = Some y' ->
  match k with K_SF => ext_le y' y | _ => ext_le y y' end.
Proof. exact c153_monotone. Qed.
Print Assumptions C153_monotone.

(** The shaded band, drawn when it is asked for, is around the line at every point but the last of Kaplan-Meier and Nelson-Aalen. *)
Theorem C153_bands_partial : forall e s b CI xhi yhi rows c, sane e -> 0 < CI -> np_plot e s b CI xhi yhi rows = Ok c ->
  (b = false -> ch_band c = None) /\
  (b = true -> exists k lower upper, In s (names k) /\ ch_band c = Some (lower, upper) /\ length lower = length (ch_x c) /\ length upper = length (ch_x c) /\
   forall i y lo up, (S i < length (ch_x c))%nat \/ ends_censored rows /\ e = E_KM \/ (exists a, e = E_RA a) ->
     nth_error (ch_y c) i = Some y -> nth_error lower i = Some lo -> nth_error upper i = Some up ->
     exists l r u, 0 <= l <= r /\ r <= u <= 1 /\ shown k r y /\ band_shows k l u lo up).
Proof. exact c153_bands. Qed.
Print Assumptions C153_bands_partial.

(** Every finite point is within the axes, except perhaps the last one of the cumulative hazard of Nelson-Aalen and rank adjustment;
    the only infinite point is the end of the cumulative hazard of Kaplan-Meier when the last item failed. *)
Theorem C153_view_partial : forall e s b CI xhi yhi f rc rows c, is_sorting_of (all_rows f rc) rows ->
  Forall (fun t => 0 <= t) f -> Forall (fun t => 0 <= t) rc -> sane e -> np_plot e s b CI xhi yhi rows = Ok c ->
  exists k, In s (names k) /\
  (forall i, k <> K_CHF \/ (S i < length (ch_x c))%nat \/ e = E_KM \/ ends_censored rows -> in_view c i) /\
  (forall i, nth_error (ch_y c) i = Some PInf -> k = K_CHF /\ e = E_KM /\ S i = length (ch_x c) /\ ~ ends_censored rows) /\
  (forall i, nth_error (ch_y c) i <> Some NaN).
Proof. exact c153_view. Qed.
Print Assumptions C153_view_partial.

(** The last step of the cumulative hazard of two failures is above the top of the chart, although it is finite. *)
Theorem C153_NelsonAalen_refuted : exists c i, np_plot E_NA "CHF" true (95 / 100) 1 1 [(1, true); (2, true)] = Ok c /\ ~ in_view c i.
Proof. exact c153_NA_refuted. Qed.
Print Assumptions C153_NelsonAalen_refuted.
Theorem C153_RankAdjustment_refuted : exists c i, np_plot (E_RA None) "CHF" true (95 / 100) 1 1 [(1, true); (2, true)] = Ok c /\ ~ in_view c i.
Proof. exact c153_RA_refuted. Qed.
Print Assumptions C153_RankAdjustment_refuted.

(** Which calls give a chart and which raise ValueError. *)
Theorem C153_runs : forall e k s b CI xhi yhi f rc rows, is_sorting_of (all_rows f rc) rows ->
  Forall (fun t => 0 <= t) f -> Forall (fun t => 0 <= t) rc -> match e with E_RA a => 0 <= a_value a < 1 | _ => True end ->
  0 <= CI <= 1 -> (2 <= length f)%nat -> In s (names k) -> exists c, np_plot e s b CI xhi yhi rows = Ok c.
Proof. exact c153_runs. Qed.
Print Assumptions C153_runs.
Theorem C153_rejects : forall e s b CI xhi yhi f rc rows, is_sorting_of (all_rows f rc) rows ->
  (forall k, ~ In s (names k)) \/ ~ 0 <= CI <= 1 \/ (length f < 2)%nat -> np_plot e s b CI xhi yhi rows = Err ValueError.
Proof. exact c153_rejects. Qed.
Print Assumptions C153_rejects.

Example C153_example : is_sorting_of (all_rows [5; 1] [3]) [(1, true); (3, false); (5, true)] /\
  (exists c, np_plot E_KM "SF" true (95 / 100) 1 1 [(1, true); (3, false); (5, true)] = Ok c) /\
  (exists c, np_plot E_NA "cdf" true (95 / 100) 1 1 [(1, true); (3, false); (5, true)] = Ok c) /\
  (exists c, np_plot (E_RA (Some (1 / 2))) "CHF" true (95 / 100) 1 1 [(1, true); (3, false); (5, true)] = Ok c).
Proof.
  pose proof NonparProofs4.sorting_example as S. split; [exact S|].
  assert (Forall (fun t => 0 <= t) [5; 1]) as H1 by (repeat constructor; lra). assert (Forall (fun t => 0 <= t) [3]) as H2 by (repeat constructor; lra).
  split; [|split].
  - apply (C153_runs E_KM K_SF "SF" true (95 / 100) 1 1 _ _ _ S H1 H2 I); [lra|cbn; lia|cbn; auto].
  - apply (C153_runs E_NA K_CDF "cdf" true (95 / 100) 1 1 _ _ _ S H1 H2 I); [lra|cbn; lia|cbn; auto].
  - apply (C153_runs (E_RA (Some (1 / 2))) K_CHF "CHF" true (95 / 100) 1 1 _ _ _ S H1 H2); [cbn; lra|lra|cbn; lia|cbn; auto].
Qed.
