(** Proofs about the nonparametric plots: the theorems. *)
From Coq Require Import String.
From Coq Require Import List Arith Reals Bool Lia Lra Permutation Sorted.
From Verif Require Import Base Ext NonparModel NonparSpec NonparProofs NonparProofs2 NonparProofs3 NonparProofs4 NPlotModel NPlotSpec NPlotProofs NPlotProofs2.
Import ListNotations.
Open Scope R_scope.

Lemma nth_pair {A B} (P : list (A * B)) i a b : nth_error (map fst P) i = Some a -> nth_error (map snd P) i = Some b -> nth_error P i = Some (a, b).
Proof.
  intros Ha Hb. apply nth_map_inv in Ha as ([u v] & H & ->). rewrite nth_error_map, H in Hb. cbn in Hb. injection Hb as <-. exact H.
Qed.
Lemma show_inj_shown k r y : show k r = y -> shown k r y.
Proof. intros <-. apply show_shown. Qed.

Section plot.
Context (e : estimator) (s : string) (b : bool) (CI xhi yhi : R) (f rc : list R) (rows : list row) (c : chart).
Hypothesis Hsort : is_sorting_of (all_rows f rc) rows.
Hypothesis Hf : Forall (fun t => 0 <= t) f.
Hypothesis Hrc : Forall (fun t => 0 <= t) rc.
Hypothesis Hsane : sane e.
Hypothesis Hplot : np_plot e s b CI xhi yhi rows = Ok c.

Lemma plot_made : exists k cv es P x y p q P0, In s (names k) /\ np_curve e CI rows = Ok cv /\ np_entries e CI rows = Ok es /\
  draw_curve k b xhi yhi rows cv = Ok c /\ made e rows es (cv_x cv) (cv_SF cv) P x y p q P0 /\
  ch_x c = map fst P /\ ch_y c = map (fun v => show k (snd v)) P.
Proof.
  destruct (np_plot_inv _ _ _ _ _ _ _ _ Hplot) as (k & cv & H1 & H2 & H3). destruct (curve_entries _ _ _ _ H2) as (es & H4).
  destruct (np_made e CI rows es cv Hsane (proj2 Hsort) (rows_nonneg _ _ _ Hsort Hf Hrc) H4 H2) as (P & x & y & p & q & P0 & M).
  exists k, cv, es, P, x, y, p, q, P0. repeat (split; [assumption|]).
  destruct (draw_inv _ _ _ _ _ _ _ H3) as (X & Y & _). destruct M as [G _ _ _ _ _ _]. rewrite X, Y. split; [apply G|]. rewrite (g_y _ _ _ _ _ _ _ _ _ G), map_map. reflexivity.
Qed.

Lemma c153_curve : exists k es, In s (names k) /\ np_entries e CI rows = Ok es /\ length (ch_x c) = length (ch_y c) /\
  (exists y0, shown k 1 y0 /\ hd_error (ch_x c) = Some 0 /\ hd_error (ch_y c) = Some y0) /\
  steps_only c /\
  (forall v, In v es -> exists y, shown k (e_est v) y /\ covers c (e_time v) y) /\
  (forall i x y, nth_error (ch_x c) i = Some x -> nth_error (ch_y c) i = Some y ->
    (x = 0 \/ exists v, In v es /\ x = e_time v) /\ exists r, (r = 1 \/ exists v, In v es /\ r = e_est v) /\ shown k r y).
Proof.
  destruct plot_made as (k & cv & es & P & x & y & p & q & P0 & H1 & H2 & H3 & H4 & [G R T L K Z C] & EX & EY).
  exists k, es. split; [exact H1|]. split; [exact H3|]. rewrite EX, EY. split; [now rewrite !map_length|]. split.
  { destruct (g_first _ _ _ _ _ _ _ _ _ G) as (r & ->). exists (show k 1). split; [apply show_shown|]. split; reflexivity. }
  split; [|split].
  - intros i a a' u u' Ha Ha' Hu Hu'. rewrite EX in Ha, Ha'. rewrite EY in Hu, Hu'.
    apply nth_map_inv in Hu as (v & Hv & ->). apply nth_map_inv in Hu' as (v' & Hv' & ->).
    rewrite nth_error_map, Hv in Ha. rewrite nth_error_map, Hv' in Ha'. cbn in Ha, Ha'. injection Ha as <-. injection Ha' as <-.
    destruct (Sorted_nth link P i v v' (g_link _ _ _ _ _ _ _ _ _ G) Hv Hv') as [E|E]; [left; exact E|right; now rewrite E].
  - intros v Hv. exists (show k (e_est v)). split; [apply show_shown|].
    destruct (C v Hv) as [I|(l & x0 & x1 & r & EP & Hx)].
    + left. apply In_nth_error in I as (i & I). exists i. rewrite EX, EY, !nth_error_map, I. split; reflexivity.
    + right. exists (length l), x0, x1. rewrite EX, EY, EP, !map_app. cbn [map fst snd].
      rewrite <- (map_length fst l). rewrite !nth_error_app2, Nat.sub_diag by lia.
      rewrite Nat.sub_succ_l, Nat.sub_diag by lia. rewrite !(map_length fst), <- (map_length (fun v => show k (snd v)) l).
      rewrite !nth_error_app2, Nat.sub_diag by lia. rewrite Nat.sub_succ_l, Nat.sub_diag by lia. cbn. auto.
  - intros i a u Ha Hu. apply nth_map_inv in Hu as (v & Hv & ->). rewrite nth_error_map, Hv in Ha. cbn in Ha. injection Ha as <-.
    apply nth_error_In in Hv. pose proof (g_x_of _ _ _ _ _ _ _ _ _ G) as X. pose proof (g_y_of _ _ _ _ _ _ _ _ _ G) as Y.
    rewrite Forall_forall in X, Y. split; [exact (X v Hv)|]. exists (snd v). split; [exact (Y v Hv)|apply show_shown].
Qed.

Lemma point_range es xs ys P x y p q P0 : made e rows es xs ys P x y p q P0 -> forall v, In v P -> 0 <= fst v <= max_time rows /\ 0 <= snd v <= 1.
Proof.
  intros [G R T L K Z C] v Hv. pose proof (g_x_of _ _ _ _ _ _ _ _ _ G) as X. pose proof (g_y_of _ _ _ _ _ _ _ _ _ G) as Y.
  rewrite Forall_forall in X, Y, R. specialize (X v Hv). specialize (Y v Hv).
  pose proof (rows_nonneg _ _ _ Hsort Hf Hrc) as N. rewrite Forall_forall in N. split.
  - assert (forall w, In w es -> In (e_time w, e_code w) rows) as IR. { intros w Hw. rewrite <- T. apply (in_map (fun v => (e_time v, e_code v)) es w Hw). }
    assert (0 <= max_time rows) as M0.
    { assert (exists w, In w es) as (w & Hw). { destruct (g_first _ _ _ _ _ _ _ _ _ G) as (r & Er). destruct es as [|w es'].
      - exfalso. pose proof (g_end _ _ _ _ _ _ _ _ _ G) as En. destruct rows; [|discriminate].
        apply np_plot_inv in Hplot as (k0 & cv0 & _ & Hc & _). clear -Hc. destruct e; cbn in Hc;
          [unfold kaplan_meier in Hc|unfold nelson_aalen in Hc|unfold rank_adjustment in Hc]; unfold np_checks in Hc; cbn in Hc; destruct (Rltb CI 0 || Rltb 1 CI); discriminate.
      - exists w. left. reflexivity. }
      specialize (IR w Hw). pose proof (N _ IR). pose proof (max_time_ge _ _ IR). lra. }
    destruct X as [X|(w & Hw & X)]; [lra|]. specialize (IR w Hw). pose proof (N _ IR). pose proof (max_time_ge _ _ IR). cbn in *. lra.
  - destruct Y as [Y|(w & Hw & Y)]; [lra|]. specialize (R w Hw). lra.
Qed.
Lemma before_last es xs ys P x y p q P0 : made e rows es xs ys P x y p q P0 -> forall i v, nth_error P i = Some v -> (S i < length P)%nat -> p <= snd v.
Proof.
  intros [G R T L K Z C] i v Hv Hi. pose proof (g_end _ _ _ _ _ _ _ _ _ G) as En.
  assert (nth_error P (length P0) = Some (x, p)) as Hp. { rewrite En, nth_error_app2, Nat.sub_diag by lia. reflexivity. }
  apply (down_all P (g_down _ _ _ _ _ _ _ _ _ G) i (length P0) v (x, p)); auto. rewrite En, app_length in Hi. cbn in Hi. lia.
Qed.
Lemma last_point es xs ys P x y p q P0 : made e rows es xs ys P x y p q P0 -> forall i v, nth_error P i = Some v -> (length P <= S i)%nat -> v = (y, q).
Proof.
  intros [G R T L K Z C] i v Hv Hi. pose proof (g_end _ _ _ _ _ _ _ _ _ G) as En.
  assert (i < length P)%nat by (apply nth_error_Some; congruence). assert (i = S (length P0)) as ->. { rewrite En, app_length in *. cbn in *. lia. }
  rewrite En, nth_error_app2 in Hv by lia. replace (S (length P0) - length P0)%nat with 1%nat in Hv by lia. cbn in Hv. congruence.
Qed.
Lemma chf_limit es cv P x y p q P0 : made e rows es (cv_x cv) (cv_SF cv) P x y p q P0 -> draw_curve K_CHF b xhi yhi rows cv = Ok c -> ch_ylim c = (0, larger yhi (- ln p * (12 / 10))).
Proof.
  intros [G R T L K Z C] D. destruct (draw_inv _ _ _ _ _ _ _ D) as (_ & _ & _ & _ & _ & Y). destruct (Y eq_refl) as (v & Hv & ->).
  rewrite map_length, (g_y _ _ _ _ _ _ _ _ _ G), map_length, (g_end _ _ _ _ _ _ _ _ _ G), app_length in Hv. cbn [length] in Hv.
  replace (length P0 + 2 - 2)%nat with (length P0) in Hv by lia. rewrite !map_app in Hv.
  rewrite app_nth2 in Hv by (rewrite !map_length; lia). rewrite !map_length, Nat.sub_diag in Hv. cbn [nth map snd show] in Hv.
  rewrite neg_log_pos in Hv by apply G. injection Hv as <-. reflexivity.
Qed.
Lemma ln_le0 r : 0 < r <= 1 -> ln r <= 0.
Proof. intros [H [L| ->]]; [|rewrite ln_1; lra]. rewrite <- ln_1. left. apply ln_increasing; lra. Qed.

Lemma c153_view : exists k, In s (names k) /\
  (forall i, k <> K_CHF \/ (S i < length (ch_x c))%nat \/ e = E_KM \/ ends_censored rows -> in_view c i) /\
  (forall i, nth_error (ch_y c) i = Some PInf -> k = K_CHF /\ e = E_KM /\ S i = length (ch_x c) /\ ~ ends_censored rows) /\
  (forall i, nth_error (ch_y c) i <> Some NaN).
Proof.
  destruct plot_made as (k & cv & es & P & x & y & p & q & P0 & H1 & H2 & H3 & H4 & M & EX & EY). pose proof M as [G R T L K Z C].
  pose proof (g_p _ _ _ _ _ _ _ _ _ G) as Pp. pose proof (point_range _ _ _ _ _ _ _ _ _ M) as PR.
  assert (In (x, p) P /\ In (y, q) P) as [Ip Iq]. { rewrite (g_end _ _ _ _ _ _ _ _ _ G). split; apply in_or_app; cbn; auto. }
  pose proof (PR _ Ip) as [_ Rp]. pose proof (PR _ Iq) as [_ Rq]. cbn [snd] in Rp, Rq.
  destruct (draw_inv _ _ _ _ _ _ _ H4) as (_ & _ & XL & _ & YL & _). exists k. split; [exact H1|]. split; [|split].
  - intros i Hi a u Ha Hu. rewrite EX in Ha, Hi. rewrite EY in Hu. rewrite map_length in Hi. apply nth_map_inv in Hu as (v & Hv & Eu). rewrite nth_error_map, Hv in Ha. cbn in Ha. injection Ha as <-.
    pose proof (PR v (nth_error_In _ _ Hv)) as [Px Py]. rewrite XL. cbn [fst snd]. split; [pose proof (larger_l (max_time rows) xhi); lra|].
    destruct k.
    + rewrite (YL ltac:(discriminate)). cbn in Eu |- *. injection Eu as ->. lra.
    + rewrite (YL ltac:(discriminate)). cbn in Eu |- *. injection Eu as ->. lra.
    + rewrite (chf_limit _ _ _ _ _ _ _ _ M H4). cbn [fst snd].
      assert (0 < snd v) as Pv. { destruct (Req_EM_T (snd v) 0) as [E0|E0]; [|lra]. cbn [show] in Eu. rewrite E0, neg_log_0 in Eu. discriminate. }
      cbn [show] in Eu. rewrite neg_log_pos in Eu by exact Pv. injection Eu as ->.
      pose proof (ln_le0 (snd v) ltac:(lra)). pose proof (ln_le0 p ltac:(lra)). pose proof (larger_r yhi (- ln p * (12 / 10))).
      assert (p <= snd v) as PV.
      { destruct (le_lt_dec (length P) (S i)) as [Hl|Hl]; [|eapply before_last; eauto].
        pose proof (last_point _ _ _ _ _ _ _ _ _ M i v Hv Hl) as Ev. subst v. cbn [snd] in *.
        destruct Hi as [Hi|[Hi|[Hi|Hi]]]; [congruence|lia| |].
        - destruct (K Hi); lra.
        - rewrite (L Hi). lra. }
      pose proof (ln_mono p (snd v) Pp PV). split; lra.
  - intros i Hi. rewrite EY in Hi. apply nth_map_inv in Hi as (v & Hv & Eu). destruct k; try discriminate. split; [reflexivity|].
    pose proof (PR v (nth_error_In _ _ Hv)) as [_ Py].
    assert (snd v = 0) as E0. { destruct (Req_EM_T (snd v) 0) as [E0|E0]; [exact E0|]. cbn [show] in Eu. rewrite neg_log_pos in Eu by lra. discriminate. }
    destruct (le_lt_dec (length P) (S i)) as [Hl|Hl]; [|pose proof (before_last _ _ _ _ _ _ _ _ _ M i v Hv Hl); lra].
    pose proof (last_point _ _ _ _ _ _ _ _ _ M i v Hv Hl) as Ev. subst v. cbn [snd] in *. rewrite EX, map_length.
    assert (i < length P)%nat by (apply nth_error_Some; congruence). split; [|split; [lia|intros HE; specialize (L HE); lra]].
    destruct e; [reflexivity| |]; exfalso; assert (0 < q) by (apply Z; discriminate); lra.
  - intros i Hi. rewrite EY in Hi. apply nth_map_inv in Hi as (v & Hv & Eu). destruct k; try discriminate.
    pose proof (PR v (nth_error_In _ _ Hv)) as [_ Py]. cbn [show] in Eu. destruct (Req_EM_T (snd v) 0) as [E0|E0].
    + rewrite E0, neg_log_0 in Eu. discriminate.
    + rewrite neg_log_pos in Eu by lra. discriminate.
Qed.

Lemma c153_monotone : exists k, In s (names k) /\ forall i y y', nth_error (ch_y c) i = Some y -> nth_error (ch_y c) (S i) = Some y' ->
  match k with K_SF => ext_le y' y | _ => ext_le y y' end.
Proof.
  destruct plot_made as (k & cv & es & P & x & y & p & q & P0 & H1 & H2 & H3 & H4 & M & EX & EY). pose proof M as [G R T L K Z C].
  exists k. split; [exact H1|]. intros i u u' Hu Hu'. rewrite EY in Hu, Hu'. apply nth_map_inv in Hu as (v & Hv & ->). apply nth_map_inv in Hu' as (v' & Hv' & ->).
  pose proof (Sorted_nth down P i v v' (g_down _ _ _ _ _ _ _ _ _ G) Hv Hv') as D. unfold down in D.
  pose proof (point_range _ _ _ _ _ _ _ _ _ M v' (nth_error_In _ _ Hv')) as [_ Py].
  destruct k; cbn [show]; [cbn; lra|cbn; lra|]. apply neg_log_le; lra.
Qed.
End plot.

(** * The bands *)
Lemma Forall3_nth {A B C} (R : A -> B -> C -> Prop) l m n : Forall3 R l m n -> forall i a b c, nth_error l i = Some a -> nth_error m i = Some b -> nth_error n i = Some c -> R a b c.
Proof. induction 1; intros [|i] x y z; cbn; try discriminate; [intros; congruence|eauto]. Qed.
Lemma Forall3_length {A B C} (R : A -> B -> C -> Prop) l m n : Forall3 R l m n -> length l = length m /\ length l = length n.
Proof. induction 1 as [|? ? ? ? ? ? _ _ [I1 I2]]; cbn; auto. Qed.

Lemma curve_bands e CI rows cv : sane e -> 0 < CI -> np_curve e CI rows = Ok cv ->
  length (cv_x cv) = length (cv_SF cv) /\ length (cv_lower cv) = length (cv_SF cv) /\ length (cv_upper cv) = length (cv_SF cv) /\
  forall i y lo up, (S i < length (cv_SF cv))%nat \/ ends_censored rows /\ e = E_KM \/ (exists a, e = E_RA a) -> nth_error (cv_SF cv) i = Some y -> nth_error (cv_lower cv) i = Some lo -> nth_error (cv_upper cv) i = Some up -> brackets lo y up.
Proof.
  intros Hs HC H. destruct e as [| |a]; cbn [np_curve] in H.
  - destruct (kaplan_meier CI rows) as [es|] eqn:E; cbn [bind] in H; [|discriminate]. injection H as <-.
    pose proof (kaplan_meier_steps _ _ _ E) as (A & B & C & _ & _ & D). cbn [curve_of cv_x cv_SF cv_lower cv_upper].
    repeat (split; [assumption|]). intros i y lo up [Hi|[[Hi _]|(a & Hi)]]; [| |discriminate].
    + apply D. auto.
    + apply D. right. apply ends_last in Hi. tauto.
  - destruct (nelson_aalen CI rows) as [hes|] eqn:E; cbn [bind] in H; [|discriminate]. injection H as <-.
    pose proof (nelson_aalen_spec _ _ _ E) as (HR & _ & _ & _ & OK). specialize (OK HC).
    apply nelson_aalen_inv in E as (HCI & Hn & E).
    assert (length (map snd hes) = length rows) as L by (rewrite <- HR, !map_length; reflexivity). pose proof (n_failed_le rows).
    destruct (step_arrays_spec (map snd hes)) as (A & B & C & D & _).
    + apply Forall_map. exact OK.
    + lia.
    + rewrite E. intros e0 H0. destruct (na_loop _ _ _ _ _) as [|he l] eqn:El; [discriminate|]. cbn in H0. injection H0 as <-.
      apply (na_loop_first_censored (z_of_CI CI) rows he). now rewrite El.
    + cbn [curve_of cv_x cv_SF cv_lower cv_upper]. repeat (split; [assumption|]). intros i y lo up [Hi|[[_ Hi]|(a & Hi)]]; [|discriminate|discriminate].
      apply D. exact Hi.
  - destruct (rank_adjustment CI a rows) as [res|] eqn:E; cbn [bind] in H; [|discriminate]. injection H as <-. cbn [cv_x cv_SF cv_lower cv_upper].
    destruct (rank_adjustment_spec _ _ _ _ Hs E) as (px & py & _ & _ & _ & _ & _ & Lx & F). destruct (F HC) as [_ F3].
    destruct (Forall3_length _ _ _ _ F3) as [A B]. split; [exact Lx|]. split; [auto|]. split; [auto|].
    intros i y lo up _ H1 H2 H3. exact (Forall3_nth _ _ _ _ F3 i y lo up H1 H2 H3).
Qed.

Lemma c153_bands e s b CI xhi yhi rows c : sane e -> 0 < CI -> np_plot e s b CI xhi yhi rows = Ok c ->
  (b = false -> ch_band c = None) /\
  (b = true -> exists k lower upper, In s (names k) /\ ch_band c = Some (lower, upper) /\ length lower = length (ch_x c) /\ length upper = length (ch_x c) /\
   forall i y lo up, (S i < length (ch_x c))%nat \/ ends_censored rows /\ e = E_KM \/ (exists a, e = E_RA a) ->
     nth_error (ch_y c) i = Some y -> nth_error lower i = Some lo -> nth_error upper i = Some up ->
     exists l r u, 0 <= l <= r /\ r <= u <= 1 /\ shown k r y /\ band_shows k l u lo up).
Proof.
  intros Hs HC H. destruct (np_plot_inv _ _ _ _ _ _ _ _ H) as (k & cv & H1 & H2 & H3).
  destruct (draw_inv _ _ _ _ _ _ _ H3) as (EX & EY & _ & EB & _). destruct (curve_bands _ _ _ _ Hs HC H2) as (A & B & C & D).
  rewrite EB. split; [intros ->; reflexivity|]. intros ->. exists k. eexists. eexists. split; [exact H1|]. split; [reflexivity|]. rewrite EX, A.
  split; [destruct k; cbn [lowers]; rewrite ?map_length; assumption|]. split; [destruct k; cbn [uppers]; rewrite ?map_length; assumption|].
  intros i y lo up Hi Hy Hlo Hup. rewrite EY in Hy. apply nth_map_inv in Hy as (r & Hr & ->).
  destruct k; cbn [lowers uppers] in Hlo, Hup.
  - destruct (D i r lo up Hi Hr Hlo Hup) as (l & u & -> & -> & L1 & L2). exists l, r, u. repeat (split; [assumption || reflexivity|]). split; reflexivity.
  - apply nth_map_inv in Hlo as (u0 & Hu & ->). apply nth_map_inv in Hup as (l0 & Hl & ->).
    destruct (D i r l0 u0 Hi Hr Hl Hu) as (l & u & -> & -> & L1 & L2). exists l, r, u. repeat (split; [assumption || reflexivity|]). split; reflexivity.
  - apply nth_map_inv in Hlo as (u0 & Hu & ->). apply nth_map_inv in Hup as (m & Hm & ->). apply nth_map_inv in Hm as (l0 & Hl & ->).
    destruct (D i r l0 u0 Hi Hr Hl Hu) as (l & u & -> & -> & L1 & L2). exists l, r, u. split; [assumption|]. split; [assumption|]. split; [apply (show_shown K_CHF)|].
    split; [apply (show_shown K_CHF)|]. split; intros Hl0.
    + rewrite neg_log_pos by exact Hl0. reflexivity.
    + subst l. rewrite neg_log_0. reflexivity.
Qed.

(** * When it runs *)
Definition valid (e : estimator) : Prop := match e with E_RA a => 0 <= a_value a < 1 | _ => True end.
Lemma np_curve_runs e CI rows : valid e -> 0 <= CI <= 1 -> (2 <= n_failed rows)%nat -> exists cv, np_curve e CI rows = Ok cv.
Proof.
  intros V HC Hn. assert (np_checks CI (length (filter snd rows)) = Ok tt) as E by (apply np_checks_ok; split; [lra|exact Hn]).
  destruct e as [| |a]; cbn [np_curve].
  - unfold kaplan_meier. rewrite E. cbn [bind]. eauto.
  - unfold nelson_aalen. rewrite E. cbn [bind]. eauto.
  - unfold rank_adjustment. rewrite E. cbn [bind]. destruct (plotting_positions_succeeds a rows) as (x & y & EP); [cbn in V; lra|lia|left; apply V|]. rewrite EP. cbn [bind]. eauto.
Qed.
Lemma c153_runs e k s b CI xhi yhi f rc rows : is_sorting_of (all_rows f rc) rows -> Forall (fun t => 0 <= t) f -> Forall (fun t => 0 <= t) rc -> valid e ->
  0 <= CI <= 1 -> (2 <= length f)%nat -> In s (names k) -> exists c, np_plot e s b CI xhi yhi rows = Ok c.
Proof.
  intros S Hf Hrc V HC Hn Hk. rewrite <- (sorting_failed _ _ _ S) in Hn. destruct (np_curve_runs e CI rows V HC Hn) as (cv & Hcv).
  unfold np_plot, check_kind. rewrite (proj2 (parse_kind_names s k) Hk). cbn [bind]. rewrite Hcv. cbn [bind]. unfold draw_curve.
  destruct k; [eauto|eauto|]. destruct (curve_entries _ _ _ _ Hcv) as (es & He).
  assert (sane e) as Hs by (destruct e; cbn in *; auto; lra).
  destruct (np_made e CI rows es cv Hs (proj2 S) (rows_nonneg _ _ _ S Hf Hrc) He Hcv) as (P & x & y & p & q & P0 & M).
  destruct M as [G _ _ _ _ _ _]. rewrite values_show.
  assert (nth (length (map (show K_CHF) (cv_SF cv)) - 2) (map (show K_CHF) (cv_SF cv)) NaN = Fin (- ln p)) as Ev.
  { rewrite map_length, (g_y _ _ _ _ _ _ _ _ _ G), map_length, (g_end _ _ _ _ _ _ _ _ _ G), app_length. cbn [length].
    replace (length P0 + 2 - 2)%nat with (length P0) by lia. rewrite !map_app.
    rewrite app_nth2 by (rewrite !map_length; lia). rewrite !map_length, Nat.sub_diag. cbn [nth map snd show]. apply neg_log_pos, G. }
  rewrite Ev. eauto.
Qed.
Lemma c153_rejects e s b CI xhi yhi f rc rows : is_sorting_of (all_rows f rc) rows ->
  (forall k, ~ In s (names k)) \/ ~ 0 <= CI <= 1 \/ (length f < 2)%nat -> np_plot e s b CI xhi yhi rows = Err ValueError.
Proof.
  intros S H. rewrite <- (sorting_failed _ _ _ S) in H. unfold np_plot, check_kind. destruct (parse_kind s) as [k|] eqn:E; [|reflexivity]. cbn [bind].
  assert (np_checks CI (length (filter snd rows)) = Err ValueError) as EC.
  { apply parse_kind_names in E. destruct H as [H|H]; [destruct (H k E)|]. unfold np_checks, Rltb. destruct (Rlt_dec CI 0); [reflexivity|]. destruct (Rlt_dec 1 CI); [reflexivity|]. cbn [orb].
    destruct H as [H|H]; [lra|]. fold (n_failed rows). destruct (Nat.ltb_spec (n_failed rows) 2); [reflexivity|lia]. }
  destruct e; cbn [np_curve]; [unfold kaplan_meier|unfold nelson_aalen|unfold rank_adjustment]; rewrite EC; reflexivity.
Qed.

(** * The last step of a cumulative hazard can be off the chart *)
Lemma two_sorted : is_sorting_of (all_rows [1; 2] []) [(1, true); (2, true)].
Proof. split; [apply Permutation_refl|]. repeat constructor; cbn; lra. Qed.
Lemma two_nonneg : Forall (fun t => 0 <= t) [1; 2].
Proof. repeat constructor; lra. Qed.
Transparent INR.
Lemma tail_two {A} (l m : list A) (a b c d : A) : l ++ [a; b] = m ++ [c; d] -> a = c /\ b = d.
Proof.
  intros H. change [a; b] with ([a] ++ [b]) in H. change [c; d] with ([c] ++ [d]) in H. rewrite !app_assoc in H.
  apply app_inj_tail in H as [H ->]. apply app_inj_tail in H as [_ ->]. auto.
Qed.
Lemma ok_inj {A} (a b : A) : Ok a = Ok b -> a = b.
Proof. congruence. Qed.
Lemma off_chart e a0 p' q' : valid e -> sane e ->
  (forall cv, np_curve e (95 / 100) [(1, true); (2, true)] = Ok cv -> exists l, cv_SF cv = l ++ [p'; q']) -> a0 = p' -> 0 < q' -> - ln p' * (12 / 10) <= 1 -> 1 < - ln q' ->
  exists c i, np_plot e "CHF" true (95 / 100) 1 1 [(1, true); (2, true)] = Ok c /\ ~ in_view c i.
Proof.
  intros Va Sa Hcv _ Hq Hp1 Hq1.
  destruct (c153_runs e K_CHF "CHF" true (95 / 100) 1 1 [1; 2] [] _ two_sorted two_nonneg (Forall_nil _) Va ltac:(lra) ltac:(cbn; lia) ltac:(cbn; auto)) as (c & Hc).
  exists c. destruct (plot_made e _ _ _ _ _ _ _ _ _ two_sorted two_nonneg (Forall_nil _) Sa Hc) as (k & cv & es & P & x & y & p & q & P0 & H1 & H2 & H3 & H4 & M & EX & EY).
  destruct k; [cbn in H1; intuition discriminate|cbn in H1; intuition discriminate|].
  pose proof (chf_limit _ _ _ _ _ _ _ _ _ _ _ _ _ _ M H4) as YL. exists (S (length P0)). split; [exact Hc|]. intros V.
  pose proof M as [G _ _ _ _ _ _]. pose proof (g_end _ _ _ _ _ _ _ _ _ G) as En.
  destruct (Hcv cv H2) as (l & El). rewrite (g_y _ _ _ _ _ _ _ _ _ G), En, map_app in El. cbn [map snd] in El.
  apply tail_two in El as [-> ->].
  assert (nth_error P (S (length P0)) = Some (y, q')) as HP.
  { rewrite En, nth_error_app2 by lia. replace (S (length P0) - length P0)%nat with 1%nat by lia. reflexivity. }
  destruct (V y (- ln q')) as [_ [_ V2]].
  - rewrite EX, nth_error_map, HP. reflexivity.
  - rewrite EY, nth_error_map, HP. cbn [option_map snd show]. now rewrite neg_log_pos by exact Hq.
  - rewrite YL in V2. cbn [snd] in V2. unfold larger in V2. destruct (Rlt_dec 1 _); lra.
Qed.
Lemma c153_NA_refuted : exists c i, np_plot E_NA "CHF" true (95 / 100) 1 1 [(1, true); (2, true)] = Ok c /\ ~ in_view c i.
Proof.
  apply (off_chart E_NA (exp (- (1 / 2))) (exp (- (1 / 2))) (exp (- (1 / 2 + 1)))); try exact I; try reflexivity; try apply exp_pos; try (rewrite ln_exp; lra).
  intros cv. cbn [np_curve]. unfold nelson_aalen, np_checks, Rltb. destruct (Rlt_dec _ 0); [lra|]. destruct (Rlt_dec 1 _); [lra|].
  cbn [orb filter snd length Nat.ltb Nat.leb bind]. intros E. apply ok_inj in E. subst cv. unfold curve_of. cbn [cv_SF].
  rewrite (proj2 (step_arrays_pts _)). cbn [na_loop length].
  destruct (greenwood _ _ _ _) as [s1 d1]. destruct (greenwood _ _ _ _) as [s2 d2]. cbn [map snd all_pts e_code e_time e_est pts].
  replace (0 + code true / INR 2) with (1 / 2) by (cbn; lra). replace (1 / 2 + code true / INR 1) with (1 / 2 + 1) by (cbn; lra).
  destruct (Req_EM_T _ _) as [E|E].
  - exfalso. apply exp_inv in E. lra.
  - exists [1; 1; exp (- (1 / 2))]. reflexivity.
Qed.
Lemma c153_RA_refuted : exists c i, np_plot (E_RA None) "CHF" true (95 / 100) 1 1 [(1, true); (2, true)] = Ok c /\ ~ in_view c i.
Proof.
  apply (off_chart (E_RA None) (17 / 24) (17 / 24) (7 / 24)); try reflexivity; try (cbn; lra).
  - intros cv. cbn [np_curve]. unfold rank_adjustment, np_checks, Rltb. destruct (Rlt_dec _ 0); [lra|]. destruct (Rlt_dec 1 _); [lra|].
    cbn [orb filter snd length Nat.ltb Nat.leb bind].
    destruct (plotting_positions_succeeds None [(1, true); (2, true)]) as (px & py & EP); [cbn; lra|cbn; lia|left; cbn; lra|].
    rewrite EP. cbn [bind fst snd]. intros E. apply ok_inj in E. subst cv. cbn [cv_SF].
    apply sorted_inv in EP as (_ & -> & EP).
    pose proof (plotting_positions_uncensored None [(1, true); (2, true)]) as U.
    unfold positions in EP. cbn in EP. destruct (Req_EM_T _ 0) as [Z|Z]; [lra|]. cbn in EP. apply ok_inj in EP. subst py.
    cbn [ra_build ra_SF failure_times filter snd map fst combine ra_steps last]. 
    eexists. match goal with |- [_; _; _; ?u; ?v] = _ => instantiate (1 := [_; _; _]); replace (17 / 24) with u; [replace (7 / 24) with v; [reflexivity|]|] end; field.
  - assert (ln (24 / 17) <= 24 / 17 - 1) as L. { pose proof (exp_ineq1_le (ln (24 / 17))) as X. rewrite exp_ln in X by lra. lra. }
    replace (24 / 17) with (/ (17 / 24)) in L at 1 by field. rewrite ln_Rinv in L by lra. lra.
  - assert (7 / 24 < exp (Ropp 1)) as L. { rewrite exp_Ropp. pose proof exp_le_3. pose proof (exp_pos 1). apply (Rmult_lt_reg_r (exp 1)); [lra|]. rewrite Rinv_l by lra. lra. }
    apply ln_increasing in L; [|lra]. rewrite ln_exp in L. lra.
Qed.
