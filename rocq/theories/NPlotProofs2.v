(** Proofs about the nonparametric plots, continued. *)
From Coq Require Import String.
From Coq Require Import List Arith Reals Bool Lia Lra Permutation Sorted.
From Verif Require Import Base Ext NonparModel NonparSpec NonparProofs NonparProofs2 NonparProofs3 NonparProofs4 NPlotModel NPlotSpec NPlotProofs.
Import ListNotations.
Open Scope R_scope.

Lemma ends_last (rows : list row) : ends_censored rows <-> rows <> [] /\ snd (last rows (0, true)) = false.
Proof.
  split.
  - intros (pre & t & ->). rewrite last_last. split; [destruct pre; discriminate|reflexivity].
  - intros [N H]. destruct (exists_last N) as (l & [t c] & ->). rewrite last_last in H. cbn in H. subst. exists l, t. reflexivity.
Qed.

Record made (e : estimator) (rows : list row) (es : list entry) (xs ys : list R) (P : list (R * R)) (x y p q : R) (P0 : list (R * R)) : Prop := {
  m_good : good es xs ys P x y p q P0;
  m_range : Forall (fun v => 0 <= e_est v <= 1) es;
  m_times : map (fun v => (e_time v, e_code v)) es = rows;
  m_last : ends_censored rows -> p = q;
  m_km : e = E_KM -> q = 0 \/ p = q;
  m_pos : e <> E_KM -> 0 < q;
  m_covers : forall v, In v es -> pcovers P (e_time v) (e_est v) }.

Lemma rows_nonneg f rc rows : is_sorting_of (all_rows f rc) rows -> Forall (fun t => 0 <= t) f -> Forall (fun t => 0 <= t) rc -> Forall (fun r : row => 0 <= fst r) rows.
Proof.
  intros [Pm _] Hf Hrc. apply Forall_forall. intros r Hr. apply (Permutation_in _ (Permutation_sym Pm)) in Hr.
  unfold all_rows in Hr. rewrite Forall_forall in Hf, Hrc. apply in_app_or in Hr as [Hr|Hr]; apply in_map_iff in Hr as (t & <- & Ht); cbn; auto.
Qed.
Lemma n_failed_le rows : (n_failed rows <= length rows)%nat.
Proof. unfold n_failed. induction rows as [|[t c] r IH]; [cbn; lia|]. destruct c; cbn; lia. Qed.
Lemma na_loop_first_censored z rows he : hd_error (na_loop z rows 0 (Fin 0) (Fin 0)) = Some he -> e_code (snd he) = false -> e_est (snd he) = 1.
Proof.
  destruct rows as [|[t c] rest]; [discriminate|]. cbn [na_loop].
  destruct c; [destruct (greenwood _ _ _ _)|]; cbn [hd_error]; intros E; injection E as <-; [discriminate|].
  intros _. cbn [snd e_est code]. unfold Rdiv. rewrite Rmult_0_l, Rplus_0_l, Ropp_0. apply exp_0.
Qed.
Opaque INR.
Lemma km_loop_censored z : forall rows prev s d pre p v, km_loop z rows prev s d = pre ++ [p; v] -> e_code v = false -> e_est v = e_est p.
Proof.
  induction rows as [|[t c] rest IH]; intros prev s d pre p v E Hc.
  - destruct pre; discriminate.
  - cbn [km_loop] in E. destruct pre as [|p0 pre].
    + cbn [app] in E. destruct (if c then _ else _) as [s' d']. injection E as E1 E2. destruct rest as [|[t2 c2] rest]; [discriminate|].
      cbn [km_loop] in E2. destruct (if c2 then _ else _) as [s2 d2]. injection E2 as E2 E3. subst. cbn [e_code e_est] in Hc |- *. subst.
      cbn [length]. rewrite code_false_factor. ring.
    + cbn [app] in E. destruct (if c then _ else _) as [s' d']. injection E as E1 E2. eapply IH; eauto.
Qed.
Lemma na_loop_censored z : forall rows H s d pre p v, map snd (na_loop z rows H s d) = pre ++ [p; v] -> e_code v = false -> e_est v = e_est p.
Proof.
  induction rows as [|[t c] rest IH]; intros H s d pre p v E Hc.
  - destruct pre; discriminate.
  - cbn [na_loop] in E. destruct pre as [|p0 pre].
    + cbn [app] in E. destruct (if c then _ else _) as [s' d']. injection E as E1 E2. destruct rest as [|[t2 c2] rest]; [discriminate|].
      cbn [na_loop] in E2. destruct (if c2 then _ else _) as [s2 d2]. injection E2 as E2 E3. subst. cbn [e_code e_est] in Hc |- *. subst.
      cbn [code length]. f_equal. f_equal. unfold Rdiv. rewrite Rmult_0_l. ring.
    + cbn [app] in E. destruct (if c then _ else _) as [s' d']. injection E as E1 E2. eapply IH; eauto.
Qed.
Lemma last_code (es : list entry) rows pre p v : map (fun v => (e_time v, e_code v)) es = rows -> es = pre ++ [p; v] -> rows = map (fun v => (e_time v, e_code v)) (pre ++ [p]) ++ [(e_time v, e_code v)].
Proof. intros <- ->. rewrite !map_app. cbn. now rewrite <- app_assoc. Qed.
Lemma ends_code (rows : list row) pre t c : rows = pre ++ [(t, c)] -> ends_censored rows -> c = false.
Proof. intros -> H. apply ends_last in H as [_ H]. rewrite last_last in H. exact H. Qed.

Lemma np_made e CI rows es c : sane e -> StronglySorted (fun r s => fst r <= fst s) rows -> Forall (fun r => 0 <= fst r) rows ->
  np_entries e CI rows = Ok es -> np_curve e CI rows = Ok c ->
  exists P x y p q P0, made e rows es (cv_x c) (cv_SF c) P x y p q P0.
Proof.
  intros Hs Srt Pos He Hc. destruct e as [| |a]; cbn [np_entries np_curve] in He, Hc.
  - rewrite He in Hc. cbn [bind] in Hc. injection Hc as <-.
    pose proof (kaplan_meier_ok _ _ _ He) as [_ HR].
    pose proof (kaplan_meier_survival _ _ _ He) as (D & Rg & Z).
    apply kaplan_meier_inv in He as (HCI & Hn & E).
    assert (length es = length rows) as L by (rewrite <- HR, map_length; reflexivity).
    pose proof (n_failed_le rows).
    destruct (step_arrays_good es) as (pre & p & v & x & y & P0 & E1 & G & Th); [lia|exact D| | |].
    { rewrite E. intros e0. apply km_loop_first_censored. }
    { intros pre p v E1. pose proof (last_code _ _ _ _ _ HR E1) as E2.
      rewrite map_app in E2. cbn [map] in E2. rewrite <- app_assoc in E2. cbn [app] in E2.
      specialize (Z _ _ _ _ E2). rewrite map_length in Z. rewrite E1, map_app in Z. cbn [map] in Z.
      rewrite <- (map_length e_est pre) in Z. rewrite app_nth2, Nat.sub_diag in Z by lia. cbn [nth] in Z.
      assert (In p es) as I by (rewrite E1; apply in_or_app; cbn; auto). rewrite Forall_forall in Rg. specialize (Rg p I).
      destruct (Req_EM_T (e_est p) 0) as [Ep|Ep]; [|lra]. apply Z in Ep as [Ep _]. discriminate. }
    exists (all_pts es), x, y, (e_est p), (e_est v), P0.
    pose proof (last_code _ _ _ _ _ HR E1) as E2.
    assert (e_code v = false -> e_est p = e_est v) as CC by (intros Hv; symmetry; rewrite E1 in E; symmetry in E; eapply km_loop_censored; eauto).
    constructor; auto.
    + intros Hc. apply CC. eapply ends_code; eauto.
    + intros _. destruct (e_code v) eqn:Ev; [left|right; auto].
      specialize (Z _ _ _ _ E2). rewrite map_length in Z. rewrite E1 in Z.
      replace (pre ++ [p; v]) with ((pre ++ [p]) ++ [v]) in Z by now rewrite <- app_assoc.
      rewrite (map_app e_est (pre ++ [p])) in Z. rewrite <- (map_length e_est (pre ++ [p])) in Z. rewrite app_nth2, Nat.sub_diag in Z by lia. cbn [nth map] in Z.
      apply Z. auto.
    + congruence.
    + intros w Hw. left. now apply Th.
  - destruct (nelson_aalen CI rows) as [hes|] eqn:EN; cbn [bind] in He, Hc; [|discriminate]. injection He as <-. injection Hc as <-.
    pose proof (nelson_aalen_spec _ _ _ EN) as (HR & _ & F & D & _).
    apply nelson_aalen_inv in EN as (HCI & Hn & E).
    assert (length (map snd hes) = length rows) as L by (rewrite <- HR, !map_length; reflexivity).
    pose proof (n_failed_le rows). rewrite <- (map_map snd (fun v => (e_time v, e_code v))) in HR. rewrite <- (map_map snd e_est) in D.
    assert (forall w, In w (map snd hes) -> 0 < e_est w <= 1) as F'.
    { intros w Hw. apply in_map_iff in Hw as (he & <- & Hw). rewrite Forall_forall in F. apply F, Hw. }
    destruct (step_arrays_good (map snd hes)) as (pre & p & v & x & y & P0 & E1 & G & Th); [lia|exact D| | |].
    { rewrite E. intros e0 H0. destruct (na_loop _ _ _ _ _) as [|he l] eqn:El; [discriminate|]. cbn in H0. injection H0 as <-.
      apply (na_loop_first_censored (z_of_CI CI) rows he). now rewrite El. }
    { intros pre p v E1. apply F'. rewrite E1. apply in_or_app; cbn; auto. }
    exists (all_pts (map snd hes)), x, y, (e_est p), (e_est v), P0.
    pose proof (last_code _ _ _ _ _ HR E1) as E2.
    constructor; auto.
    + apply Forall_forall. intros w Hw. specialize (F' w Hw). lra.
    + intros Hc. symmetry. rewrite E in E1. eapply na_loop_censored; [exact E1|]. eapply ends_code; eauto.
    + discriminate.
    + intros _. apply F'. rewrite E1. apply in_or_app; cbn; auto.
    + intros w Hw. left. now apply Th.
  - destruct (rank_adjustment CI a rows) as [res|] eqn:ER; cbn [bind] in He, Hc; [|discriminate]. injection He as <-. injection Hc as <-. cbn [cv_x cv_SF].
    destruct (rank_adjustment_spec _ _ _ _ Hs ER) as (px & py & _ & HR & _ & _ & HE & _ & _).
    destruct (rank_adjustment_good _ _ _ _ Hs Srt Pos ER) as (P & x & y & p & q & P0 & G & HL & Th).
    exists P, x, y, p, q, P0. constructor; auto.
    + eapply Forall_impl; [|exact HE]. cbn; intros; lra.
    + intros (pre & t & Er). apply HL. rewrite Er, last_last. reflexivity.
    + discriminate.
    + intros _. pose proof (g_y_of _ _ _ _ _ _ _ _ _ G) as Y. rewrite (g_end _ _ _ _ _ _ _ _ _ G) in Y. apply Forall_app in Y as [_ Y].
      inversion Y as [|? ? _ Y2]; subst. inversion Y2 as [|? ? Y3 _]; subst. cbn in Y3. destruct Y3 as [Y3|(w & Hw & Y3)]; [lra|].
      rewrite Forall_forall in HE. specialize (HE w Hw). lra.
Qed.

(** * The chart *)
Definition show (k : kind) (r : R) : ext := match k with K_SF => Fin r | K_CDF => Fin (1 - r) | K_CHF => neg_log (Fin r) end.
Lemma values_show k c : values k c = map (show k) (cv_SF c).
Proof. destruct k; reflexivity. Qed.
Lemma show_shown k r : shown k r (show k r).
Proof.
  destruct k; cbn; try reflexivity. split; intros H.
  - destruct (Rlt_dec 0 r); [reflexivity|lra].
  - destruct (Rlt_dec 0 r); [lra|]. destruct (Req_EM_T r 0); [reflexivity|lra].
Qed.
Lemma neg_log_pos r : 0 < r -> neg_log (Fin r) = Fin (- ln r).
Proof. intros H. cbn. destruct (Rlt_dec 0 r); [reflexivity|lra]. Qed.
Lemma neg_log_0 : neg_log (Fin 0) = PInf.
Proof. cbn. destruct (Rlt_dec 0 0); [lra|]. destruct (Req_EM_T 0 0); [reflexivity|lra]. Qed.
Lemma ln_mono a b : 0 < a -> a <= b -> ln a <= ln b.
Proof. intros H [L| ->]; [left; apply ln_increasing; assumption|lra]. Qed.
Lemma neg_log_le a b : 0 <= b -> b <= a -> ext_le (neg_log (Fin a)) (neg_log (Fin b)).
Proof.
  intros H0 H. destruct (Req_EM_T b 0) as [E|E].
  - subst. rewrite neg_log_0. destruct (Req_EM_T a 0) as [E2|E2]; [subst; rewrite neg_log_0; exact I|]. rewrite neg_log_pos by lra. exact I.
  - rewrite !neg_log_pos by lra. cbn. pose proof (ln_mono b a ltac:(lra) H). lra.
Qed.

Lemma parse_kind_names s k : parse_kind s = Some k <-> In s (names k).
Proof.
  unfold parse_kind. split.
  - destruct (String.eqb_spec s "SF"); [intros E; injection E as <-; subst; cbn; auto|].
    destruct (String.eqb_spec s "sf"); [intros E; injection E as <-; subst; cbn; auto|]. cbn [orb].
    destruct (String.eqb_spec s "CDF"); [intros E; injection E as <-; subst; cbn; auto|].
    destruct (String.eqb_spec s "cdf"); [intros E; injection E as <-; subst; cbn; auto|]. cbn [orb].
    destruct (String.eqb_spec s "CHF"); [intros E; injection E as <-; subst; cbn; auto|].
    destruct (String.eqb_spec s "chf"); [intros E; injection E as <-; subst; cbn; auto|]. discriminate.
  - destruct k; intros [<-|[<-|[]]]; reflexivity.
Qed.

Lemma np_plot_inv e s b CI xhi yhi rows c : np_plot e s b CI xhi yhi rows = Ok c ->
  exists k cv, In s (names k) /\ np_curve e CI rows = Ok cv /\ draw_curve k b xhi yhi rows cv = Ok c.
Proof.
  unfold np_plot, check_kind. destruct (parse_kind s) as [k|] eqn:E; cbn [bind]; [|discriminate].
  destruct (np_curve e CI rows) as [cv|] eqn:E2; cbn [bind]; [|discriminate]. intros H. exists k, cv.
  apply parse_kind_names in E. auto.
Qed.
Lemma curve_entries e CI rows cv : np_curve e CI rows = Ok cv -> exists es, np_entries e CI rows = Ok es.
Proof.
  destruct e; cbn [np_curve np_entries].
  - destruct (kaplan_meier _ _); cbn; [eauto|discriminate].
  - destruct (nelson_aalen _ _); cbn; [eauto|discriminate].
  - destruct (rank_adjustment _ _ _); cbn; [eauto|discriminate].
Qed.
Lemma entries_curve e CI rows es : np_entries e CI rows = Ok es -> exists cv, np_curve e CI rows = Ok cv.
Proof.
  destruct e; cbn [np_curve np_entries].
  - destruct (kaplan_meier _ _); cbn; [eauto|discriminate].
  - destruct (nelson_aalen _ _); cbn; [eauto|discriminate].
  - destruct (rank_adjustment _ _ _); cbn; [eauto|discriminate].
Qed.
Lemma draw_inv k b xhi yhi rows cv c : draw_curve k b xhi yhi rows cv = Ok c ->
  ch_x c = cv_x cv /\ ch_y c = map (show k) (cv_SF cv) /\ ch_xlim c = (0, larger (max_time rows) xhi) /\
  ch_band c = (if b then Some (lowers k cv, match k with K_CHF => map nan_to_num (uppers k cv) | _ => uppers k cv end) else None) /\
  (k <> K_CHF -> ch_ylim c = (0, 11 / 10)) /\
  (k = K_CHF -> exists v, nth (length (map (show k) (cv_SF cv)) - 2) (map (show k) (cv_SF cv)) NaN = Fin v /\ ch_ylim c = (0, larger yhi (v * (12 / 10)))).
Proof.
  unfold draw_curve. rewrite values_show. destruct k.
  - intros H; injection H as <-. cbn [ch_x ch_y ch_xlim ch_band ch_ylim]. repeat (split; [reflexivity|]). discriminate.
  - intros H; injection H as <-. cbn [ch_x ch_y ch_xlim ch_band ch_ylim]. repeat (split; [reflexivity|]). discriminate.
  - destruct (nth _ _ _) as [v| |]; try discriminate.
    intros H; injection H as <-. cbn [ch_x ch_y ch_xlim ch_band ch_ylim]. repeat (split; [reflexivity|]). split; [congruence|]. intros _. exists v. auto.
Qed.

Lemma Sorted_nth {A} (R : A -> A -> Prop) : forall l i a b, Sorted R l -> nth_error l i = Some a -> nth_error l (S i) = Some b -> R a b.
Proof.
  induction l as [|x l IH]; intros i a b S Ha Hb; [destruct i; discriminate|]. inversion S as [|? ? S2 H2]; subst.
  destruct i as [|i]; cbn in Ha, Hb.
  - injection Ha as <-. destruct l; [discriminate|]. cbn in Hb. injection Hb as <-. inversion H2; assumption.
  - eapply IH; eauto.
Qed.
Lemma nth_map_inv {A B} (f : A -> B) : forall l i b, nth_error (map f l) i = Some b -> exists a, nth_error l i = Some a /\ b = f a.
Proof. intros l i b H. rewrite nth_error_map in H. destruct (nth_error l i); [|discriminate]. cbn in H. injection H as <-. eauto. Qed.
Lemma larger_l a b : a <= larger a b.
Proof. unfold larger. destruct (Rlt_dec a b); lra. Qed.
Lemma larger_r a b : b <= larger a b.
Proof. unfold larger. destruct (Rlt_dec a b); lra. Qed.
Lemma largest_ge : forall l m, m <= largest m l /\ Forall (fun x => x <= largest m l) l.
Proof.
  induction l as [|x l IH]; intros m; cbn [largest]; [split; [lra|constructor]|]. destruct (IH (larger m x)) as [A B].
  pose proof (larger_l m x). pose proof (larger_r m x). split; [lra|]. constructor; [lra|exact B].
Qed.
Lemma max_time_ge rows r : In r rows -> fst r <= max_time rows.
Proof.
  destruct rows as [|r0 rows]; [intros []|]. unfold max_time. destruct (largest_ge (map fst rows) (fst r0)) as [A B].
  intros [<-|H]; [exact A|]. rewrite Forall_forall in B. apply B. now apply in_map.
Qed.
Lemma down_all P : Sorted down P -> forall i j a b, (i <= j)%nat -> nth_error P i = Some a -> nth_error P j = Some b -> snd b <= snd a.
Proof.
  intros S. assert (StronglySorted down P) as SS. { apply Sorted_StronglySorted; [|exact S]. intros u v w. unfold down. lra. }
  clear S. induction SS as [|p P SS IH F]; intros i j a b L Ha Hb; [destruct i; discriminate|].
  destruct j as [|j]; [assert (i = 0)%nat by lia; subst; cbn in *; rewrite Ha in Hb; injection Hb as ->; lra|].
  destruct i as [|i]; [|apply (IH i j a b); [lia|exact Ha|exact Hb]]. cbn in Ha, Hb. injection Ha as <-. apply nth_error_In in Hb. rewrite Forall_forall in F. exact (F b Hb).
Qed.
