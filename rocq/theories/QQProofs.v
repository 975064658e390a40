(** Lemmas for the properties of the PP and QQ plots and plot_points. *)
From Coquelicot Require Import Coquelicot.
From Coq Require Import String.
From Coq Require Import List Arith Reals Lra Lia Bool Permutation Sorted.
From Verif Require Import Base RealFacts RList Gauss Ext Linear NonparModel NonparSpec NonparProofs NonparProofs2 NonparProofs3 NonparProofs4 NonparProofs5
  RepairModel RepairProofs2 TestingModel DistModel DistSpec DistProofs DistProofs2 CombModel RegModel RegSpec RegProofs PoFModel PoFProofs3
  SelModel CIProofs2 PlotProofs OtherProofs3 QQModel.
Import ListNotations.
Open Scope R_scope.

Lemma all_ok_map {A B} (f : A -> result B) (g : A -> B) l : (forall x, In x l -> f x = Ok (g x)) -> all_ok (map f l) = Ok (map g l).
Proof.
  induction l as [|x l IH]; intros H; [reflexivity|]. cbn [map all_ok].
  rewrite (H x (or_introl eq_refl)). cbn [bind]. rewrite IH by (intros z Hz; apply H; now right). reflexivity.
Qed.

(** ** Injectivity of the distribution function inside the support *)
Lemma cdf_inj d (u v : R) : valid d -> inside d u -> inside d v -> cdf d u = cdf d v -> u = v.
Proof.
  intros V Hu Hv E. pose proof (all_facts d V) as F. destruct (Rtotal_order u v) as [L|[L|L]]; [|exact L|].
  - pose proof (cdf_strict d V u v Hu Hv L). lra.
  - pose proof (cdf_strict d V v u Hv Hu L). lra.
Qed.
Lemma isf_inside d q : valid d -> 0 < q < 1 -> inside d (isf d q) /\ cdf d (isf d q) = 1 - q.
Proof.
  intros V Hq. pose proof (all_facts d V) as F. rewrite (F_isf d F q Hq). apply (F_ppf d F). lra.
Qed.

(** ** QQ_plot_parametric *)
Definition qgrid := linspace (1 / 100) (99 / 100) 100.
Lemma qgrid_nth i : (i < 100)%nat -> nth i qgrid 0 = 1 / 100 + INR i * (98 / 9900).
Proof.
  intros Hi. unfold qgrid. rewrite linspace_nth by exact Hi. replace (INR (100 - 1)) with 99 by (simpl; lra). field.
Qed.
Lemma qgrid_length : length qgrid = 100%nat.
Proof. apply linspace_length. Qed.
Lemma qgrid_range p : In p qgrid -> 0 < p < 1.
Proof.
  intros H. apply (In_nth _ _ 0) in H. destruct H as (i & Hi & <-). rewrite qgrid_length in Hi. rewrite qgrid_nth by exact Hi.
  pose proof (pos_INR i). assert (INR i <= 99). { replace 99 with (INR 99) by (simpl; lra). apply le_INR. lia. } lra.
Qed.

Lemma lstsq1_best x y m' : length x = length y -> sse (combine x y) (lstsq1 x y) 0 <= sse (combine x y) m' 0.
Proof.
  intros Hl. unfold lstsq1, solve1. rewrite !sse_quadratic.
  assert (rsum (map (fun p => fst p ^ 2) (combine x y)) = dotp x x) as ->.
  { clear -Hl. revert y Hl. induction x as [|a x IH]; intros [|b y] Hl; try discriminate; [reflexivity|].
    unfold dotp in *. cbn [combine map zip fst]. rewrite !rsum_cons, (IH y) by (simpl in Hl; lia). ring. }
  assert (rsum (map (fun p => fst p * snd p) (combine x y)) = dotp x y) as ->.
  { clear -Hl. revert y Hl. induction x as [|a x IH]; intros [|b y] Hl; try discriminate; [reflexivity|].
    unfold dotp in *. cbn [combine map zip fst snd]. rewrite !rsum_cons, (IH y) by (simpl in Hl; lia). ring. }
  destruct (Req_EM_T (dotp x x) 0) as [E|E].
  - rewrite E. assert (dotp x y = 0) as ->.
    { rewrite dotp_zero in E. clear -Hl E. revert y Hl. induction x as [|a x IH]; intros [|b y] Hl; try discriminate; [reflexivity|].
      unfold dotp in *. cbn [zip]. rewrite rsum_cons, (E a (or_introl eq_refl)), (IH (fun z Hz => E z (or_intror Hz)) y) by (simpl in Hl; lia). ring. }
    lra.
  - pose proof (dotp_nonneg x) as P. set (a := dotp x x) in *. set (b := dotp x y).
    set (k := rsum (map (fun p => snd p ^ 2) (combine x y))). set (s1 := rsum (map snd (combine x y))). set (s2 := rsum (map fst (combine x y))).
    assert (0 <= a * (m' - / a * b) ^ 2) as Q by (apply Rmult_le_pos; [exact P|apply pow2_ge_0]).
    assert (a * (m' - / a * b) ^ 2 = (m' ^ 2 * a - 2 * m' * b) - ((/ a * b) ^ 2 * a - 2 * (/ a * b) * b)) as Eq by (field; exact E).
    lra.
Qed.

Section QQ.
  Variables X Y : dist.
  Hypothesis VX : valid X.
  Hypothesis VY : valid Y.

  Lemma qq_two : two_different (map (isf X) qgrid).
  Proof.
    pose proof (qgrid_nth 0 ltac:(lia)) as E0. pose proof (qgrid_nth 1 ltac:(lia)) as E1.
    assert (In (nth 0 qgrid 0) qgrid) as I0 by (apply nth_In; rewrite qgrid_length; lia).
    assert (In (nth 1 qgrid 0) qgrid) as I1 by (apply nth_In; rewrite qgrid_length; lia).
    exists (isf X (nth 0 qgrid 0)), (isf X (nth 1 qgrid 0)). split; [now apply in_map|]. split; [now apply in_map|].
    intros E. apply (f_equal (cdf X)) in E. rewrite (proj2 (isf_inside X _ VX (qgrid_range _ I0))), (proj2 (isf_inside X _ VX (qgrid_range _ I1))) in E.
    rewrite E0, E1 in E. simpl in E. lra.
  Qed.

  Lemma QQ_eq : QQ_plot_parametric X Y = Ok (combine (map (isf X) qgrid) (map (isf Y) qgrid), fitted_lines (map (isf X) qgrid) (map (isf Y) qgrid)).
  Proof.
    assert (forall d p, In p qgrid -> inverse_SF d p = Ok (isf d p)) as E.
    { intros d p Hp. apply qgrid_range in Hp. unfold inverse_SF. destruct (Rlt_dec p 0); [lra|]. destruct (Rlt_dec 1 p); [lra|reflexivity]. }
    unfold QQ_plot_parametric. fold qgrid. rewrite (all_ok_map (inverse_SF X) (isf X)) by (intros p Hp; now apply E).
    cbn [bind]. rewrite (all_ok_map (inverse_SF Y) (isf Y)) by (intros p Hp; now apply E). reflexivity.
  Qed.

  Lemma qq_lens : length (map (isf X) qgrid) = length (map (isf Y) qgrid).
  Proof. now rewrite !map_length. Qed.

  Lemma qq_polyfit : exists m1 c1, polyfit1 (map (isf X) qgrid) (map (isf Y) qgrid) = Some (m1, c1) /\
    (forall m c, sse (combine (map (isf X) qgrid) (map (isf Y) qgrid)) m1 c1 <= sse (combine (map (isf X) qgrid) (map (isf Y) qgrid)) m c) /\
    (forall m c, sse (combine (map (isf X) qgrid) (map (isf Y) qgrid)) m c <= sse (combine (map (isf X) qgrid) (map (isf Y) qgrid)) m1 c1 -> m = m1 /\ c = c1).
  Proof.
    pose proof (proj1 (two_diff_Sxx _ _ qq_lens) qq_two) as S. unfold polyfit1.
    destruct (Req_EM_T _ 0) as [E|_]; [contradiction|]. do 2 eexists. split; [reflexivity|]. split.
    - intros m c. now apply lsq_optimal.
    - intros m c. now apply lsq_unique.
  Qed.

  Lemma qq_nth i : (i < 100)%nat -> nth i (combine (map (isf X) qgrid) (map (isf Y) qgrid)) (0, 0) = (isf X (nth i qgrid 0), isf Y (nth i qgrid 0)).
  Proof.
    intros Hi. rewrite combine_map2. rewrite (nth_indep _ (0, 0) (isf X 0, isf Y 0)) by (rewrite map_length, qgrid_length; lia).
    now rewrite (map_nth (fun p => (isf X p, isf Y p)) qgrid 0 i).
  Qed.
End QQ.

Lemma qq_param X Y : valid X -> valid Y -> exists pts m m1 c1,
  QQ_plot_parametric X Y = Ok (pts, (m, Some (m1, c1))) /\ length pts = 100%nat /\
  (forall i, (i < 100)%nat -> let '(x, y) := nth i pts (0, 0) in
     inside X x /\ inside Y y /\ cdf X x = 99 / 100 - INR i * (98 / 9900) /\ cdf Y y = 99 / 100 - INR i * (98 / 9900)) /\
  (forall m', sse pts m 0 <= sse pts m' 0) /\
  (forall m' c', sse pts m1 c1 <= sse pts m' c') /\
  (forall m' c', sse pts m' c' <= sse pts m1 c1 -> m' = m1 /\ c' = c1).
Proof.
  intros VX VY. destruct (qq_polyfit X Y VX) as (m1 & c1 & E & O & U).
  rewrite QQ_eq. unfold fitted_lines. rewrite E. do 4 eexists. split; [reflexivity|].
  split; [rewrite combine_length, !map_length, qgrid_length; reflexivity|]. split.
  { intros i Hi. rewrite qq_nth by exact Hi. rewrite qgrid_nth by exact Hi.
    assert (0 < 1 / 100 + INR i * (98 / 9900) < 1) as Hp.
    { rewrite <- qgrid_nth by exact Hi. apply qgrid_range, nth_In. rewrite qgrid_length. exact Hi. }
    destruct (isf_inside X _ VX Hp) as [I1 E1]. destruct (isf_inside Y _ VY Hp) as [I2 E2].
    split; [exact I1|]. split; [exact I2|]. rewrite E1, E2. split; lra. }
  split; [intros m'; apply lstsq1_best; apply qq_lens|]. now split.
Qed.

Lemma qq_related X Y k c pts m m1 c1 : valid X -> valid Y ->
  (forall x : R, inside X x -> inside Y (k * x + c) /\ cdf Y (k * x + c) = cdf X x) ->
  QQ_plot_parametric X Y = Ok (pts, (m, Some (m1, c1))) ->
  m1 = k /\ c1 = c /\ (forall p, In p pts -> snd p = k * fst p + c) /\ (c = 0 -> m = k).
Proof.
  intros VX VY H. rewrite QQ_eq. unfold fitted_lines. intros E.
  assert (forall p, In p qgrid -> isf Y p = k * isf X p + c) as L.
  { intros p Hp. apply qgrid_range in Hp. destruct (isf_inside X p VX Hp) as [IX EX]. destruct (isf_inside Y p VY Hp) as [IY EY].
    destruct (H _ IX) as [I2 E2]. apply (cdf_inj Y); [assumption|assumption|assumption|]. now rewrite EY, E2, EX. }
  destruct (qq_two X VX) as (a & b & Ha & Hb & Hab). apply in_map_iff in Ha, Hb. destruct Ha as (p & <- & Hp), Hb as (q & <- & Hq).
  rewrite (polyfit_exact (isf X) (isf Y) qgrid k c p q Hp Hq Hab L) in E.
  assert (combine (map (isf X) qgrid) (map (isf Y) qgrid) = pts) as E1 by congruence.
  assert (lstsq1 (map (isf X) qgrid) (map (isf Y) qgrid) = m) as E2 by congruence.
  assert (k = m1) as E3 by congruence. assert (c = c1) as E4 by congruence. clear E.
  split; [now symmetry|]. split; [now symmetry|]. split.
  - rewrite <- E1, combine_map2. intros r Hr. apply in_map_iff in Hr. destruct Hr as (u & <- & Hu). now apply L.
  - intros Hc. rewrite <- E2. unfold lstsq1. rewrite (solve1_exact _ _ k); [reflexivity|apply qq_lens| |].
    + rewrite combine_map2. intros r Hr. apply in_map_iff in Hr. destruct Hr as (u & <- & Hu). cbn. rewrite (L u Hu). lra.
    + intros Z. rewrite dotp_zero in Z. apply Hab. rewrite (Z (isf X p)), (Z (isf X q)) by now apply in_map. reflexivity.
Qed.

(** ** The empirical distribution function *)
Definition pair_of (e : entry) : R * bool := (e_time e, e_code e).

Lemma ecdf_rows method a rows es : ecdf_entries method a rows = Ok es -> map pair_of es = rows.
Proof.
  unfold ecdf_entries. destruct (String.eqb method "KM").
  { unfold kaplan_meier. destruct (np_checks _ _); cbn [bind]; [|discriminate]. intros [= <-]. apply km_loop_rows. }
  destruct (String.eqb method "NA").
  { unfold nelson_aalen. destruct (np_checks _ _); cbn [bind]; [|discriminate]. intros [= <-]. rewrite map_map. apply na_loop_rows. }
  destruct (String.eqb method "RA"); [|discriminate].
  unfold rank_adjustment. destruct (np_checks _ _); cbn [bind]; [|discriminate]. destruct (plotting_positions_sorted a rows); cbn [bind]; [|discriminate].
  intros [= <-]. apply ra_loop_rows.
Qed.
Lemma filter_pairs es : map e_time (filter e_code es) = failure_times (map pair_of es).
Proof. unfold failure_times. induction es as [|e es IH]; [reflexivity|]. cbn [map filter pair_of snd]. destruct (e_code e); cbn; now rewrite IH. Qed.

Lemma failure_times_sorted rows : StronglySorted (fun r s : row => fst r <= fst s) rows -> StronglySorted Rle (failure_times rows).
Proof.
  unfold failure_times. induction 1 as [|r rows S IH F]; [constructor|]. cbn [filter]. destruct (snd r); [|exact IH].
  cbn [map]. constructor; [exact IH|]. apply Forall_forall. intros x Hx. apply in_map_iff in Hx. destruct Hx as (s & <- & Hs).
  apply filter_In in Hs. rewrite Forall_forall in F. now apply F.
Qed.
Lemma failure_times_perm f rc rows : Permutation (all_rows f rc) rows -> Permutation f (failure_times rows).
Proof.
  intros P. unfold failure_times. rewrite <- (filter_perm snd _ _ P). unfold all_rows. rewrite filter_app.
  rewrite (filter_none snd (map (fun t => (t, false)) rc)) by (intros x Hx; apply in_map_iff in Hx; destruct Hx as (u & <- & _); reflexivity).
  rewrite (filter_all snd) by (intros x Hx; apply in_map_iff in Hx; destruct Hx as (u & <- & _); reflexivity).
  rewrite app_nil_r, map_map. cbn. now rewrite map_id.
Qed.
Lemma failure_times_isort f rc rows : is_sorting_of (all_rows f rc) rows -> isort Rleb f = failure_times rows.
Proof.
  intros [P S]. apply isort_sorted_perm; [now apply failure_times_perm with rc|now apply failure_times_sorted].
Qed.

Lemma ecdf_inv method a rows q : ecdf method a rows = Ok q -> exists es, ecdf_entries method a rows = Ok es /\
  q = map (fun e => 1 - e_est e) (filter e_code es) /\ map e_time (filter e_code es) = failure_times rows.
Proof.
  unfold ecdf. destruct (ecdf_entries method a rows) as [es|] eqn:E; cbn [bind]; [|discriminate]. intros [= <-].
  exists es. split; [reflexivity|]. split; [reflexivity|]. rewrite filter_pairs. f_equal. now apply ecdf_rows in E.
Qed.

(** ** PP_plot_semiparametric *)
Lemma pp_semi method a f rc rows Y pts : is_sorting_of (all_rows f rc) rows ->
  PP_plot_semiparametric method a f rows Y = Ok pts ->
  exists es, ecdf_entries method a rows = Ok es /\ map pair_of es = rows /\
    pts = map (fun e => (1 - e_est e, cdf Y (e_time e))) (filter e_code es).
Proof.
  intros HS H. unfold PP_plot_semiparametric in H. destruct (ecdf method a rows) as [q|] eqn:E; cbn [bind] in H; [|discriminate].
  apply ecdf_inv in E. destruct E as (es & E & -> & T). rewrite (failure_times_isort f rc rows HS), <- T in H.
  unfold CDF in H. destruct (array_ok _ _); cbn [bind] in H; [|discriminate]. exists es. split; [exact E|]. split; [now apply ecdf_rows in E|].
  rewrite map_map, combine_map2 in H. congruence.
Qed.

(** ** QQ_plot_semiparametric *)
Lemma all_ok_inv {A B} (f : A -> result B) l : forall v, all_ok (map f l) = Ok v -> Forall2 (fun x y => f x = Ok y) l v.
Proof.
  induction l as [|x l IH]; intros v; cbn [map all_ok]; [intros [= <-]; constructor|].
  destruct (f x) as [y|] eqn:E; cbn [bind]; [|discriminate]. destruct (all_ok (map f l)) as [t|]; cbn [bind]; [|discriminate].
  intros [= <-]. constructor; [exact E|]. now apply IH.
Qed.
Lemma Forall2_nth {A B} (P : A -> B -> Prop) l v a b : Forall2 P l v -> length l = length v /\ forall i, (i < length l)%nat -> P (nth i l a) (nth i v b).
Proof.
  induction 1 as [|x y l v H F [IH1 IH2]]; [split; [reflexivity|intros i Hi; simpl in Hi; lia]|]. split; [simpl; lia|].
  intros [|i] Hi; [exact H|]. cbn. apply IH2. simpl in Hi. lia.
Qed.
Lemma qq_semi method a f rc rows Y pts : is_sorting_of (all_rows f rc) rows -> QQ_plot_semiparametric method a f rows Y = Ok pts ->
  exists q, ecdf method a rows = Ok q /\ length q = length f /\ length pts = length f /\
    forall i, (i < length f)%nat -> let u := nth (length f - 1 - i) q 0 in
      0 <= u <= 1 /\ nth i pts (0, PInf) = (nth i (isort Rleb f) 0, qq_quantile Y u).
Proof.
  intros HS H. unfold QQ_plot_semiparametric in H. destruct (ecdf method a rows) as [q|] eqn:E; cbn [bind] in H; [|discriminate].
  destruct (all_ok _) as [y|] eqn:E2; cbn [bind] in H; [|discriminate]. injection H as <-.
  exists q. split; [reflexivity|]. apply ecdf_inv in E. destruct E as (es & E & -> & T).
  rewrite (failure_times_isort f rc rows HS). assert (length (failure_times rows) = length f) as HL.
  { destruct HS as [P _]. apply failure_times_perm in P. symmetry. now apply Permutation_length. }
  rewrite map_length, <- (map_length e_time (filter e_code es)), T, HL. split; [reflexivity|].
  apply all_ok_inv in E2. destruct (Forall2_nth _ _ _ 0 PInf E2) as [L2 N2].
  assert (length y = length f) as Ly by (rewrite <- L2, map_length, <- (map_length e_time (filter e_code es)), T; exact HL).
  split; [rewrite combine_length, rev_length, HL, Ly; lia|]. intros i Hi. cbn zeta.
  specialize (N2 (length f - 1 - i)%nat). rewrite L2, Ly in N2. specialize (N2 ltac:(lia)). cbn beta in N2.
  destruct (Rlt_dec _ 0); [discriminate|]. destruct (Rlt_dec 1 _); [discriminate|]. split; [lra|]. injection N2 as N2. rewrite N2.
  rewrite combine_nth by (rewrite rev_length; lia). f_equal. rewrite rev_nth by lia. f_equal. lia.
Qed.

Lemma qq_semi_value method a f rc rows Y pts : valid Y -> is_sorting_of (all_rows f rc) rows -> QQ_plot_semiparametric method a f rows Y = Ok pts ->
  exists q, ecdf method a rows = Ok q /\ length q = length f /\ length pts = length f /\
    forall i, (i < length f)%nat -> fst (nth i pts (0, PInf)) = nth i (isort Rleb f) 0 /\
      (0 < nth (length f - 1 - i) q 0 < 1 -> exists y, snd (nth i pts (0, PInf)) = Fin y /\ inside Y y /\ cdf Y y = 1 - nth (length f - 1 - i) q 0).
Proof.
  intros V HS H. destruct (qq_semi method a f rc rows Y pts HS H) as (q & E & L1 & L2 & N). exists q.
  split; [exact E|]. split; [exact L1|]. split; [exact L2|]. intros i Hi. destruct (N i Hi) as [R1 ->]. split; [reflexivity|].
  intros Hu. unfold qq_quantile. destruct (Req_EM_T _ 1); [lra|]. destruct (Req_EM_T _ 0); [lra|]. eexists. split; [reflexivity|]. now apply isf_inside.
Qed.

Lemma ecdf_RA a f rc rows q : is_sorting_of (all_rows f rc) rows -> ecdf "RA" a rows = Ok q -> exists x, plotting_positions_sorted a rows = Ok (x, q).
Proof.
  intros HS H. unfold ecdf, ecdf_entries in H. cbn [String.eqb Ascii.eqb Bool.eqb] in H.
  unfold rank_adjustment in H. destruct (np_checks _ _); cbn [bind] in H; [|discriminate].
  destruct (plotting_positions_sorted a rows) as [[x y]|] eqn:E; cbn [bind fst snd] in H; [|discriminate].
  injection H as H. exists x. f_equal. f_equal. rewrite <- H.
  destruct (plotting_positions_johnson _ _ _ _ E) as (_ & Ly & _).
  unfold ra_build. cbn [ra_entries]. rewrite <- (map_map e_est (fun v => 1 - v)), ra_loop_failures by exact Ly.
  rewrite map_map. symmetry. erewrite map_ext; [apply map_id|]. intros v. cbn. ring.
Qed.

Lemma qq_rank a f rows Y pts : valid Y -> a_value a < 1 -> is_sorting_of (all_rows f []) rows ->
  QQ_plot_semiparametric "RA" a f rows Y = Ok pts ->
  length pts = length f /\
  forall i, (i < length f)%nat -> exists y, nth i pts (0, PInf) = (nth i (isort Rleb f) 0, Fin y) /\ inside Y y /\
    cdf Y y = (INR (S i) - a_value a) / (INR (length f) + 1 - 2 * a_value a).
Proof.
  intros V Ha HS H. destruct (qq_semi_value "RA" a f [] rows Y pts V HS H) as (q & E & L1 & L2 & N). split; [exact L2|].
  apply (ecdf_RA a f [] rows q HS) in E. destruct E as (x & E).
  pose proof (plotting_positions_range a rows x q Ha E) as [_ F]. destruct (c10 _ _ _ _ _ HS E) as (_ & _ & Eq).
  intros i Hi. destruct (N i Hi) as [E1 E2].
  assert (forall j, (j < length f)%nat -> nth j q 0 = (INR (S j) - a_value a) / (INR (length f) + 1 - 2 * a_value a)) as Q.
  { intros j Hj. rewrite Eq. rewrite (nth_map_lt _ _ _ 0%nat) by (now rewrite seq_length). now rewrite seq_nth. }
  rewrite Forall_forall in F. destruct E2 as (y & E2 & I & C).
  { apply F, nth_In. lia. }
  exists y. destruct (nth i pts (0, PInf)) as [u v]. cbn in E1, E2. subst u v. split; [reflexivity|]. split; [exact I|].
  rewrite C, Q by lia. assert (1 <= INR (length f)) by (apply (le_INR 1); lia).
  replace (INR (S (length f - 1 - i))) with (INR (length f) - INR i); [rewrite S_INR; field; lra|].
  rewrite <- minus_INR by lia. f_equal. lia.
Qed.

(** ** PP_plot_parametric *)
Definition pp_lo (X Y : dist) := Rmin (ppf X (1 / 100)) (ppf Y (1 / 100)).
Definition pp_hi (X Y : dist) := Rmax (ppf X (99 / 100)) (ppf Y (99 / 100)).
Lemma ppf_le d p q : valid d -> 0 < p -> p <= q -> q < 1 -> ppf d p <= ppf d q.
Proof.
  intros V H0 H1 H2. pose proof (all_facts d V) as F. destruct (F_ppf d F p) as [I1 E1]; [lra|]. destruct (F_ppf d F q) as [I2 E2]; [lra|].
  destruct (Rle_lt_dec (ppf d p) (ppf d q)) as [L|L]; [exact L|]. pose proof (cdf_strict d V _ _ I2 I1 L). lra.
Qed.
Lemma pp_lo_hi X Y : valid X -> valid Y -> pp_lo X Y <= pp_hi X Y.
Proof.
  intros VX VY. unfold pp_lo, pp_hi. pose proof (ppf_le X (1 / 100) (99 / 100) VX ltac:(lra) ltac:(lra) ltac:(lra)).
  eapply Rle_trans; [apply Rmin_l|]. eapply Rle_trans; [exact H|]. apply Rmax_l.
Qed.
Lemma grid_range lo hi p : lo <= hi -> In p (linspace lo hi 100) -> lo <= p <= hi.
Proof.
  intros L H. apply (In_nth _ _ 0) in H. destruct H as (i & Hi & <-). rewrite linspace_length in Hi. rewrite linspace_nth by exact Hi.
  replace (INR (100 - 1)) with 99 by (simpl; lra). pose proof (pos_INR i).
  assert (INR i <= 99). { replace 99 with (INR 99) by (simpl; lra). apply le_INR. lia. } split; nra.
Qed.
Lemma grid_lo lo hi : In lo (linspace lo hi 100).
Proof.
  replace lo with (nth 0 (linspace lo hi 100) 0) at 1; [apply nth_In; rewrite linspace_length; lia|]. rewrite linspace_nth by lia. simpl. lra.
Qed.
Lemma grid_hi lo hi : In hi (linspace lo hi 100).
Proof.
  replace hi with (nth 99 (linspace lo hi 100) 0) at 1; [apply nth_In; rewrite linspace_length; lia|]. rewrite linspace_nth by lia.
  replace (INR (100 - 1)) with 99 by (simpl; lra). replace (INR 99) with 99 by (simpl; lra). field.
Qed.
Lemma array_ok_grid d lo hi : lo <= hi ->
  (array_ok d (linspace lo hi 100) = true <-> (supp_lo d = m_infty \/ 0 <= lo) /\ (supp_hi d = p_infty \/ hi <= 1)).
Proof.
  intros L. assert (array_ok d (linspace lo hi 100) = (is_signed d || forallb (fun x => negb (Rltb' x 0)) (linspace lo hi 100)) && (negb (is_beta d) || forallb (fun x => negb (Rltb' 1 x)) (linspace lo hi 100)))%bool as ->.
  { pose proof (linspace_length lo hi 100) as E. unfold array_ok. destruct (linspace lo hi 100); [discriminate|reflexivity]. }
  assert (forallb (fun x => negb (Rltb' x 0)) (linspace lo hi 100) = true <-> 0 <= lo) as E1.
  { rewrite forallb_forall. split.
    - intros H. specialize (H lo (grid_lo lo hi)). unfold Rltb' in H. destruct (Rlt_dec lo 0); [discriminate|lra].
    - intros H x Hx. apply grid_range in Hx; [|exact L]. unfold Rltb'. destruct (Rlt_dec x 0); [lra|reflexivity]. }
  assert (forallb (fun x => negb (Rltb' 1 x)) (linspace lo hi 100) = true <-> hi <= 1) as E2.
  { rewrite forallb_forall. split.
    - intros H. specialize (H hi (grid_hi lo hi)). unfold Rltb' in H. destruct (Rlt_dec 1 hi); [discriminate|lra].
    - intros H x Hx. apply grid_range in Hx; [|exact L]. unfold Rltb'. destruct (Rlt_dec 1 x); [lra|reflexivity]. }
  rewrite andb_true_iff, !orb_true_iff, E1, E2.
  assert (is_signed d = true <-> supp_lo d = m_infty) as -> by (destruct d; cbn; split; intros H; try reflexivity; discriminate).
  assert (negb (is_beta d) = true <-> supp_hi d = p_infty) as -> by (destruct d; cbn; split; intros H; try reflexivity; discriminate).
  reflexivity.
Qed.

Lemma pp_param X Y : valid X -> valid Y ->
  let lo := Rmin (ppf X (1 / 100)) (ppf Y (1 / 100)) in let hi := Rmax (ppf X (99 / 100)) (ppf Y (99 / 100)) in
  ((supp_lo X = m_infty \/ 0 <= lo) /\ (supp_hi X = p_infty \/ hi <= 1) /\ (supp_lo Y = m_infty \/ 0 <= lo) /\ (supp_hi Y = p_infty \/ hi <= 1) ->
   PP_plot_parametric X Y = Ok (map (fun t => (cdf X t, cdf Y t)) (linspace lo hi 100))) /\
  (~ ((supp_lo X = m_infty \/ 0 <= lo) /\ (supp_hi X = p_infty \/ hi <= 1) /\ (supp_lo Y = m_infty \/ 0 <= lo) /\ (supp_hi Y = p_infty \/ hi <= 1)) ->
   PP_plot_parametric X Y = Err ValueError).
Proof.
  intros VX VY. cbn zeta. pose proof (pp_lo_hi X Y VX VY) as L. unfold PP_plot_parametric, pp_grid, CDF. fold (pp_lo X Y). fold (pp_hi X Y).
  pose proof (array_ok_grid X _ _ L) as AX. pose proof (array_ok_grid Y _ _ L) as AY. split.
  - intros H. destruct (array_ok X _); cbn [bind]; [|exfalso; apply diff_false_true, AX; tauto].
    destruct (array_ok Y _); cbn [bind]; [|exfalso; apply diff_false_true, AY; tauto]. now rewrite combine_map2.
  - intros H. destruct (array_ok X _); cbn [bind]; [|reflexivity]. destruct (array_ok Y _); cbn [bind]; [|reflexivity]. exfalso. apply H. tauto.
Qed.

(** ** plot_points *)
Definition previous (l : list R) (i : nat) : R := match i with O => 0 | S j => nth j l 0 end.
Lemma diffs_length l : forall p, length (diffs p l) = length l.
Proof. induction l as [|x l IH]; intros p; [reflexivity|]. cbn. now rewrite IH. Qed.
Lemma diffs_nth l : forall p i, (i < length l)%nat -> nth i (diffs p l) 0 = nth i l 0 - match i with O => p | S j => nth j l 0 end.
Proof.
  induction l as [|x l IH]; intros p i Hi; [simpl in Hi; lia|]. destruct i as [|i]; [reflexivity|]. cbn [diffs nth].
  simpl in Hi. rewrite IH by lia. destruct i; reflexivity.
Qed.
Lemma zip_nth {A B C} (g : A -> B -> C) l m a b c i : (i < length l)%nat -> (i < length m)%nat -> nth i (zip g l m) c = g (nth i l a) (nth i m b).
Proof.
  revert m i. induction l as [|x l IH]; intros [|y m] i H1 H2; simpl in H1, H2; try lia. destruct i as [|i]; [reflexivity|]. cbn. apply IH; lia.
Qed.
Lemma zip_length {A B C} (g : A -> B -> C) l m : length (zip g l m) = Nat.min (length l) (length m).
Proof. revert m. induction l as [|x l IH]; intros [|y m]; cbn; try reflexivity. now rewrite IH. Qed.
Lemma hf_points_length l : forall t h, length (hf_points t h l) = length l.
Proof. induction l as [|[t y] l IH]; intros t0 h; [reflexivity|]. cbn. now rewrite IH. Qed.
Lemma hf_points_nth l : forall t0 h0 i, (forall p, In p l -> snd p < 1) -> (i < length l)%nat ->
  nth i (hf_points t0 (Some h0) l) None =
  slope_abs (- ln (1 - snd (nth i l (0, 0))) - match i with O => h0 | S j => - ln (1 - snd (nth j l (0, 0))) end)
            (fst (nth i l (0, 0)) - match i with O => t0 | S j => fst (nth j l (0, 0)) end).
Proof.
  induction l as [|[t y] l IH]; intros t0 h0 i HF Hi; [simpl in Hi; lia|]. cbn [hf_points]. unfold chf_of.
  destruct (Rlt_dec y 1) as [Hy|Hy]; [|exfalso; apply Hy; apply (HF (t, y)); now left].
  destruct i as [|i]; [reflexivity|]. cbn [nth]. rewrite IH; [|intros p Hp; apply HF; now right|simpl in Hi; lia].
  destruct i; reflexivity.
Qed.

(** Increasing data: the positions in the user's order are those in sorted order. *)
Lemma unsorted_increasing f rc a rows x y xs ys :
  Permutation (indexed (all_rows f rc)) rows -> StronglySorted (fun r s : nat * row => fst (snd r) <= fst (snd s)) rows ->
  StronglySorted Rlt f -> plotting_positions_unsorted a rows = Ok (x, y) -> plotting_positions_sorted a (map snd rows) = Ok (xs, ys) ->
  x = f /\ y = ys.
Proof.
  intros P S SF H1 H2. destruct (plotting_positions_restores f rc a rows x y P H1) as (-> & Ly & xs' & ys' & E & N).
  assert (xs' = xs) as -> by congruence. assert (ys' = ys) as -> by congruence. split; [reflexivity|].
  assert (is_sorting_of (all_rows f rc) (map snd rows)) as HS.
  { split.
    - apply (Permutation_map snd) in P. rewrite <- P. unfold indexed. rewrite map_snd_combine; [reflexivity|]. now rewrite seq_length.
    - clear -S. induction S as [|r rows S IH F]; cbn; constructor; [exact IH|]. apply Forall_map. exact F. }
  assert (xs = f) as ->.
  { apply sorted_inv in H2. destruct H2 as (_ & -> & _). rewrite <- (failure_times_isort f rc _ HS). apply isort_sorted_perm; [reflexivity|].
    clear -SF. induction SF as [|r l S IH F]; constructor; [exact IH|]. eapply Forall_impl; [|exact F]. intros z Hz. lra. }
  destruct (plotting_positions_johnson _ _ _ _ H2) as (Lf & Lys & rank & _ & J).
  assert (length ys = length f) as Ly2 by lia.
  apply nth_ext with 0 0; [lia|]. intros i Hi. rewrite Ly in Hi.
  destruct (nth_error f i) as [t|] eqn:Et; [|apply nth_error_None in Et; lia].
  assert (In (i, (t, true)) rows) as Hin.
  { apply (Permutation_in _ P). apply indexed_nth. now apply all_rows_nth_failure. }
  apply in_split in Hin. destruct Hin as (pre & post & Er). destruct (N pre i t post Er) as [_ N2].
  assert (map snd rows = map snd pre ++ (t, true) :: map snd post) as Em by now rewrite Er, map_app.
  destruct (J _ _ _ Em) as (_ & J2 & _). cbn zeta in J2.
  assert (n_failed (map snd pre) = i) as E3.
  { assert (NoDup f) as ND.
    { clear -SF. induction SF as [|r l S IH F]; constructor; [|exact IH]. intros Hin. rewrite Forall_forall in F. specialize (F r Hin). lra. }
    rewrite NoDup_nth_error in ND. apply ND; [|congruence]. apply nth_error_Some. congruence. }
  rewrite E3 in N2.
  destruct (nth_error ys i) as [v|] eqn:Ev; [|apply nth_error_None in Ev; lia].
  rewrite (nth_error_nth y i 0 (x := v)), (nth_error_nth ys i 0 (x := v)) by assumption. reflexivity.
Qed.
