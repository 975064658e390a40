(** The statistics and the mean residual life of the combined models: what the calls return. *)
From Coquelicot Require Import Coquelicot.
From Coq Require Import List Arith Reals Lra Lia Bool ZArith Sorting.Sorted Permutation.
From Verif Require Import Base RealFacts Gauss Ext RList DistModel DistSpec DistProofs DistProofs2 DistProofs3 DistProofs4 DistProps RepairModel RepairProofs CombModel CombSpec CombProofs CombProofs2 CombProofs3 CombProps
  MomentSpec MRLProofs OtherProofs3 CStatModel CStatSpec CStatProofs CStatProofs2.
Import ListNotations.
Open Scope R_scope.

#[local] Opaque table_grid.

Definition six (s : statistics) := (st_mean s, st_standard_deviation s, st_variance s, st_skewness s, st_kurtosis s, st_excess_kurtosis s).
Lemma six_collect m a b c d : six (collect m a b c d) = m.
Proof. destruct m as [[[[[x y] z] u] v] w]. reflexivity. Qed.
Lemma collect_rest m a b c d : st_mode (collect m a b c d) = a /\ st_median (collect m a b c d) = b /\ st_b5 (collect m a b c d) = c /\ st_b95 (collect m a b c d) = d.
Proof. destruct m as [[[[[x y] z] u] v] w]. now repeat split. Qed.

Lemma nearest_of F lo hi p x : table_stat (table_grid lo hi) (map F (table_grid lo hi)) p = Ok x -> nearest_on_grid F lo hi p x.
Proof. intros H. apply table_stat_spec in H. destruct H as [A B]. split; [exact (proj1 (grid_points lo hi x) A)|]. intros y Hy. exact (B y (proj2 (grid_points lo hi y) Hy)). Qed.
Lemma highest_of f lo hi x : table_mode (table_grid lo hi) (map f (table_grid lo hi)) = Ok x -> highest_on_grid f lo hi x.
Proof. intros H. apply table_mode_spec in H. destruct H as [A B]. split; [exact (proj1 (grid_points lo hi x) A)|]. intros y Hy. exact (B y (proj2 (grid_points lo hi y) Hy)). Qed.
Lemma map_grid_ne {A} (f : R -> A) lo hi : map f (table_grid lo hi) <> [].
Proof. pose proof (grid_ne lo hi) as N. destruct (table_grid lo hi); [contradiction|discriminate]. Qed.

Lemma cr_stats ds lo hi : Forall valid ds -> range_of ds lo hi -> below_one ds hi -> finite_density ds lo hi -> hazards_defined ds lo hi ->
  exists s, cr_statistics ds = Ok s /\ described (cr_density_at ds) lo hi (six s) /\
    highest_on_grid (cr_density_at ds) lo hi (st_mode s) /\ nearest_on_grid (cr_survival ds) lo hi (1 / 2) (st_median s) /\
    nearest_on_grid (fun x => 1 - cr_survival ds x) lo hi (5 / 100) (st_b5 s) /\ nearest_on_grid (fun x => 1 - cr_survival ds x) lo hi (95 / 100) (st_b95 s).
Proof.
  intros V R B F Hz. pose proof (range_lt ds lo hi V R) as L. unfold cr_statistics. rewrite (range_grid ds lo hi R). cbv zeta. rewrite (cr_tables ds lo hi V R B). cbn [bind cr_pdf cr_sf].
  rewrite (map_ext_in (fun x => nan_to_num (emul (Fin (cr_sf_at ds x)) (cr_hf_at ds x))) (cr_density_at ds) (table_grid lo hi)).
  2:{ intros x Hx. apply grid_points in Hx. apply cr_pdf_at; [assumption|]. intros d Hd. split; [now apply Hz|now apply F]. }
  rewrite map_map. change (cr_sf_at ds) with (cr_survival ds).
  destruct (table_mode_some (table_grid lo hi) (map (cr_density_at ds) (table_grid lo hi)) (map_grid_ne _ _ _) (map_length _ _)) as [mode Em]. rewrite Em. cbn [bind].
  destruct (table_stat_some (table_grid lo hi) (map (cr_survival ds) (table_grid lo hi)) (1 / 2) (map_grid_ne _ _ _) (map_length _ _)) as [med E1]. rewrite E1. cbn [bind].
  destruct (table_stat_some (table_grid lo hi) (map (fun x => 1 - cr_survival ds x) (table_grid lo hi)) (5 / 100) (map_grid_ne _ _ _) (map_length _ _)) as [b5 E2]. rewrite E2. cbn [bind].
  destruct (table_stat_some (table_grid lo hi) (map (fun x => 1 - cr_survival ds x) (table_grid lo hi)) (95 / 100) (map_grid_ne _ _ _) (map_length _ _)) as [b95 E3]. rewrite E3. cbn [bind].
  eexists. split; [reflexivity|]. rewrite six_collect. destruct (collect_rest (moment_stats (table_grid lo hi) (map (cr_density_at ds) (table_grid lo hi))) mode med b5 b95) as (-> & -> & -> & ->).
  split; [apply moments_described; [assumption|]; intros; now apply cr_density_nonneg|].
  split; [now apply highest_of|]. split; [now apply nearest_of|]. split; now apply nearest_of.
Qed.

Lemma all_finite_map (f : R -> ext) (g : R -> R) X : (forall x, In x X -> f x = Fin (g x)) -> all_finite (map f X) = Some (map g X).
Proof.
  induction X as [|x X IH]; intros H; [reflexivity|]. cbn [map all_finite]. rewrite (H x (or_introl eq_refl)), IH by (intros; apply H; now right). reflexivity.
Qed.
Lemma dot_nonneg : forall ps vs, Forall (fun p => 0 <= p) ps -> Forall (fun v => 0 <= v) vs -> 0 <= dot ps vs.
Proof.
  induction ps as [|p ps IH]; intros [|v vs] Hp Hv; simpl; try lra. apply Forall_cons_iff in Hp, Hv. destruct Hp as [P Hp], Hv as [W Hv].
  specialize (IH vs Hp Hv). nra.
Qed.

Lemma mix_stats ds ps lo hi : Forall valid ds -> length ps = length ds -> Forall (fun p => 0 <= p) ps -> range_of ds lo hi -> below_one ds hi -> finite_density ds lo hi ->
  exists s, mix_statistics ds ps = Ok s /\ described (mix_density_at ds ps) lo hi (six s) /\
    highest_on_grid (mix_density_at ds ps) lo hi (st_mode s) /\ nearest_on_grid (mix_survival ds ps) lo hi (1 / 2) (st_median s) /\
    nearest_on_grid (fun x => dot ps (map (fun d => cdf d x) ds)) lo hi (5 / 100) (st_b5 s) /\ nearest_on_grid (fun x => dot ps (map (fun d => cdf d x) ds)) lo hi (95 / 100) (st_b95 s).
Proof.
  intros V Lp Pp R B F. pose proof (range_lt ds lo hi V R) as L. unfold mix_statistics. rewrite (range_grid ds lo hi R). cbv zeta. rewrite (mix_tables ds ps lo hi V Lp R B). cbn [bind mix_pdf mix_cdf].
  assert (forall x, In x (table_grid lo hi) -> mix_pdf_at ds ps x = Fin (mix_density_at ds ps x)) as K.
  { intros x Hx. apply mix_pdf_sum; [assumption|]. intros d Hd. apply grid_points in Hx. destruct (F d x Hd Hx) as [p E]. unfold density. now rewrite E. }
  rewrite (all_finite_map _ _ _ K), !map_map.
  rewrite (map_ext_in (fun x => match mix_pdf_at ds ps x with Fin x0 => x0 | _ => max_float end) (mix_density_at ds ps) (table_grid lo hi)) by (intros x Hx; now rewrite (K x Hx)).
  change (fun x => 1 - mix_cdf_at ds ps x) with (mix_survival ds ps). change (mix_cdf_at ds ps) with (fun x => dot ps (map (fun d => cdf d x) ds)).
  set (C := fun x => dot ps (map (fun d => cdf d x) ds)).
  destruct (table_mode_some (table_grid lo hi) (map (mix_density_at ds ps) (table_grid lo hi)) (map_grid_ne _ _ _) (map_length _ _)) as [mode Em]. rewrite Em. cbn [bind].
  destruct (table_stat_some (table_grid lo hi) (map (mix_survival ds ps) (table_grid lo hi)) (1 / 2) (map_grid_ne _ _ _) (map_length _ _)) as [med E1]. rewrite E1. cbn [bind].
  destruct (table_stat_some (table_grid lo hi) (map C (table_grid lo hi)) (5 / 100) (map_grid_ne _ _ _) (map_length _ _)) as [b5 E2]. rewrite E2. cbn [bind].
  destruct (table_stat_some (table_grid lo hi) (map C (table_grid lo hi)) (95 / 100) (map_grid_ne _ _ _) (map_length _ _)) as [b95 E3]. rewrite E3. cbn [bind].
  eexists. split; [reflexivity|]. rewrite six_collect. destruct (collect_rest (moment_stats (table_grid lo hi) (map (mix_density_at ds ps) (table_grid lo hi))) mode med b5 b95) as (-> & -> & -> & ->).
  split. { apply moments_described; [assumption|]. intros x _. apply dot_nonneg; [assumption|]. apply Forall_map, Forall_forall. intros d Hd. apply density_nonneg. rewrite Forall_forall in V. auto. }
  split; [now apply highest_of|]. split; [now apply nearest_of|]. split; now apply nearest_of.
Qed.

(** ** Order of the components *)
Lemma cr_statistics_perm ds ds' : Permutation ds ds' -> cr_statistics ds = cr_statistics ds'.
Proof. intros P. unfold cr_statistics. now rewrite (comb_grid_perm ds ds' P), (cr_combine_perm ds ds' (comb_grid ds') P). Qed.
Lemma fst_combine {A B} : forall (l : list A) (m : list B), length m = length l -> map fst (combine l m) = l.
Proof. induction l as [|x l IH]; intros [|y m] H; try discriminate H; [reflexivity|]. simpl. rewrite IH by (simpl in H; lia). reflexivity. Qed.
Lemma mix_statistics_perm ds ps ds' ps' : length ps = length ds -> length ps' = length ds' -> Permutation (combine ds ps) (combine ds' ps') ->
  mix_statistics ds ps = mix_statistics ds' ps'.
Proof.
  intros L L' P. unfold mix_statistics. assert (Permutation ds ds') as Q by (apply (Permutation_map fst) in P; now rewrite !fst_combine in P).
  now rewrite (comb_grid_perm ds ds' Q), (mix_combine_perm ds ps ds' ps' (comb_grid ds') L L' P).
Qed.
Lemma xmax_perm ds ds' : Permutation ds ds' -> xmax_inf ds = xmax_inf ds'.
Proof.
  intros P. unfold xmax_inf. apply fold_left_swap_perm; [|now apply Permutation_map]. intros. rewrite !Rmax_assoc_l. f_equal. apply Rmax_comm.
Qed.
Lemma cr_mrl_perm ds ds' t : Permutation ds ds' -> cr_mrl ds t = cr_mrl ds' t.
Proof.
  intros P. unfold cr_mrl. rewrite (xmax_perm ds ds' P). cbv zeta.
  rewrite (accumulate_perm Rmult (component 1 SF (table_grid t (xmax_inf ds'))) ltac:(intros; ring) (component_error 1 SF _ SF_error) ds ds' P).
  destruct (accumulate _ _ ds' _); [|reflexivity]. cbn [bind].
  rewrite (fold_left_swap_perm (fun s d => if is_signed d then s * sf d t else if Rlt_dec 0 t then s * sf d t else s)) with (l' := ds'); [reflexivity| |assumption].
  intros c x y. destruct (is_signed x), (is_signed y), (Rlt_dec 0 t); ring.
Qed.
Lemma mix_mrl_perm ds ps ds' ps' t : length ps = length ds -> length ps' = length ds' -> Permutation (combine ds ps) (combine ds' ps') ->
  mix_mrl ds ps t = mix_mrl ds' ps' t.
Proof.
  intros L L' P. unfold mix_mrl. assert (Permutation ds ds') as Q by (apply (Permutation_map fst) in P; now rewrite !fst_combine in P).
  rewrite (xmax_perm ds ds' Q). cbv zeta. rewrite !accumulate_pairs_eq by assumption.
  rewrite (accumulate_pairs_perm Rplus (fun p y => y * p) (component 0 CDF (table_grid t (xmax_inf ds'))) ltac:(intros; ring) (component_error 0 CDF _ CDF_error) _ _ P).
  match goal with |- bind ?e _ = bind ?e _ => destruct e; [|reflexivity] end. cbn [bind].
  rewrite (fold_left_swap_perm (fun c dp => if is_signed (fst dp) then c + cdf (fst dp) t * snd dp else if Rlt_dec 0 t then c + cdf (fst dp) t * snd dp else c)) with (l' := combine ds' ps'); [reflexivity| |assumption].
  intros c0 x y. destruct (is_signed (fst x)), (is_signed (fst y)), (Rlt_dec 0 t); ring.
Qed.

(** ** Mean residual life *)
Section Curve.
  Variables (S : R -> R) (t hi : R).
  Hypothesis Sdecr : forall x y, x <= y -> S y <= S x.
  Hypothesis Srange : forall x, 0 <= S x.
  Hypothesis St : 0 < S t.
  Let X := table_grid t hi.
  Let q := simpson (map S X) X / S t.

  Lemma curve_bounds I : t < hi -> is_RInt S t hi I -> 0 < q <= hi - t /\ Rabs (q - I / S t) <= (hi - t) / 999999.
  Proof.
    intros L HI. unfold q, X. rewrite grid_nodes. destruct M_facts as [M3 M1]. set (h := (hi - t) / 999999). assert (0 < h) as Hh by (apply Rdiv_lt_0_compat; lra).
    assert (t + INR (M - 1) * h = hi) as Eh by (rewrite M1; unfold h; field).
    assert (0 < simpson (map S (nodes t h M)) (nodes t h M)) as P by (apply simpson_pos; auto).
    split; [split|].
    - now apply Rdiv_lt_0_compat.
    - assert (0 <= simpson (map (fun x => S t + -1 * S x) (nodes t h M)) (nodes t h M)) as N.
      { apply simpson_nonneg; [assumption|assumption|]. intros x Hx. unfold h in Hx. rewrite <- (grid_nodes t hi) in Hx. apply (grid_in t hi x) in Hx; [|lra]. pose proof (Sdecr t x ltac:(lra)). lra. }
      rewrite (simpson_linear (fun _ => S t) S (-1) t h M M3 ltac:(lra)), (simpson_const (S t) t h M M3 ltac:(lra)) in N. rewrite M1 in N.
      clear P. revert N. generalize (simpson (map S (nodes t h M)) (nodes t h M)). intros s N.
      apply (Rmult_le_reg_r (S t)); [assumption|]. replace (s / S t * S t) with s by (field; lra).
      replace (hi - t) with (999999 * h) by (unfold h; field). lra.
    - pose proof (simpson_monotone S t h M I M3 Hh) as A. rewrite Eh in A. specialize (A ltac:(intros x y Hx Hy; apply Sdecr; lra) HI).
      clear P. revert A. generalize (simpson (map S (nodes t h M)) (nodes t h M)). intros s A.
      replace (s / S t - I / S t) with ((s - I) * / S t) by (field; lra).
      rewrite Rabs_mult, (Rabs_pos_eq (/ S t)) by (left; now apply Rinv_0_lt_compat).
      apply (Rmult_le_reg_r (S t)); [assumption|]. rewrite Rmult_assoc, Rinv_l, Rmult_1_r by lra. apply Rle_trans with (1 := A). apply Rmult_le_compat_l; [lra|]. pose proof (Srange hi). lra.
  Qed.

  Lemma curve_negative : hi < t -> q < 0.
  Proof.
    intros L. unfold q, X. rewrite grid_nodes. destruct M_facts as [M3 M1]. set (h := (hi - t) / 999999). assert (h < 0) as Hh by (apply Rmult_lt_reg_r with 999999; [lra|]; unfold h; field_simplify; lra).
    destruct (simpson_neg_step S t h M M3 ltac:(lra)) as (f' & Ef & ->). assert (0 < simpson (map f' (nodes t (- h) M)) (nodes t (- h) M)) as P.
    { apply simpson_pos; [assumption|lra| |]; [intros; rewrite Ef; apply Srange|]. rewrite Ef. now replace (2 * t - t) with t by ring. }
    apply (Rmult_lt_reg_r (S t)); [assumption|]. unfold Rdiv. rewrite Rmult_assoc, Rinv_l by lra. lra.
  Qed.
End Curve.

Lemma simple_component {A} (below : A) (g : dist -> R -> A) (f : dist -> list R -> result (list A)) X d :
  (forall d Z, f d Z = if array_ok d Z then Ok (map (g d) Z) else Err ValueError) -> X <> [] -> component_accepts d X ->
  (is_signed d = false -> forall x, x < 0 -> g d x = below) -> (is_signed d = true \/ negatives_first X) -> component below f X d = Ok (map (g d) X).
Proof.
  intros Hf Hne Ha Hb [S|Hn].
  - unfold component. rewrite S, Hf. pose proof (accepts_array_ok d X Hne Ha) as K. unfold arg in K. rewrite S in K. now rewrite K.
  - apply component_map; try assumption. intros K. now rewrite Hf, K.
Qed.

Lemma nonneg_negatives_first X : (forall x, In x X -> 0 <= x) -> negatives_first X.
Proof. intros H i j Hij Hj. assert (j < length X)%nat as K by lia. pose proof (H (nth j X 0) (nth_In X 0 K)). lra. Qed.

Lemma sf_pos_below ds d t hi : Forall valid ds -> In d ds -> below_one ds hi -> t < hi \/ (forall a b, ~ In (DistModel.Beta a b) ds) -> 0 < sf d t.
Proof.
  intros V Hd B H. rewrite Forall_forall in V. apply sf_pos; [now apply V|]. destruct d; cbn; try exact I. destruct H as [H|H]; [pose proof (B _ _ Hd); lra|destruct (H _ _ Hd)].
Qed.
Lemma rprod_pos l : Forall (fun v => 0 < v) l -> 0 < rprod l.
Proof. induction 1 as [|v l H _ IH]; unfold rprod in *; simpl; [lra|]. now apply Rmult_lt_0_compat. Qed.

(** The grid of the mean residual life is accepted, and the negative entries come first unless all components are signed. *)
Lemma mrl_grid_ok ds lo hi t : Forall valid ds -> range_of ds lo hi -> below_one ds hi -> t < hi \/ (forall a b, ~ In (DistModel.Beta a b) ds) ->
  forall d, In d ds -> component_accepts d (table_grid t hi) /\ (is_signed d = true \/ negatives_first (table_grid t hi)).
Proof.
  intros V R B H d Hd. destruct (Rlt_le_dec t hi) as [L|L].
  - split; [apply (accepts_from ds lo hi t V R B); [lra|assumption]|]. right. apply sorted_negatives_first, grid_sorted. lra.
  - destruct H as [H|NB]; [lra|]. destruct (is_signed d) eqn:S; [split; [|now left]; destruct d; try discriminate; exact I|].
    pose proof (unsigned_top ds lo hi d V R Hd S) as P. assert (forall x, In x (table_grid t hi) -> 0 <= x) as N.
    { intros x Hx. apply grid_points in Hx as (i & Hi & ->). pose proof (pos_INR i). replace (t + INR i * ((hi - t) / 999999)) with (t * (1 - INR i / 999999) + hi * (INR i / 999999)) by field.
      assert (0 <= INR i / 999999 <= 1) by (split; [apply Rmult_le_pos; lra|apply Rmult_le_reg_r with 999999; [lra|]; field_simplify; lra]). nra. }
    split; [|right; now apply nonneg_negatives_first].
    assert (exists x, In x (table_grid t hi) /\ 0 <= x) as E. { exists hi. split; [|assumption]. apply grid_points. destruct million as (k & E & K). exists (Datatypes.S k). rewrite K. split; [lra|field]. }
    destruct d; cbn [component_accepts]; try exact I; try exact E. destruct (NB _ _ Hd).
Qed.

Lemma cr_mrl_value ds lo hi t : Forall valid ds -> range_of ds lo hi -> below_one ds hi -> t < hi \/ (forall a b, ~ In (DistModel.Beta a b) ds) ->
  0 < cr_survival ds t /\ cr_mrl ds t = Ok (Fin (simpson (map (cr_survival ds) (table_grid t hi)) (table_grid t hi) / cr_survival ds t)).
Proof.
  intros V R B H. pose proof (range_ends ds lo hi R) as (_ & Eh & _). assert (0 < cr_survival ds t) as P.
  { apply rprod_pos, Forall_map, Forall_forall. intros d Hd. now apply (sf_pos_below ds d t hi). }
  split; [assumption|]. unfold cr_mrl. change (xmax_inf ds) with (highest ds). rewrite Eh. cbv zeta.
  rewrite (accumulate_map Rmult (component 1 SF (table_grid t hi)) sf (table_grid t hi) ds (fun _ => 1)).
  2:{ intros d Hd. destruct (mrl_grid_ok ds lo hi t V R B H d Hd) as [A N]. apply simple_component; try assumption; [exact SF_form|apply grid_ne|]. intros Sg x Hx. rewrite Forall_forall in V. now apply unsigned_sf; auto. }
  cbn [bind]. rewrite (map_ext (fun x => fold_left (fun a d => a * sf d x) ds 1) (cr_survival ds)) by (intros x; rewrite fold_mult; unfold cr_survival; ring).
  assert (fold_left (fun s d => if is_signed d then s * sf d t else if Rlt_dec 0 t then s * sf d t else s) ds 1 = cr_survival ds t) as E.
  { transitivity (fold_left (fun a d => a * sf d t) ds 1); [|rewrite fold_mult; unfold cr_survival; ring]. rewrite Forall_forall in V. clear -V. generalize 1. induction ds as [|d ds IH]; intros c; [reflexivity|]. cbn [fold_left].
    assert ((if is_signed d then c * sf d t else if Rlt_dec 0 t then c * sf d t else c) = c * sf d t) as K.
    { destruct (is_signed d) eqn:S; [reflexivity|]. destruct (Rlt_dec 0 t) as [L|L]; [reflexivity|]. rewrite sf_below; [ring|apply V; now left|]. specialize (V d (or_introl eq_refl)). destruct d; simpl in *; try discriminate; lra. }
    rewrite K. apply IH. intros; apply V; now right. }
  rewrite E. f_equal. apply ediv_fin. lra.
Qed.

Lemma mix_sf_dot ds ps x : Forall valid ds -> length ps = length ds -> rsum ps = 1 -> mix_survival ds ps x = dot ps (map (fun d => sf d x) ds).
Proof.
  intros V L E. unfold mix_survival. rewrite <- E. clear E. revert ps L. induction ds as [|d ds IH]; intros [|p ps] L; try discriminate L; unfold rsum in *; simpl; [ring|].
  apply Forall_cons_iff in V. destruct V as [V1 V]. rewrite <- (IH V ps ltac:(simpl in L; lia)). rewrite (sf_cdf d V1). ring.
Qed.
Lemma dot_pos : forall ps vs, length ps = length vs -> Forall (fun p => 0 <= p) ps -> Forall (fun v => 0 < v) vs -> 0 < rsum ps -> 0 < dot ps vs.
Proof.
  induction ps as [|p ps IH]; intros [|v vs] L Hp Hv E; try discriminate L; unfold rsum in *; simpl in *; [lra|]. apply Forall_cons_iff in Hp, Hv. destruct Hp as [P Hp], Hv as [W Hv].
  destruct P as [P|P].
  - assert (0 <= dot ps vs) by (apply dot_nonneg; [assumption|]; eapply Forall_impl; [|exact Hv]; intros; simpl in *; lra). nra.
  - rewrite <- P in *. specialize (IH vs ltac:(lia) Hp Hv ltac:(lra)). lra.
Qed.

Lemma mix_single ds t : (forall d, In d ds -> valid d) -> forall ps c,
  fold_left (fun c dp => if is_signed (fst dp) then c + cdf (fst dp) t * snd dp else if Rlt_dec 0 t then c + cdf (fst dp) t * snd dp else c) (combine ds ps) c =
  fold_left (fun a dp => a + cdf (fst dp) t * snd dp) (combine ds ps) c.
Proof.
  induction ds as [|d ds IH]; intros V [|p ps] c; try reflexivity. cbn [combine fold_left fst snd].
  assert ((if is_signed d then c + cdf d t * p else if Rlt_dec 0 t then c + cdf d t * p else c) = c + cdf d t * p) as K.
  { destruct (is_signed d) eqn:S; [reflexivity|]. destruct (Rlt_dec 0 t) as [L|L]; [reflexivity|]. specialize (V d (or_introl eq_refl)). rewrite (F_low d (all_facts d V)); [ring|]. destruct d; simpl in *; try discriminate; lra. }
  rewrite K. apply IH. intros; apply V; now right.
Qed.
Lemma mix_mrl_value ds ps lo hi t : Forall valid ds -> length ps = length ds -> Forall (fun p => 0 <= p) ps -> rsum ps = 1 -> range_of ds lo hi -> below_one ds hi -> t < hi \/ (forall a b, ~ In (DistModel.Beta a b) ds) ->
  0 < mix_survival ds ps t /\ mix_mrl ds ps t = Ok (Fin (simpson (map (mix_survival ds ps) (table_grid t hi)) (table_grid t hi) / mix_survival ds ps t)).
Proof.
  intros V Lp Pp Sp R B H. pose proof (range_ends ds lo hi R) as (_ & Eh & _). assert (0 < mix_survival ds ps t) as P.
  { rewrite mix_sf_dot by assumption. apply dot_pos; [now rewrite map_length|assumption| |lra]. apply Forall_map, Forall_forall. intros d Hd. now apply (sf_pos_below ds d t hi). }
  split; [assumption|]. unfold mix_mrl. change (xmax_inf ds) with (highest ds). rewrite Eh. cbv zeta.
  rewrite (accumulate_weighted_map Rplus (fun p y => y * p) (component 0 CDF (table_grid t hi)) cdf (table_grid t hi) ds ps (fun _ => 0)); [|assumption|].
  2:{ intros d Hd. destruct (mrl_grid_ok ds lo hi t V R B H d Hd) as [A N]. apply simple_component; try assumption; [exact CDF_form|apply grid_ne|]. intros Sg x Hx. rewrite Forall_forall in V. now apply unsigned_cdf; auto. }
  cbn [bind]. rewrite map_map.
  rewrite (map_ext (fun x => 1 - fold_left (fun a dp => a + cdf (fst dp) x * snd dp) (combine ds ps) 0) (mix_survival ds ps)) by (intros x; rewrite (fold_dot ds ps (fun d => cdf d x)) by assumption; unfold mix_survival; ring).
  assert (1 - fold_left (fun c dp => if is_signed (fst dp) then c + cdf (fst dp) t * snd dp else if Rlt_dec 0 t then c + cdf (fst dp) t * snd dp else c) (combine ds ps) 0 = mix_survival ds ps t) as E.
  { rewrite Forall_forall in V. rewrite (mix_single ds t V ps 0), (fold_dot ds ps (fun d => cdf d t)) by assumption. unfold mix_survival. ring. }
  rewrite E. f_equal. apply ediv_fin. lra.
Qed.

(** Survival functions are continuous and do not increase. *)
Lemma cr_survival_decr ds x y : Forall valid ds -> x <= y -> cr_survival ds y <= cr_survival ds x.
Proof. intros V L. exact (cr_sf_decr ds x y V L). Qed.
Lemma cr_survival_nonneg ds x : Forall valid ds -> 0 <= cr_survival ds x.
Proof. intros V. now apply rprod_range, sf_all_range. Qed.
Lemma cr_survival_cont ds x : Forall valid ds -> continuous (cr_survival ds) x.
Proof.
  induction ds as [|d ds IH]; intros V; [apply continuous_const|]. apply Forall_cons_iff in V. destruct V as [V1 V].
  apply (continuous_mult (sf d) (cr_survival ds)); [now apply sf_continuous|now apply IH].
Qed.
Lemma mix_cdf_cont x : forall ds ps, Forall valid ds -> continuous (fun x => dot ps (map (fun d => cdf d x) ds)) x.
Proof.
  induction ds as [|d ds IH]; intros [|p ps] V; cbn [map dot]; try apply continuous_const. apply Forall_cons_iff in V. destruct V as [V1 V].
  apply (continuous_plus (fun x => p * cdf d x) (fun x => dot ps (map (fun d => cdf d x) ds))); [|now apply IH].
  apply (continuous_mult (fun _ => p) (cdf d)); [apply continuous_const|now apply cdf_continuous].
Qed.
Lemma mix_survival_cont ds ps x : Forall valid ds -> continuous (mix_survival ds ps) x.
Proof. intros V. apply (continuous_minus (fun _ => 1) (fun x => dot ps (map (fun d => cdf d x) ds))); [apply continuous_const|now apply mix_cdf_cont]. Qed.
Lemma mix_survival_decr ds ps x y : Forall valid ds -> length ps = length ds -> Forall (fun p => 0 <= p) ps -> x <= y -> mix_survival ds ps y <= mix_survival ds ps x.
Proof. intros V L P H. unfold mix_survival. pose proof (mix_cdf_incr x y H ds ps L V P) as K. unfold mix_cdf_at in K. lra. Qed.
Lemma mix_survival_nonneg ds ps x : Forall valid ds -> length ps = length ds -> Forall (fun p => 0 <= p) ps -> rsum ps = 1 -> 0 <= mix_survival ds ps x.
Proof.
  intros V L P E. rewrite mix_sf_dot by assumption. apply dot_nonneg; [assumption|]. apply Forall_map, Forall_forall. intros d Hd. rewrite Forall_forall in V. apply (CombProofs.sf_range d x). auto.
Qed.

(** The true mean residual life is at least the part up to any point. *)
Lemma residual_part (S : R -> R) t hi m I : (forall x, 0 <= S x) -> t < hi -> mean_residual S t m -> is_RInt S t hi I -> I / S t <= m.
Proof.
  intros Sn L (Sp & J & HJ & Lim) HI. apply (is_lim_le_loc (fun _ => I / S t) (fun T => J T / S t) p_infty (I / S t) m); [|apply is_lim_const|exact Lim].
  exists hi. intros T HT. apply Rmult_le_compat_r; [left; now apply Rinv_0_lt_compat|].
  destruct (split_integral S t hi T (J T) ltac:(lra) (HJ T ltac:(lra))) as (A & K & HA & HK & ->).
  assert (A = I) as -> by (rewrite <- (is_RInt_unique S t hi A HA); now apply is_RInt_unique). 
  assert (0 <= K) as HK0 by (apply (is_RInt_ge_0 S hi T); [lra|assumption|intros; apply Sn]). lra.
Qed.
Lemma residual_pos (S : R -> R) t m : (forall x, 0 <= S x) -> (forall x, continuous S x) -> mean_residual S t m -> 0 < m.
Proof.
  intros Sn Sc H. pose proof H as (Sp & _). assert (exists d, 0 < d /\ forall x, t <= x <= t + d -> S t / 2 <= S x) as (d & Hd & Lo).
  { specialize (Sc t). apply filterlim_locally with (eps := mkposreal (S t / 2) ltac:(lra)) in Sc. destruct Sc as [d Hd]. exists (d / 2). split; [destruct d; simpl; lra|]. intros x Hx.
    specialize (Hd x). assert (Rabs (S x - S t) < S t / 2) as K. { apply Hd. unfold ball; simpl. unfold AbsRing_ball, abs, minus, plus, opp; simpl. destruct d as [d D]; simpl in *. apply Rabs_def1; lra. }
    apply Rabs_def2 in K. lra. }
  destruct (ex_RInt_continuous S t (t + d) ltac:(intros; apply Sc)) as [I HI].
  pose proof (residual_part S t (t + d) m I Sn ltac:(lra) H HI) as K. pose proof (is_RInt_le (fun _ => S t / 2) S t (t + d) _ I ltac:(lra) (is_RInt_const t (t + d) (S t / 2)) HI ltac:(intros; apply Lo; lra)) as J.
  unfold scal in J; simpl in J; unfold mult in J; simpl in J. apply Rlt_le_trans with (2 := K). apply Rdiv_lt_0_compat; [|assumption]. apply Rlt_le_trans with (2 := J). apply Rmult_lt_0_compat; lra.
Qed.
