(** The statistics of the combined models. *)
From Coquelicot Require Import Coquelicot.
From Coq Require Import List Arith Reals Lra Lia Bool ZArith Sorting.Sorted Permutation.
From Verif Require Import Base RealFacts Gauss Ext RList DistModel DistSpec DistProofs DistProofs2 DistProofs3 DistProofs4 DistProps RepairModel RepairProofs CombModel CombSpec CombProofs CombProofs2 CombProofs3 CombProps
  MomentSpec MRLProofs OtherProofs3 CStatModel CStatSpec CStatProofs.
Import ListNotations.
Open Scope R_scope.

Notation M := (N.to_nat 1000000).
Lemma M_facts : (3 <= M)%nat /\ INR (M - 1) = 999999.
Proof. destruct million as (k & E & K). rewrite E. replace (S (S k) - 1)%nat with (S k) by lia. split; [|assumption]. destruct k as [|k]; [|lia]. exfalso. simpl in K. lra. Qed.

Lemma grid_nodes a b : table_grid a b = nodes a ((b - a) / 999999) M.
Proof.
  unfold table_grid, linspace. destruct M_facts as [_ ->]. rewrite <- (nodes_map M a ((b - a) / 999999) 0). f_equal. simpl. ring.
Qed.

Lemma fold_min_eq l : forall c v, In v l -> (forall w, In w l -> v <= w) -> v <= c -> fold_left Rmin l c = v.
Proof.
  intros c v Hv Hm Hc. apply Rle_antisym; [apply fold_min_le; now left|].
  clear Hv. revert c Hc. induction l as [|w l IH]; intros c Hc; [exact Hc|]. cbn [fold_left]. apply IH; [intros; apply Hm; now right|].
  apply Rmin_glb; [assumption|apply Hm; now left].
Qed.
Lemma fold_max_eq l : forall c v, In v l -> (forall w, In w l -> w <= v) -> c <= v -> fold_left Rmax l c = v.
Proof.
  intros c v Hv Hm Hc. apply Rle_antisym; [|apply fold_max_ge; now left].
  clear Hv. revert c Hc. induction l as [|w l IH]; intros c Hc; [exact Hc|]. cbn [fold_left]. apply IH; [intros; apply Hm; now right|].
  apply Rmax_lub; [assumption|apply Hm; now left].
Qed.

Lemma range_ends ds lo hi : range_of ds lo hi -> lowest ds = lo /\ highest ds = hi /\ ds <> [].
Proof.
  intros (H & (d1 & I1 & E1) & (d2 & I2 & E2) & L1 & L2). split; [|split].
  - apply fold_min_eq; [apply in_map_iff; exists d1; now split| |assumption]. intros w Hw. apply in_map_iff in Hw as (d & <- & Hd). apply H, Hd.
  - apply fold_max_eq; [apply in_map_iff; exists d2; now split| |assumption]. intros w Hw. apply in_map_iff in Hw as (d & <- & Hd). apply H, Hd.
  - intros ->. destruct I1.
Qed.
Lemma range_lt ds lo hi : Forall valid ds -> range_of ds lo hi -> lo < hi.
Proof.
  intros V R. destruct R as (H & (d1 & I1 & E1) & _). rewrite Forall_forall in V. pose proof tiny_range as T. unfold tiny in T.
  destruct (H d1 I1) as [_ B]. pose proof (ppf_lt d1 (/ 10 ^ 10) (1 - / 10 ^ 10) (V d1 I1) ltac:(lra) ltac:(lra)). lra.
Qed.
Lemma range_grid ds lo hi : range_of ds lo hi -> comb_grid ds = table_grid lo hi.
Proof. intros R. destruct (range_ends ds lo hi R) as (A & B & _). rewrite comb_grid_eq, A, B. reflexivity. Qed.

(** Lipschitz integrands. *)
Lemma simpson_grid f lo hi L I : lo < hi -> rate_at_most L f lo hi -> is_RInt f lo hi I ->
  Rabs (simpson (map f (table_grid lo hi)) (table_grid lo hi) - I) <= 2 * L * (hi - lo) ^ 2 / 999999.
Proof.
  intros H F HI. rewrite grid_nodes. destruct M_facts as [M3 M1]. set (h := (hi - lo) / 999999).
  assert (0 < h) as Hh by (apply Rdiv_lt_0_compat; lra). assert (lo + INR (M - 1) * h = hi) as Eh by (rewrite M1; unfold h; field).
  assert (is_RInt (fun x => f x + - L * x) lo hi (I + - L * ((hi ^ 2 - lo ^ 2) / 2))) as H1.
  { apply (is_RInt_plus f (fun x => - L * x) lo hi I); [assumption|]. apply (is_RInt_scal (fun x => x) lo hi (- L)).
    replace ((hi ^ 2 - lo ^ 2) / 2) with (minus (hi ^ 2 / 2) (lo ^ 2 / 2)) by (unfold minus, plus, opp; simpl; field).
    apply (is_RInt_derive (fun x => x ^ 2 / 2) (fun x => x)).
    - intros x _. auto_derive; [exact Logic.I|field].
    - intros x _. apply continuous_id. }
  assert (is_RInt (fun x => - L * x) lo hi (- L * ((hi ^ 2 - lo ^ 2) / 2))) as H2.
  { apply (is_RInt_scal (fun x => x) lo hi (- L)).
    replace ((hi ^ 2 - lo ^ 2) / 2) with (minus (hi ^ 2 / 2) (lo ^ 2 / 2)) by (unfold minus, plus, opp; simpl; field).
    apply (is_RInt_derive (fun x => x ^ 2 / 2) (fun x => x)).
    - intros x _. auto_derive; [exact Logic.I|field].
    - intros x _. apply continuous_id. }
  assert (0 <= L) as HL.
  { pose proof (F lo hi ltac:(lra) ltac:(lra)) as K. pose proof (Rabs_pos (f lo - f hi)). rewrite (Rabs_left (lo - hi)) in K by lra.
    destruct (Rle_lt_dec 0 L) as [|N]; [assumption|]. exfalso. assert (L * - (lo - hi) < 0) by nra. lra. }
  pose proof (simpson_monotone (fun x => f x + - L * x) lo h M (I + - L * ((hi ^ 2 - lo ^ 2) / 2)) M3 Hh) as A. rewrite Eh in A. cbv beta in A.
  specialize (A ltac:(intros x y Hxy Hy; pose proof (F y x ltac:(lra) ltac:(lra)) as K; rewrite (Rabs_pos_eq (y - x)) in K by lra; pose proof (Rle_abs (f y - f x)); lra) H1).
  pose proof (simpson_linear f (fun x => x) (- L) lo h M M3 ltac:(lra)) as E.
  assert (simpson (map (fun x => x) (nodes lo h M)) (nodes lo h M) = (hi ^ 2 - lo ^ 2) / 2) as X.
  { assert (forall n, (3 <= n)%nat -> forall a, simpson (map (fun x => x) (nodes a h n)) (nodes a h n) = ((a + INR (n - 1) * h) ^ 2 - a ^ 2) / 2) as K.
    { intros n Hn. apply (two_steps (fun n => forall a, simpson (map (fun x => x) (nodes a h n)) (nodes a h n) = ((a + INR (n - 1) * h) ^ 2 - a ^ 2) / 2)); [| | |assumption].
      - intros a. rewrite simpson_3 by lra. simpl (3 - 1)%nat. simpl (INR 2). field.
      - intros a. rewrite simpson_4 by lra. simpl (4 - 1)%nat. simpl (INR 3). field.
      - intros m IH a. rewrite simpson_step, IH by lra. replace (S (S (S (S (S m)))) - 1)%nat with (S (S (S (S m)))) by lia.
        replace (S (S (S m)) - 1)%nat with (S (S m)) by lia. rewrite !S_INR. field. }
    rewrite (K M M3), Eh. reflexivity. }
  rewrite X in E. rewrite E in A. replace (_ + - L * ((hi ^ 2 - lo ^ 2) / 2) - (I + - L * ((hi ^ 2 - lo ^ 2) / 2))) with (simpson (map f (nodes lo h M)) (nodes lo h M) - I) in A by ring.
  apply Rle_trans with (1 := A). pose proof (F lo hi ltac:(lra) ltac:(lra)) as K. rewrite (Rabs_left (lo - hi)) in K by lra. pose proof (Rle_abs (f lo - f hi)).
  replace (2 * L * (hi - lo) ^ 2 / 999999) with (h * (2 * L * (hi - lo))) by (unfold h; field). apply Rmult_le_compat_l; [lra|]. lra.
Qed.

(** ** Moments *)
Lemma moment_map lo hi f g : moment (table_grid lo hi) (map f (table_grid lo hi)) g = simpson (map (fun x => f x * g x) (table_grid lo hi)) (table_grid lo hi).
Proof.
  unfold moment. generalize (table_grid lo hi). intros X. f_equal. induction X as [|x X IH]; [reflexivity|]. cbn [map zip]. now rewrite IH.
Qed.
Lemma moment_ext lo hi f f' g : (forall x, lo <= x <= hi -> f x = f' x) -> lo <= hi ->
  moment (table_grid lo hi) (map f (table_grid lo hi)) g = moment (table_grid lo hi) (map f' (table_grid lo hi)) g.
Proof. intros H L. rewrite (map_ext_in f f'); [reflexivity|]. intros x Hx. apply H. now apply (grid_in lo hi x L). Qed.
Lemma moment_close lo hi f g : lo < hi -> integral_to_grid f lo hi g (moment (table_grid lo hi) (map f (table_grid lo hi)) g).
Proof. intros H L I HL HI. rewrite moment_map. now apply simpson_grid. Qed.
Lemma moment_nonneg lo hi f g : lo < hi -> (forall x, lo <= x <= hi -> 0 <= f x * g x) -> 0 <= moment (table_grid lo hi) (map f (table_grid lo hi)) g.
Proof.
  intros H F. rewrite moment_map, grid_nodes. destruct M_facts as [M3 M1]. apply simpson_nonneg; [assumption|apply Rdiv_lt_0_compat; lra|].
  intros x Hx. apply F. rewrite <- grid_nodes in Hx. apply (grid_in lo hi x); [lra|assumption].
Qed.

Lemma moments_described f lo hi : lo < hi -> (forall x, lo <= x <= hi -> 0 <= f x) -> described f lo hi (moment_stats (table_grid lo hi) (map f (table_grid lo hi))).
Proof.
  intros H F. unfold moment_stats. cbv zeta. set (X := table_grid lo hi) in *. set (m := moment X (map f X) (fun x => x)). set (v := moment X (map f X) (fun x => (x - m) ^ 2)).
  assert (0 <= v) as Hv by (apply moment_nonneg; [assumption|]; intros x Hx; apply Rmult_le_pos; [now apply F|apply pow2_ge_0]).
  exists m, v. split; [assumption|]. split; [now apply moment_close|]. split; [now apply moment_close|].
  destruct (Rlt_dec v 0); [lra|]. destruct (Req_EM_T v 0) as [E|E].
  - rewrite E, sqrt_0. destruct (Req_EM_T 0 0); [|lra]. replace (0 ^ 2) with 0 by ring. reflexivity.
  - assert (0 < sqrt v) by (apply sqrt_lt_R0; lra). destruct (Req_EM_T (sqrt v) 0); [lra|].
    eexists _, _. split; [|split; [|]]. 3:{ rewrite pow2_sqrt by assumption. reflexivity. } all: now apply moment_close.
Qed.

(** ** Competing risks *)
Lemma density_real d x : density d x = pdf_real d x.
Proof. reflexivity. Qed.
Lemma density_nonneg d x : valid d -> 0 <= density d x.
Proof. intros V. unfold density. destruct (pdf d x) eqn:E; try lra. now apply (pdf_nonneg d x). Qed.

Lemma cr_pdf_at ds x : Forall valid ds -> (forall d, In d ds -> hazard_defined d x /\ exists p, pdf d x = Fin p) ->
  nan_to_num (emul (Fin (cr_sf_at ds x)) (cr_hf_at ds x)) = cr_density_at ds x.
Proof.
  intros V H. rewrite (cr_hf_sum ds x (fun d => density d x) V).
  - reflexivity.
  - intros d Hd. destruct (H d Hd) as [A [p E]]. split; [assumption|]. unfold density. now rewrite E.
Qed.
Lemma cr_density_nonneg ds x : Forall valid ds -> 0 <= cr_density_at ds x.
Proof.
  intros V. unfold cr_density_at. apply Rmult_le_pos; [apply rprod_range; now apply sf_all_range|].
  rewrite Forall_forall in V. clear -V. induction ds as [|d ds IH]; [unfold rsum; simpl; lra|]. cbn [map]. unfold rsum in *. cbn [fold_right].
  assert (0 <= density d x / sf d x).
  { pose proof (density_nonneg d x (V d (or_introl eq_refl))). pose proof (CombProofs.sf_range d x (V d (or_introl eq_refl))) as [S _]. destruct S as [S|S].
    - apply Rmult_le_pos; [assumption|]. left. now apply Rinv_0_lt_compat.
    - rewrite <- S. unfold Rdiv. rewrite Rinv_0. lra. }
  specialize (IH ltac:(intros; apply V; now right)). lra.
Qed.

Lemma table_mode_spec (f : R -> R) X x : table_mode X (map f X) = Ok x -> In x X /\ forall y, In y X -> f y <= f x.
Proof.
  unfold table_mode, argmax. rewrite map_map. destruct (argmin (map (fun x => - f x) X)) as [i|] eqn:A; [|discriminate]. cbn [bind].
  apply argmin_spec in A. destruct A as [Li Hm]. rewrite map_length in Li. destruct (nth_error X i) as [u|] eqn:E; [|discriminate]. intros H. apply Ok_inj in H. subst u.
  apply (nth_error_nth X i 0) in E. split; [rewrite <- E; now apply nth_In|]. intros y Hy.
  specialize (Hm (- f y) ltac:(apply in_map_iff; exists y; auto)). rewrite nth_map_r in Hm by exact Li. rewrite E in Hm. lra.
Qed.

Lemma grid_points lo hi x : In x (table_grid lo hi) <-> grid_point lo hi x.
Proof.
  destruct million as (k & E & K). split.
  - intros Hx. apply (In_nth _ _ 0) in Hx. destruct Hx as (i & Hi & <-). rewrite grid_length in Hi. exists i. split; [|now apply grid_nth].
    rewrite <- K. apply le_INR. rewrite E in Hi. clear -Hi. lia.
  - intros (i & Hi & ->). rewrite <- K in Hi. apply INR_le in Hi. rewrite <- grid_nth by (rewrite E; clear -Hi; lia). apply nth_In. rewrite grid_length, E. clear -Hi. lia.
Qed.

Lemma unsigned_hi ds lo hi d : Forall valid ds -> range_of ds lo hi -> In d ds -> is_signed d = false -> 0 <= lo \/ existsb is_signed ds = true.
Proof.
  intros V R Hd S. destruct (existsb is_signed ds) eqn:E; [now right|left]. destruct R as (H & (d1 & I1 & ->) & _).
  rewrite Forall_forall in V. specialize (V d1 I1). pose proof tiny_range as T. unfold tiny in T. pose proof (F_ppf d1 (all_facts d1 V) (/ 10 ^ 10) ltac:(lra)) as [[L _] _].
  assert (is_signed d1 = false) as S1. { destruct (is_signed d1) eqn:K; [|reflexivity]. rewrite <- E. symmetry. apply existsb_exists. eauto. }
  destruct (Rlt_le_dec (ppf d1 (/ 10 ^ 10)) 0) as [C|C]; [|exact C]. exfalso. pose proof (unsigned_low d1 _ V S1 C) as K.
  exact (Rbar_lt_not_le _ _ L (Rbar_lt_le _ _ K)).
Qed.
Lemma unsigned_top ds lo hi d : Forall valid ds -> range_of ds lo hi -> In d ds -> is_signed d = false -> 0 <= hi.
Proof.
  intros V R Hd S. destruct R as (H & _). destruct (H d Hd) as [_ L].
  rewrite Forall_forall in V. specialize (V d Hd). pose proof tiny_range as T. unfold tiny in T. pose proof (F_ppf d (all_facts d V) (1 - / 10 ^ 10) ltac:(lra)) as [[K _] _].
  destruct (Rlt_le_dec (ppf d (1 - / 10 ^ 10)) 0) as [C|C]; [|lra]. exfalso. pose proof (unsigned_low d _ V S C) as J.
  exact (Rbar_lt_not_le _ _ K (Rbar_lt_le _ _ J)).
Qed.

Lemma accepts_from ds lo hi t : Forall valid ds -> range_of ds lo hi -> below_one ds hi -> t <= hi -> forall d, In d ds -> component_accepts d (table_grid t hi).
Proof.
  intros V R B L d Hd. assert (In hi (table_grid t hi)) as Hh by (apply grid_points; destruct million as (k & E & K); exists (S k); rewrite K; split; [lra|field]).
  assert (is_signed d = false -> exists x, In x (table_grid t hi) /\ 0 <= x) as P by (intros S; exists hi; split; [assumption|]; now apply (unsigned_top ds lo hi d)).
  destruct d; cbn [component_accepts]; try exact I; try (apply P; reflexivity). split; [apply P; reflexivity|].
  intros x Hx. apply (grid_in t hi x L) in Hx. pose proof (B _ _ Hd). lra.
Qed.
Lemma negative_signed ds lo hi : Forall valid ds -> range_of ds lo hi -> forall x, In x (table_grid lo hi) -> x < 0 -> existsb is_signed ds = true.
Proof.
  intros V R x Hx L. pose proof (range_lt ds lo hi V R) as LH. apply (grid_in lo hi x ltac:(lra)) in Hx.
  destruct (existsb is_signed ds) eqn:E; [reflexivity|]. pose proof R as (H & (d1 & I1 & E1) & _). assert (is_signed d1 = false) as S1.
  { destruct (is_signed d1) eqn:K; [|reflexivity]. rewrite <- E. symmetry. apply existsb_exists. eauto. }
  destruct (unsigned_hi ds lo hi d1 V R I1 S1); [lra|congruence].
Qed.

Lemma cr_tables ds lo hi : Forall valid ds -> range_of ds lo hi -> below_one ds hi ->
  cr_combine ds (table_grid lo hi) = Ok {| cr_pdf := map (fun x => nan_to_num (emul (Fin (cr_sf_at ds x)) (cr_hf_at ds x))) (table_grid lo hi);
    cr_cdf := map (fun x => 1 - cr_sf_at ds x) (table_grid lo hi); cr_sf := map (cr_sf_at ds) (table_grid lo hi); cr_hf := map (cr_hf_at ds) (table_grid lo hi);
    cr_chf := map (fun x => neg_log (cr_sf_at ds x)) (table_grid lo hi) |}.
Proof.
  intros V R B. pose proof (range_lt ds lo hi V R) as L. pose proof (grid_sorted lo hi ltac:(lra)) as SX.
  apply cr_combine_ok; try assumption; [apply grid_ne|now apply sorted_negatives_first| | |now apply (negative_signed ds lo hi)].
  - apply Forall_forall. apply (accepts_from ds lo hi lo V R B). lra.
  - apply Forall_forall. intros d _. now apply sorted_arg_safe.
Qed.
Lemma mix_tables ds ps lo hi : Forall valid ds -> length ps = length ds -> range_of ds lo hi -> below_one ds hi ->
  mix_combine ds ps (table_grid lo hi) = Ok {| mix_pdf := map (mix_pdf_at ds ps) (table_grid lo hi); mix_cdf := map (mix_cdf_at ds ps) (table_grid lo hi); mix_sf := map (fun x => 1 - mix_cdf_at ds ps x) (table_grid lo hi);
    mix_hf := map (fun x => ediv (mix_pdf_at ds ps x) (Fin (1 - mix_cdf_at ds ps x))) (table_grid lo hi); mix_chf := map (fun x => neg_log (1 - mix_cdf_at ds ps x)) (table_grid lo hi) |}.
Proof.
  intros V Lp R B. pose proof (range_lt ds lo hi V R) as L. pose proof (grid_sorted lo hi ltac:(lra)) as SX.
  apply mix_combine_ok; try assumption; [apply grid_ne|now apply sorted_negatives_first| |now apply (negative_signed ds lo hi)].
  apply Forall_forall. apply (accepts_from ds lo hi lo V R B). lra.
Qed.

Lemma argmin_some l : l <> [] -> exists i, argmin l = Ok i.
Proof. destruct l; [contradiction|]. intros _. eexists. reflexivity. Qed.
Lemma table_stat_some X l p : l <> [] -> length l = length X -> exists x, table_stat X l p = Ok x.
Proof.
  intros N L. unfold table_stat. destruct (argmin_some (map (fun c => Rabs (c - p)) l)) as [i E]; [destruct l; [contradiction|discriminate]|]. rewrite E. cbn [bind].
  apply argmin_spec in E. destruct E as [Li _]. rewrite map_length in Li. destruct (nth_error X i) as [x|] eqn:K; [now exists x|]. apply nth_error_None in K. lia.
Qed.
Lemma table_mode_some X l : l <> [] -> length l = length X -> exists x, table_mode X l = Ok x.
Proof.
  intros N L. unfold table_mode, argmax. destruct (argmin_some (map Ropp l)) as [i E]; [destruct l; [contradiction|discriminate]|]. rewrite E. cbn [bind].
  apply argmin_spec in E. destruct E as [Li _]. rewrite map_length in Li. destruct (nth_error X i) as [x|] eqn:K; [now exists x|]. apply nth_error_None in K. lia.
Qed.
