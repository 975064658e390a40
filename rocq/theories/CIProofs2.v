(** Proofs about the confidence bounds on time and reliability. *)
From Coquelicot Require Import Coquelicot.
From Coq Require Import String.
From Coq Require Import List Arith Reals Lra Lia Bool.
From Verif Require Import Base RealFacts Gauss Improper Ext RList ConvertModel RepairModel RepairProofs DistModel DistSpec DistProofs DistProofs2 PoFProofs PoFProofs2
  CombProofs RegProofs SelModel CIModel CISpec CIProofs.
Import ListNotations.
Open Scope R_scope.

(** ** The point estimates on the linearised scales *)
Definition unlink (d : dist) (u : R) : R :=
  match d with
  | Weibull _ _ _ | Gumbel _ _ => exp (- exp u)
  | Loglogistic _ _ _ => 1 / (exp u + 1)
  | Normal _ _ | Lognormal _ _ _ => Phi u
  | _ => u
  end.
Lemma log_of_Some t l : log_of t = Some l -> 0 < t /\ l = ln t.
Proof. unfold log_of. destruct (Rlt_dec 0 t); [|discriminate]. intros H. injection H as <-. auto. Qed.
Lemma log_of_pos t : 0 < t -> log_of t = Some (ln t).
Proof. intros H. unfold log_of. destruct (Rlt_dec 0 t); [reflexivity|contradiction]. Qed.
Lemma Rpower_scaled x a b : 0 < x -> 0 < a -> Rpower (x / a) b = exp (b * (ln x - ln a)).
Proof. intros Hx Ha. unfold Rpower. now rewrite ln_div. Qed.
Lemma gamma_shift a b g x : 0 < a -> sf (Gamma a b 0) (x - g) = sf (Gamma a b g) x.
Proof. intros Ha. simpl. now rewrite Rminus_0_r. Qed.

Lemma u_at_sf gj d x u da db : valid d -> u_at gj d x = Some (u, da, db) -> sf d x = unlink d u /\ inside d x.
Proof.
  intros Hv. destruct d as [a b g|m s|m s g|l g|a b g|a b|a b g|m s]; simpl in Hv; unfold u_at; try discriminate.
  - destruct (log_of (x - g)) as [lt|] eqn:E; [|discriminate]. apply log_of_Some in E. destruct E as [Hx ->]. intros H. injection H as <- <- <-. split.
    + simpl. rewrite on_pos_pos by (apply Rdiv_lt_0_compat; lra). now rewrite Rpower_scaled by lra.
    + split; simpl; [lra|exact I].
  - intros H. injection H as <- <- <-. split; [|split; exact I]. simpl. f_equal. field. lra.
  - destruct (log_of (x - g)) as [lt|] eqn:E; [|discriminate]. apply log_of_Some in E. destruct E as [Hx ->]. intros H. injection H as <- <- <-. split.
    + simpl. pose proof (exp_pos m). rewrite on_pos_pos by (apply Rdiv_lt_0_compat; lra). rewrite ln_div, ln_exp by lra. f_equal. field. lra.
    + split; simpl; [lra|exact I].
  - destruct (log_of (x - g)) as [lt|] eqn:E; [|discriminate]. apply log_of_Some in E. destruct E as [Hx ->]. intros H. injection H as <- <- <-. split.
    + simpl. now rewrite Rminus_0_r.
    + split; simpl; [lra|exact I].
  - destruct (log_of (x - g)) as [lt|] eqn:E; [|discriminate]. apply log_of_Some in E. destruct E as [Hx ->]. intros H. injection H as <- <- <-. split.
    + simpl. rewrite on_pos_pos by (apply Rdiv_lt_0_compat; lra). rewrite Rpower_scaled by lra. now rewrite Rplus_comm.
    + split; simpl; [lra|exact I].
  - intros H. injection H as <- <- <-. split; [reflexivity|split; exact I].
Qed.

(** The bounds in increasing order. *)
Definition swapped (d : dist) : bool := match d with Normal _ _ | Lognormal _ _ _ | Exponential _ _ => true | _ => false end.
Definition low (d : dist) (p : R * R) : R := if swapped d then snd p else fst p.
Definition high (d : dist) (p : R * R) : R := if swapped d then fst p else snd p.

Lemma half_width_Some Z var w : half_width Z var = Some w -> 0 <= var /\ w = Z * sqrt var.
Proof. unfold half_width. destruct (Rlt_dec var 0); [discriminate|]. intros H. injection H as <-. split; [lra|reflexivity]. Qed.
Lemma half_width_other Z Z' var w : half_width Z var = Some w -> half_width Z' var = Some (Z' * sqrt var).
Proof. unfold half_width. destruct (Rlt_dec var 0); [discriminate|reflexivity]. Qed.
Lemma Z_width Z Z' var : Z <= Z' -> Z * sqrt var <= Z' * sqrt var.
Proof. intros H. apply Rmult_le_compat_r; [apply sqrt_pos|exact H]. Qed.

Lemma ll_mono u v : u <= v -> exp (- exp v) <= exp (- exp u).
Proof. intros H. apply exp_mono. apply exp_mono in H. lra. Qed.
Lemma logistic_mono u v : u <= v -> 1 / (exp v + 1) <= 1 / (exp u + 1).
Proof.
  intros H. apply exp_mono in H. pose proof (exp_pos u). unfold Rdiv. rewrite !Rmult_1_l. apply Rinv_le_contravar; lra.
Qed.

Lemma rel_nested gj d s Z Z' x p : valid d -> 0 <= Z <= Z' -> rel_bounds gj d s Z x = Some p ->
  exists p', rel_bounds gj d s Z' x = Some p' /\ low d p' <= low d p /\ high d p <= high d p'.
Proof.
  intros Hv HZ. unfold rel_bounds. destruct (u_at gj d x) as [[[u da] db]|] eqn:E; [|discriminate]. cbn [obind].
  destruct (u_at_sf gj d x u da db Hv E) as [Hs Hin].
  destruct (half_width Z (var_of s da db)) as [w|] eqn:Ew; [|discriminate]. pose proof (half_width_other _ Z' _ _ Ew) as Ew'. rewrite Ew'.
  apply half_width_Some in Ew. destruct Ew as [Hvar ->]. pose proof (Z_width Z Z' (var_of s da db) ltac:(lra)) as HW. cbn [omap]. intros H. injection H as <-.
  eexists. split; [reflexivity|]. destruct d as [a b g|m sg|m sg g|l g|a b g|a b|a b g|m sg]; simpl in *; try discriminate E.
  - split; apply ll_mono; lra.
  - split; apply Phi_le_iff; lra.
  - split; apply Phi_le_iff; lra.
  - assert (0 < u < 1) as Hu.
    { pose proof (F_in _ (all_facts (Gamma a b g) Hv) x Hin) as Q. pose proof (F_sf _ (all_facts (Gamma a b g) Hv) x) as Q'. simpl in Q, Q'. lra. }
    assert (0 < u * (1 - u)) by (apply Rmult_lt_0_compat; lra).
    split; apply logit_nested; try exact Hu; apply Rmult_le_compat_r; try (left; now apply Rinv_0_lt_compat); lra.
  - split; apply logistic_mono; lra.
  - split; apply ll_mono; lra.
Qed.
Lemma rel_at_0 gj d s Z x p : valid d -> rel_bounds gj d s Z x = Some p -> rel_bounds gj d s 0 x = Some (sf d x, sf d x).
Proof.
  intros Hv. unfold rel_bounds. destruct (u_at gj d x) as [[[u da] db]|] eqn:E; [|discriminate]. cbn [obind].
  destruct (u_at_sf gj d x u da db Hv E) as [Hs Hin].
  destruct (half_width Z (var_of s da db)) as [w|] eqn:Ew; [|discriminate]. rewrite (half_width_other _ 0 _ _ Ew). intros _. cbn [omap]. rewrite Hs, Rmult_0_l.
  f_equal. destruct d as [a b g|m sg|m sg g|l g|a b g|a b|a b g|m sg]; simpl in *; try discriminate E; rewrite ?Rplus_0_r, ?Rminus_0_r; try reflexivity.
  assert (0 < u < 1) as Hu.
  { pose proof (F_in _ (all_facts (Gamma a b g) Hv) x Hin) as Q. pose proof (F_sf _ (all_facts (Gamma a b g) Hv) x) as Q'. simpl in Q, Q'. lra. }
  replace (0 / (u * (1 - u))) with 0 by (field; lra). replace (- 0 / (u * (1 - u))) with 0 by (field; lra). now rewrite logit_at_0.
Qed.
Lemma rel_bracket gj d s Z x p : valid d -> 0 <= Z -> rel_bounds gj d s Z x = Some p -> low d p <= sf d x <= high d p.
Proof.
  intros Hv HZ H. pose proof (rel_at_0 _ _ _ _ _ _ Hv H) as H0. destruct (rel_nested gj d s 0 Z x _ Hv ltac:(lra) H0) as (p' & E & H1 & H2).
  rewrite H in E. injection E as <-. unfold low, high in *. destruct (swapped d); simpl in *; lra.
Qed.

(** ** Time *)
Lemma isf_sf d x : valid d -> inside d x -> isf d (sf d x) = x.
Proof.
  intros Hv Hi. pose proof (inverse_SF_sf d Hv x Hi) as H. unfold inverse_SF in H. destruct (Rlt_dec (sf d x) 0); [discriminate|].
  destruct (Rlt_dec 1 (sf d x)); [discriminate|]. now injection H.
Qed.
Lemma isf_inside d q : valid d -> 0 < q < 1 -> inside d (isf d q) /\ sf d (isf d q) = q.
Proof.
  intros Hv Hq. rewrite (F_isf d (all_facts d Hv)) by exact Hq. destruct (F_ppf d (all_facts d Hv) (1 - q) ltac:(lra)) as [H1 H2].
  split; [exact H1|]. rewrite (F_sf d (all_facts d Hv)), H2. ring.
Qed.
Lemma gamma_isf a b g q : 0 < a -> 0 < b -> 0 <= g -> 0 < q < 1 -> isf (Gamma a b g) q = isf (Gamma 1 b 0) q * a + g /\ 0 < isf (Gamma 1 b 0) q.
Proof.
  intros Ha Hb Hg Hq. destruct (isf_inside (Gamma 1 b 0) q ltac:(simpl; lra) Hq) as [[H1 _] H2]. set (y := isf (Gamma 1 b 0) q) in *. simpl in H1.
  split; [|exact H1]. assert (sf (Gamma a b g) (y * a + g) = q) as Hs.
  { rewrite <- H2. simpl. replace ((y * a + g - g) / a) with ((y - 0) / 1) by (field; lra). reflexivity. }
  rewrite <- Hs at 1. apply isf_sf; [simpl; lra|]. split; simpl; [|exact I]. assert (0 < y * a) by (apply Rmult_lt_0_compat; lra). lra.
Qed.
(** v is the time on the scale of the bounds. *)
Definition untime (d : dist) (v : R) : R := match d with Normal _ _ | Gumbel _ _ => v | _ => exp v + ci_gamma d end.
Lemma untime_mono d u v : u <= v -> untime d u <= untime d v.
Proof. intros H. pose proof (exp_mono _ _ H). destruct d; simpl; lra. Qed.
Lemma ln_1_div p : 0 < p -> ln (1 / p) = - ln p.
Proof. intros H. unfold Rdiv. rewrite Rmult_1_l. now apply ln_Rinv. Qed.
Lemma v_at_isf gj d q v da db : valid d -> v_at gj d q = Some (v, da, db) -> 0 < q < 1 /\ isf d q = untime d v.
Proof.
  intros Hv. unfold v_at. destruct (Rlt_dec 0 q); [|discriminate]. destruct (Rlt_dec q 1); [|discriminate]. assert (0 < q < 1) as Hq by lra.
  destruct d as [a b g|m s|m s g|l g|a b g|a b|a b g|m s]; simpl in Hv; try discriminate; intros H; injection H as <- <- <-; (split; [exact Hq|]).
  - simpl. f_equal. unfold Rpower. rewrite exp_plus, exp_ln by lra. ring.
  - simpl. ring.
  - simpl. f_equal. replace (m - s * norm_ppf q) with (s * - norm_ppf q + m) by ring. now rewrite exp_plus.
  - destruct (gamma_isf a b g q) as [E P]; try lra. rewrite E. unfold untime, ci_gamma. rewrite exp_plus, !exp_ln by (exact P || lra). reflexivity.
  - simpl. f_equal. unfold Rpower. rewrite exp_plus, exp_ln by lra. f_equal.
    replace (1 / q - 1) with (/ (q / (1 - q))) by (field; lra). rewrite ln_Rinv by (apply Rdiv_lt_0_compat; lra). f_equal. field. lra.
  - simpl. ring.
Qed.
Lemma time_nested gj d s Z Z' q p : 0 <= Z <= Z' -> time_bounds gj d s Z q = Some p ->
  exists p', time_bounds gj d s Z' q = Some p' /\ fst p' <= fst p /\ snd p <= snd p'.
Proof.
  intros HZ. unfold time_bounds. destruct (v_at gj d q) as [[[v da] db]|]; [|discriminate]. cbn [obind].
  destruct (half_width Z (var_of s da db)) as [w|] eqn:Ew; [|discriminate]. rewrite (half_width_other _ Z' _ _ Ew). cbn [omap]. intros H. injection H as <-.
  apply half_width_Some in Ew. destruct Ew as [Hvar ->]. pose proof (Z_width Z Z' (var_of s da db) ltac:(lra)) as HW. set (w := Z * _) in *. set (w' := Z' * _) in *.
  eexists. split; [reflexivity|]. pose proof (untime_mono d (v - w') (v - w) ltac:(lra)). pose proof (untime_mono d (v + w) (v + w') ltac:(lra)).
  destruct d; simpl in *; lra.
Qed.
Lemma time_bracket gj d s Z q p : valid d -> 0 <= Z -> time_bounds gj d s Z q = Some p -> 0 < q < 1 /\ fst p <= isf d q <= snd p.
Proof.
  intros Hv HZ. unfold time_bounds. destruct (v_at gj d q) as [[[v da] db]|] eqn:E; [|discriminate]. cbn [obind].
  destruct (v_at_isf _ _ _ _ _ _ Hv E) as [Hq Hi].
  destruct (half_width Z (var_of s da db)) as [w|] eqn:Ew; [|discriminate]. cbn [omap]. intros H. injection H as <-.
  apply half_width_Some in Ew. destruct Ew as [Hvar ->]. assert (0 <= Z * sqrt (var_of s da db)) as Hw by (apply Rmult_le_pos; [lra|apply sqrt_pos]).
  set (w := Z * _) in *. split; [exact Hq|]. rewrite Hi. pose proof (untime_mono d (v - w) v ltac:(lra)). pose proof (untime_mono d v (v + w) ltac:(lra)).
  destruct d; simpl in *; lra.
Qed.

(** ** The lists *)
Lemma ci_time_ok gj d s Z q lo up : ci_time gj d s Z q = Ok (lo, up) ->
  length lo = length q /\ length up = length q /\
  forall i, (i < length q)%nat -> time_bounds gj d s Z (nth i q 0) = Some (nth i lo 0, nth i up 0) /\ / 10 ^ 50 < nth i q 0 < 1.
Proof.
  unfold ci_time. rewrite !map_map. intros H. apply bind_ok in H. destruct H as ([[[a b] c] e] & H & H2). injection H2 as <- <-.
  set (rows := map (fun y => (omap fst (time_bounds gj d s Z y), omap snd (time_bounds gj d s Z y), Some y, Some y) : row4) q).
  assert (clean_CI_arrays (map col1 rows) (map col2 rows) (map col3 rows) (map col4 rows) "CDF" false true = Ok (a, b, c, e)) as H' by (unfold rows; rewrite !map_map; exact H).
  apply clean_given in H'; [|reflexivity]. destruct H' as (out & HF & -> & -> & _ & _). unfold rows in HF. clear H rows.
  revert out HF. induction q as [|y q IH]; intros out HF; inversion HF as [|r v ? out' Hr HF' E1 E2]; subst; [split; [reflexivity|split; [reflexivity|simpl; intros; lia]]|].
  destruct (IH _ HF') as (L1 & L2 & IH'). simpl. split; [lia|]. split; [lia|]. intros [|i] Hi.
  - destruct v as [[[v1 v2] v3] v4]. simpl in Hr. destruct Hr as (Hr & Hy & _). destruct (time_bounds gj d s Z y) as [[t1 t2]|]; simpl in Hr; [|discriminate].
    injection Hr as -> -> -> E4. split; [reflexivity|]. destruct Hy as [Hy1 Hy2]. split; [exact Hy1|]. apply Hy2. left. reflexivity.
  - simpl. apply IH'. lia.
Qed.
Lemma ci_reliability_ok gj d s Z x lo up : ci_reliability gj d s Z x = Ok (lo, up) ->
  length lo = length x /\ length up = length x /\
  forall i, (i < length x)%nat -> rel_bounds gj d s Z (nth i x 0) = Some (nth i lo 0, nth i up 0) /\ 0 < nth i lo 0 < 1 /\ 0 < nth i up 0 < 1.
Proof.
  unfold ci_reliability. rewrite !map_map. intros H. apply bind_ok in H. destruct H as ([[[a b] c] e] & H & H2). injection H2 as <- <-.
  set (rows := map (fun y => (Some (y - ci_gamma d), Some (y - ci_gamma d), omap fst (rel_bounds gj d s Z y), omap snd (rel_bounds gj d s Z y)) : row4) x).
  assert (clean_CI_arrays (map col1 rows) (map col2 rows) (map col3 rows) (map col4 rows) "CDF" true false = Ok (a, b, c, e)) as H' by (unfold rows; rewrite !map_map; exact H).
  apply clean_given in H'; [|reflexivity]. destruct H' as (out & HF & _ & _ & -> & ->). unfold rows in HF. clear H rows.
  assert (0 < / 10 ^ 50) as Htol by (apply Rinv_0_lt_compat, pow_lt; lra).
  revert out HF. induction x as [|y x IH]; intros out HF; inversion HF as [|r v ? out' Hr HF' E1 E2]; subst; [split; [reflexivity|split; [reflexivity|simpl; intros; lia]]|].
  destruct (IH _ HF') as (L1 & L2 & IH'). simpl. split; [lia|]. split; [lia|]. intros [|i] Hi.
  - destruct v as [[[v1 v2] v3] v4]. simpl in Hr. destruct Hr as (Hr & [Hy1 Hy2] & [Hz1 Hz2]). destruct (rel_bounds gj d s Z y) as [[t1 t2]|]; simpl in Hr; [|discriminate].
    injection Hr as E1 E2 -> ->. split; [reflexivity|]. specialize (Hy2 (or_introl eq_refl)). specialize (Hz2 (or_introl eq_refl)). simpl. lra.
  - simpl. apply IH'. lia.
Qed.

(** Picking the bounds of the curve from those of the reliability. *)
Lemma nth_map_lt {A B} (f : A -> B) l i d d' : (i < length l)%nat -> nth i (map f l) d' = f (nth i l d).
Proof. intros H. rewrite (nth_indep _ d' (f d)) by now rewrite map_length. apply map_nth. Qed.
Lemma pick_bracket d f (yl yu : list R) i v : length yl = length yu -> (i < length yl)%nat -> 0 < nth i yl 0 -> 0 < nth i yu 0 ->
  low d (nth i yl 0, nth i yu 0) <= v <= high d (nth i yl 0, nth i yu 0) -> forall lo up, pick d f (yl, yu) = (lo, up) ->
  length lo = length yl /\ length up = length yl /\
  nth i lo 0 <= match f with F_CDF => 1 - v | F_SF => v | F_CHF => - ln v end <= nth i up 0.
Proof.
  intros L Hi P1 P2 Hb lo up. unfold low, high in Hb. simpl in Hb.
  assert (pick d = if swapped d then pick_swapped else pick_plain) as -> by (destruct d; reflexivity).
  destruct (swapped d), f; cbn [pick_swapped pick_plain fst snd]; intros E; injection E as <- <-; rewrite ?map_length; (split; [lia|]); (split; [lia|]);
    rewrite ?(nth_map_lt _ _ _ 0) by lia; try lra.
  - pose proof (ln_le (nth i yu 0) v P2 (proj1 Hb)). pose proof (ln_le v (nth i yl 0) ltac:(lra) (proj2 Hb)). lra.
  - pose proof (ln_le (nth i yl 0) v P1 (proj1 Hb)). pose proof (ln_le v (nth i yu 0) ltac:(lra) (proj2 Hb)). lra.
Qed.
Lemma curve_sf d f x : valid d -> curve d f x = match f with F_CDF => 1 - sf d x | F_SF => sf d x | F_CHF => - ln (sf d x) end.
Proof. intros Hv. destruct f; simpl; try reflexivity. rewrite (F_sf d (all_facts d Hv)). ring. Qed.
Lemma sf_of_curve d f t y : valid d -> inside d t -> curve d f t = y -> sf d t = q_of f y.
Proof.
  intros Hv Hi <-. rewrite curve_sf by exact Hv. destruct f; simpl; try ring. rewrite Ropp_involutive, exp_ln; [reflexivity|].
  rewrite (F_sf d (all_facts d Hv)). pose proof (F_in d (all_facts d Hv) t Hi). lra.
Qed.

(** ** Exponential *)
Lemma is_exponential_dec d : (exists l g, d = Exponential l g) \/ ~ (exists l g, d = Exponential l g).
Proof. destruct d; try (right; intros (? & ? & H); discriminate H). left. eauto. Qed.
Lemma exponential_sf l g x : 0 < l -> g < x -> sf (Exponential l g) x = exp (- (l * (x - g))).
Proof. intros Hl Hx. simpl. rewrite on_pos_pos by (apply Rdiv_lt_0_compat; [lra|apply Rdiv_lt_0_compat; lra]). f_equal. field. lra. Qed.
Lemma lambda_order l SE Z : 0 < l -> 0 <= SE -> 0 <= Z -> 0 < l * exp (- Z * (SE / l)) /\ l * exp (- Z * (SE / l)) <= l <= l * exp (Z * (SE / l)).
Proof.
  intros Hl Hs HZ. pose proof (exp_pos (- Z * (SE / l))). split; [now apply Rmult_lt_0_compat|].
  pose proof (log_nested l (- Z) 0 SE ltac:(lra) Hs ltac:(lra)) as H1. pose proof (log_nested l 0 Z SE ltac:(lra) Hs ltac:(lra)) as H2.
  rewrite Rmult_0_l, exp_0 in H1, H2. lra.
Qed.
Lemma exp_ci_time l g SE Z q lo up : exponential_CI l g SE Z (inl q) = Ok (lo, up) ->
  lo = map (fun q => - ln q / (l * exp (Z * (SE / l))) + g) q /\ up = map (fun q => - ln q / (l * exp (- Z * (SE / l))) + g) q.
Proof.
  unfold exponential_CI. intros H. apply bind_ok in H. destruct H as ([[[a b] c] e] & _ & H2). injection H2 as <- <-. auto.
Qed.
(** The columns of the Exponential bounds. *)
Definition exp_rows (l SE Z : R) (t : list R) : list row4 :=
  map (fun t => (Some t, Some t, Some (exp (- (l * exp (- Z * (SE / l))) * t)), Some (exp (- (l * exp (Z * (SE / l))) * t)))) t.
Lemma exp_clean l SE Z t xg qg :
  clean_CI_arrays (map Some t) (map Some t) (map Some (map (fun t => exp (- (l * exp (- Z * (SE / l))) * t)) t)) (map Some (map (fun t => exp (- (l * exp (Z * (SE / l))) * t)) t)) "CDF" xg qg
  = clean_CI_arrays (map col1 (exp_rows l SE Z t)) (map col2 (exp_rows l SE Z t)) (map col3 (exp_rows l SE Z t)) (map col4 (exp_rows l SE Z t)) "CDF" xg qg.
Proof. unfold exp_rows. now rewrite !map_map. Qed.
Lemma exp_ci_rel l g SE Z x lo up : exponential_CI l g SE Z (inr x) = Ok (lo, up) ->
  let yl := map (fun x => exp (- (l * exp (- Z * (SE / l))) * (x - g))) x in
  let yu := map (fun x => exp (- (l * exp (Z * (SE / l))) * (x - g))) x in
  (forall y, In y x -> g < y \/ l * exp (- Z * (SE / l)) <= 0) /\
  lo = (if (2 <? length x)%nat then no_reverse_finite true yl else yl) /\ up = (if (2 <? length x)%nat then no_reverse_finite true yu else yu).
Proof.
  intros H yl yu. unfold exponential_CI in H. apply bind_ok in H. destruct H as ([[[a b] c] e] & H & H2). rewrite exp_clean in H. apply clean_given in H; [|reflexivity].
  destruct H as (out & HF & _ & _ & -> & ->).
  assert (map q_yl out = yl /\ map q_yu out = yu /\ forall y, In y x -> g < y \/ l * exp (- Z * (SE / l)) <= 0) as (E1 & E2 & E3).
  { unfold yl, yu. clear H2 yl yu. unfold exp_rows in HF. revert out HF. induction x as [|y x IH]; intros out HF; inversion HF as [|r v ? out' Hr HF' E1 E2]; subst.
    - split; [reflexivity|]. split; [reflexivity|easy].
    - destruct (IH _ HF') as (I1 & I2 & I3). destruct v as [[[v1 v2] v3] v4]. simpl in Hr. destruct Hr as (Hr & [_ Hy] & _). injection Hr as F1 F2 <- <-. simpl. rewrite I1, I2.
      split; [reflexivity|]. split; [reflexivity|]. intros z [<-|Hz]; [|now apply I3]. specialize (Hy (or_introl eq_refl)).
      destruct (Rlt_or_le g y) as [|C]; [now left|]. right. apply Rnot_lt_le. intros D. assert (exp 0 <= exp (- (l * exp (- Z * (SE / l))) * (y - g))) as Q.
      { apply exp_mono. nra. } rewrite exp_0 in Q. lra. }
  split; [exact E3|]. rewrite E1, E2 in H2. unfold yl, yu in *. rewrite !map_length in H2.
  destruct (2 <? length x)%nat; cbn [andb] in H2; injection H2 as <- <-; auto.
Qed.
(** A decreasing array is left alone. *)
Lemma no_reverse_decreasing l : never_increases l -> no_reverse_finite true l = l.
Proof.
  intros H. apply nth_ext with 0 0; [apply no_reverse_length|]. intros j Hj. rewrite no_reverse_length in Hj. rewrite no_reverse_nth by exact Hj.
  destruct (j <? _)%nat eqn:E; [reflexivity|]. apply Nat.ltb_ge in E. assert (l <> []) as Hne by (intros ->; simpl in Hj; lia).
  destruct (first_index_spec _ _ (extreme_in true l Hne)) as (H1 & H2 & _). pose proof (H _ j (conj E Hj)) as H3. rewrite H2 in H3.
  pose proof (extreme_best true l _ (nth_In l 0 Hj)). simpl in *. lra.
Qed.
Lemma no_reverse_increasing l : never_decreases l -> no_reverse_finite false l = l.
Proof.
  intros H. apply nth_ext with 0 0; [apply no_reverse_length|]. intros j Hj. rewrite no_reverse_length in Hj. rewrite no_reverse_nth by exact Hj.
  destruct (j <? _)%nat eqn:E; [reflexivity|]. apply Nat.ltb_ge in E. assert (l <> []) as Hne by (intros ->; simpl in Hj; lia).
  destruct (first_index_spec _ _ (extreme_in false l Hne)) as (H1 & H2 & _). pose proof (H _ j (conj E Hj)) as H3. rewrite H2 in H3.
  pose proof (extreme_best false l _ (nth_In l 0 Hj)). simpl in *. lra.
Qed.
Lemma exp_decreasing k g x : 0 <= k -> never_decreases x -> never_increases (map (fun x => exp (- k * (x - g))) x).
Proof.
  intros Hk H i j [Hij Hj]. rewrite map_length in Hj. rewrite !(nth_map_lt _ _ _ 0) by lia. apply exp_mono. specialize (H i j (conj Hij Hj)). nra.
Qed.

(** ** The derivatives *)
Lemma var_nonneg s da db : proper_cov s -> 0 <= var_of s da db.
Proof.
  intros (H1 & H2 & H3). unfold var_of. set (A := se_a s) in *. set (B := se_b s) in *. set (C := cov_ab s) in *.
  assert (- (Rabs da * Rabs db * (A * B)) <= da * db * C) as H.
  { rewrite <- Rabs_mult. pose proof (Rabs_pos (da * db)). pose proof (Rabs_pos C). pose proof (Rle_abs (- (da * db * C))) as Q. rewrite Rabs_Ropp, Rabs_mult in Q.
    assert (Rabs (da * db) * Rabs C <= Rabs (da * db) * (A * B)) by (apply Rmult_le_compat_l; lra). lra. }
  assert (0 <= (Rabs da * A - Rabs db * B) ^ 2) by apply pow2_ge_0.
  assert (Rabs da ^ 2 = da ^ 2) as Ea by apply pow2_abs. assert (Rabs db ^ 2 = db ^ 2) as Eb by apply pow2_abs.
  replace ((Rabs da * A - Rabs db * B) ^ 2) with (Rabs da ^ 2 * A ^ 2 + Rabs db ^ 2 * B ^ 2 - 2 * (Rabs da * Rabs db * (A * B))) in H0 by ring.
  rewrite Ea, Eb in H0. lra.
Qed.
Lemma link_unlink d u : two_parameter_link d -> link d (unlink d u) = u.
Proof.
  destruct d; simpl; try easy; intros _.
  - now rewrite ln_exp, Ropp_involutive, ln_exp.
  - apply norm_ppf_Phi.
  - apply norm_ppf_Phi.
  - pose proof (exp_pos u). replace (1 / (1 / (exp u + 1)) - 1) with (exp u) by (field; lra). apply ln_exp.
  - now rewrite ln_exp, Ropp_involutive, ln_exp.
Qed.
Lemma link_cases d d' p : two_parameter_link d -> (match d, d' with Weibull _ _ _, Weibull _ _ _ | Loglogistic _ _ _, Loglogistic _ _ _ | Normal _ _, Normal _ _
  | Lognormal _ _ _, Lognormal _ _ _ | Gumbel _ _, Gumbel _ _ => True | _, _ => False end) -> link d' p = link d p.
Proof. destruct d, d'; simpl; easy. Qed.
Lemma locally_pos (a : R) : 0 < a -> locally a (fun x => 0 < x).
Proof. intros H. apply (locally_interval _ a 0 p_infty); simpl; auto. Qed.

Lemma u_grad_a gj d x u da db : valid d -> two_parameter_link d -> u_at gj d x = Some (u, da, db) ->
  is_derive (fun a => link d (sf (with_a d a) x)) (par_a d) da.
Proof.
  intros Hv Hl E.
  assert (forall a, valid (with_a d a) -> exists u' da' db', u_at gj (with_a d a) x = Some (u', da', db') /\ link d (sf (with_a d a) x) = u') as HS.
  { intros a Ha. destruct (u_at gj (with_a d a) x) as [[[u' da'] db']|] eqn:Eu.
    - exists u', da', db'. split; [reflexivity|]. destruct (u_at_sf gj _ x _ _ _ Ha Eu) as [-> _]. rewrite (link_cases (with_a d a) d) by (destruct d; easy).
      apply link_unlink. destruct d; easy.
    - exfalso. destruct d; simpl in *; try easy; unfold omap in *; destruct (log_of _); discriminate. }
  destruct d as [a b g|m s|m s g|l g|a b g|a b|a b g|m s]; simpl in Hv, Hl; try easy; cbn [par_a].
  - unfold u_at in E. destruct (log_of (x - g)) as [lt|] eqn:EL; [|discriminate]. cbn [omap] in E. injection E as <- <- <-.
    apply (is_derive_ext_loc (fun a => b * (lt - ln a))).
    + apply (filter_imp (fun a => 0 < a)); [|apply locally_pos; lra]. intros y Hy. destruct (HS y ltac:(simpl; lra)) as (u' & da' & db' & E1 & ->).
      simpl in E1. rewrite EL in E1. cbn [omap] in E1. now injection E1.
    + auto_derive; [lra|]. as_R. field. lra.
  - injection E as <- <- <-. apply (is_derive_ext (fun m => (m - x) / s)).
    + intros y. destruct (HS y Hv) as (u' & da' & db' & E1 & ->). simpl in E1. now injection E1.
    + auto_derive; [lra|]. as_R. field. lra.
  - unfold u_at in E. destruct (log_of (x - g)) as [lt|] eqn:EL; [|discriminate]. cbn [omap] in E. injection E as <- <- <-.
    apply (is_derive_ext (fun m => (m - lt) / s)).
    + intros y. destruct (HS y Hv) as (u' & da' & db' & E1 & ->). simpl in E1. rewrite EL in E1. cbn [omap] in E1. now injection E1.
    + auto_derive; [lra|]. as_R. field. lra.
  - unfold u_at in E. destruct (log_of (x - g)) as [lt|] eqn:EL; [|discriminate]. cbn [omap] in E. injection E as <- <- <-.
    apply (is_derive_ext_loc (fun a => b * (lt - ln a))).
    + apply (filter_imp (fun a => 0 < a)); [|apply locally_pos; lra]. intros y Hy. destruct (HS y ltac:(simpl; lra)) as (u' & da' & db' & E1 & ->).
      simpl in E1. rewrite EL in E1. cbn [omap] in E1. now injection E1.
    + auto_derive; [lra|]. as_R. field. lra.
  - injection E as <- <- <-. apply (is_derive_ext (fun m => (x - m) / s)).
    + intros y. destruct (HS y Hv) as (u' & da' & db' & E1 & ->). simpl in E1. now injection E1.
    + auto_derive; [lra|]. as_R. field. lra.
Qed.
Lemma u_grad_b gj d x u da db : valid d -> two_parameter_link d -> u_at gj d x = Some (u, da, db) ->
  is_derive (fun b => link d (sf (with_b d b) x)) (par_b d) db.
Proof.
  intros Hv Hl E.
  assert (forall a, valid (with_b d a) -> exists u' da' db', u_at gj (with_b d a) x = Some (u', da', db') /\ link d (sf (with_b d a) x) = u') as HS.
  { intros a Ha. destruct (u_at gj (with_b d a) x) as [[[u' da'] db']|] eqn:Eu.
    - exists u', da', db'. split; [reflexivity|]. destruct (u_at_sf gj _ x _ _ _ Ha Eu) as [-> _]. rewrite (link_cases (with_b d a) d) by (destruct d; easy).
      apply link_unlink. destruct d; easy.
    - exfalso. destruct d; simpl in *; try easy; unfold omap in *; destruct (log_of _); discriminate. }
  assert (forall (F : R -> R) b0, 0 < b0 -> (forall y, 0 < y -> valid (with_b d y)) -> (forall y u' da' db', 0 < y -> u_at gj (with_b d y) x = Some (u', da', db') -> u' = F y) ->
    forall l, is_derive F b0 l -> is_derive (fun b => link d (sf (with_b d b) x)) b0 l) as HD.
  { intros F b0 Hb Hval HF l Hd. apply (is_derive_ext_loc F); [|exact Hd]. apply (filter_imp (fun a => 0 < a)); [|now apply locally_pos].
    intros y Hy. destruct (HS y (Hval y Hy)) as (u' & da' & db' & E1 & ->). symmetry. exact (HF y u' da' db' Hy E1). }
  destruct d as [a b g|m s|m s g|l g|a b g|a b|a b g|m s]; simpl in Hv, Hl; try easy; cbn [par_b].
  - unfold u_at in E. destruct (log_of (x - g)) as [lt|] eqn:EL; [|discriminate]. cbn [omap] in E. injection E as <- <- <-.
    apply (HD (fun b => b * (lt - ln a))); [lra|simpl; intros; lra| |].
    + intros y u' da' db' Hy E1. simpl in E1. rewrite EL in E1. cbn [omap] in E1. now injection E1.
    + auto_derive; [exact I|]. as_R. ring.
  - injection E as <- <- <-. apply (HD (fun s => (m - x) / s)); [lra|simpl; intros; lra| |].
    + intros y u' da' db' Hy E1. simpl in E1. now injection E1.
    + auto_derive; [lra|]. as_R. field. lra.
  - unfold u_at in E. destruct (log_of (x - g)) as [lt|] eqn:EL; [|discriminate]. cbn [omap] in E. injection E as <- <- <-.
    apply (HD (fun s => (m - lt) / s)); [lra|simpl; intros; lra| |].
    + intros y u' da' db' Hy E1. simpl in E1. rewrite EL in E1. cbn [omap] in E1. now injection E1.
    + auto_derive; [lra|]. as_R. field. lra.
  - unfold u_at in E. destruct (log_of (x - g)) as [lt|] eqn:EL; [|discriminate]. cbn [omap] in E. injection E as <- <- <-.
    apply (HD (fun b => b * (lt - ln a))); [lra|simpl; intros; lra| |].
    + intros y u' da' db' Hy E1. simpl in E1. rewrite EL in E1. cbn [omap] in E1. now injection E1.
    + auto_derive; [exact I|]. as_R. ring.
  - injection E as <- <- <-. apply (HD (fun s => (x - m) / s)); [lra|simpl; intros; lra| |].
    + intros y u' da' db' Hy E1. simpl in E1. now injection E1.
    + auto_derive; [lra|]. as_R. field. lra.
Qed.
Lemma time_scale_untime d v : time_scale d (untime d v) = v.
Proof. destruct d; simpl; try reflexivity; match goal with |- ln (?e + ?g - ?h) = _ => replace (e + g - h) with e by ring end; apply ln_exp. Qed.
Lemma with_ab_scale d y t : two_parameter_link d -> time_scale (with_a d y) t = time_scale d t /\ time_scale (with_b d y) t = time_scale d t.
Proof. destruct d; simpl; easy. Qed.
Lemma v_grad gj d q v da db : valid d -> two_parameter_link d -> v_at gj d q = Some (v, da, db) ->
  is_derive (fun a => time_scale d (isf (with_a d a) q)) (par_a d) da /\ is_derive (fun b => time_scale d (isf (with_b d b) q)) (par_b d) db.
Proof.
  intros Hv Hl E. assert (0 < q < 1) as Hq by now apply (v_at_isf gj d q v da db Hv).
  assert (forall y, valid (with_a d y) -> exists u' da' db', v_at gj (with_a d y) q = Some (u', da', db') /\ time_scale d (isf (with_a d y) q) = u') as HA.
  { intros y Hy. destruct (v_at gj (with_a d y) q) as [[[u' da'] db']|] eqn:Eu.
    - exists u', da', db'. split; [reflexivity|]. destruct (v_at_isf _ _ _ _ _ _ Hy Eu) as [_ ->]. rewrite <- (proj1 (with_ab_scale d y _ Hl)). apply time_scale_untime.
    - exfalso. unfold v_at in Eu. destruct (Rlt_dec 0 q); [|lra]. destruct (Rlt_dec q 1); [|lra]. destruct d; easy. }
  assert (forall y, valid (with_b d y) -> exists u' da' db', v_at gj (with_b d y) q = Some (u', da', db') /\ time_scale d (isf (with_b d y) q) = u') as HB.
  { intros y Hy. destruct (v_at gj (with_b d y) q) as [[[u' da'] db']|] eqn:Eu.
    - exists u', da', db'. split; [reflexivity|]. destruct (v_at_isf _ _ _ _ _ _ Hy Eu) as [_ ->]. rewrite <- (proj2 (with_ab_scale d y _ Hl)). apply time_scale_untime.
    - exfalso. unfold v_at in Eu. destruct (Rlt_dec 0 q); [|lra]. destruct (Rlt_dec q 1); [|lra]. destruct d; easy. }
  assert (forall w (F : R -> R) b0 l, locally b0 (fun y => valid (w y)) -> (forall y, valid (w y) -> exists u' da' db', v_at gj (w y) q = Some (u', da', db') /\ time_scale d (isf (w y) q) = u') ->
    (forall y u' da' db', v_at gj (w y) q = Some (u', da', db') -> u' = F y) ->
    is_derive F b0 l -> is_derive (fun b => time_scale d (isf (w b) q)) b0 l) as HD.
  { intros w F b0 l HL HE HF Hd. apply (is_derive_ext_loc F); [|exact Hd]. revert HL. apply filter_imp. intros y Hy.
    destruct (HE y Hy) as (u' & da' & db' & E1 & ->). symmetry. exact (HF y u' da' db' E1). }
  assert (forall a, 0 < a -> locally a (fun y => 0 < y)) as LP by (intros; now apply locally_pos).
  unfold v_at in *. destruct (Rlt_dec 0 q); [|lra]. destruct (Rlt_dec q 1); [|lra].
  destruct d as [a b g|m s|m s g|l g|a b g|a b|a b g|m s]; simpl in Hv, Hl; try easy; injection E as <- <- <-; cbn [par_a par_b]; split.
  - apply (HD (with_a (Weibull a b g)) (fun a => 1 / b * ln (- ln q) + ln a)); [|exact HA| |].
    + apply (filter_imp (fun y => 0 < y)); [simpl; intros; lra|apply LP; lra].
    + simpl. intros y u' da' db' E1. now injection E1.
    + auto_derive; [lra|]. as_R. field. lra.
  - apply (HD (with_b (Weibull a b g)) (fun b => 1 / b * ln (- ln q) + ln a)); [|exact HB| |].
    + apply (filter_imp (fun y => 0 < y)); [simpl; intros; lra|apply LP; lra].
    + simpl. intros y u' da' db' E1. now injection E1.
    + auto_derive; [lra|]. as_R. field. lra.
  - apply (HD (with_a (Normal m s)) (fun m => m - s * norm_ppf q)); [|exact HA| |].
    + apply filter_forall. simpl. intros; lra.
    + simpl. intros y u' da' db' E1. now injection E1.
    + auto_derive; [exact I|]. as_R. ring.
  - apply (HD (with_b (Normal m s)) (fun s => m - s * norm_ppf q)); [|exact HB| |].
    + apply (filter_imp (fun y => 0 < y)); [simpl; intros; lra|apply LP; lra].
    + simpl. intros y u' da' db' E1. now injection E1.
    + auto_derive; [exact I|]. as_R. ring.
  - apply (HD (with_a (Lognormal m s g)) (fun m => m - s * norm_ppf q)); [|exact HA| |].
    + apply filter_forall. simpl. intros; lra.
    + simpl. intros y u' da' db' E1. now injection E1.
    + auto_derive; [exact I|]. as_R. ring.
  - apply (HD (with_b (Lognormal m s g)) (fun s => m - s * norm_ppf q)); [|exact HB| |].
    + apply (filter_imp (fun y => 0 < y)); [simpl; intros; lra|apply LP; lra].
    + simpl. intros y u' da' db' E1. now injection E1.
    + auto_derive; [exact I|]. as_R. ring.
  - apply (HD (with_a (Loglogistic a b g)) (fun a => 1 / b * ln (1 / q - 1) + ln a)); [|exact HA| |].
    + apply (filter_imp (fun y => 0 < y)); [simpl; intros; lra|apply LP; lra].
    + simpl. intros y u' da' db' E1. now injection E1.
    + auto_derive; [lra|]. as_R. field. lra.
  - apply (HD (with_b (Loglogistic a b g)) (fun b => 1 / b * ln (1 / q - 1) + ln a)); [|exact HB| |].
    + apply (filter_imp (fun y => 0 < y)); [simpl; intros; lra|apply LP; lra].
    + simpl. intros y u' da' db' E1. now injection E1.
    + auto_derive; [lra|]. as_R. field. lra.
  - apply (HD (with_a (Gumbel m s)) (fun m => m + s * ln (- ln q))); [|exact HA| |].
    + apply filter_forall. simpl. intros; lra.
    + simpl. intros y u' da' db' E1. now injection E1.
    + auto_derive; [exact I|]. as_R. ring.
  - apply (HD (with_b (Gumbel m s)) (fun s => m + s * ln (- ln q))); [|exact HB| |].
    + apply (filter_imp (fun y => 0 < y)); [simpl; intros; lra|apply LP; lra].
    + simpl. intros y u' da' db' E1. now injection E1.
    + auto_derive; [exact I|]. as_R. ring.
Qed.

(** ** Parameter ranges *)
Definition range_kind (k : prange) : pkind := match k with AnyReal => PLin | Positive => PLog | Proportion => PLogit | NonZero => PLogMu end.
Lemma ranges_kinds d forced ests : Forall2 in_range (parameter_ranges d) ests -> Forall2 estimate_ok (param_kinds d forced) ests.
Proof.
  intros H. destruct d; cbn [parameter_ranges] in H;
    repeat match goal with H : Forall2 _ (_ :: _) _ |- _ => inversion H; subst; clear H | H : Forall2 _ [] _ |- _ => inversion H; subst; clear H end;
    destruct forced; repeat (apply Forall2_cons; [simpl in *; first [assumption|exact I]|]); apply Forall2_nil.
Qed.
Lemma kind_range d forced i k k' : nth_error (parameter_ranges d) i = Some k -> nth_error (param_kinds d forced) i = Some k' ->
  k' = if held_fixed d forced i then PFixed else range_kind k.
Proof.
  intros H H'. destruct d, forced; do 5 (destruct i as [|i]; [simpl in H, H'; try discriminate; injection H as <-; injection H' as <-; reflexivity|]);
    simpl in H; destruct i; discriminate.
Qed.
Lemma normal_limits_ok k k' Z e s : k' = range_kind k -> in_range k e -> p_se (param_limits k' Z e s) = s /\
  exists l u, p_lower (param_limits k' Z e s) = Fin l /\ p_upper (param_limits k' Z e s) = Fin u /\
    normal_limits k Z (p_est (param_limits k' Z e s)) (p_se (param_limits k' Z e s)) l u.
Proof.
  intros -> He. destruct k; simpl in He; cbn [range_kind param_limits].
  - simpl. split; [reflexivity|]. do 2 eexists. split; [reflexivity|]. split; [reflexivity|]. split; ring.
  - simpl. split; [reflexivity|]. do 2 eexists. split; [reflexivity|]. split; [reflexivity|].
    split; [apply Rmult_lt_0_compat; [exact He|apply exp_pos]|]. split; [apply Rmult_lt_0_compat; [exact He|apply exp_pos]|].
    rewrite !ln_mult, !ln_exp by (try apply exp_pos; exact He). split; ring.
  - destruct (Req_EM_T e 1) as [E1|E1]; [|destruct (Req_EM_T e 0) as [E0|E0]]; simpl; (split; [reflexivity|]); do 2 eexists; (split; [reflexivity|]); (split; [reflexivity|]).
    + split; [intros; lra|]. rewrite E1. auto.
    + split; [intros; lra|]. rewrite E0. auto.
    + split; [|intros; lra]. intros H.
      assert (forall k, ln (e / (e + (1 - e) * exp k) / (1 - e / (e + (1 - e) * exp k))) = ln (e / (1 - e)) - k) as HL.
      { intros k. pose proof (exp_pos k). assert (0 < (1 - e) * exp k) by (apply Rmult_lt_0_compat; lra).
        replace (e / (e + (1 - e) * exp k) / (1 - e / (e + (1 - e) * exp k))) with (e / (1 - e) / exp k) by (field; repeat split; nra).
        rewrite ln_div; [now rewrite ln_exp|apply Rdiv_lt_0_compat; lra|apply exp_pos]. }
      rewrite !HL. unfold Rdiv. split; ring.
  - destruct (Req_EM_T e 0); [contradiction|]. simpl. split; [reflexivity|]. do 2 eexists. split; [reflexivity|]. split; [reflexivity|].
    replace (e * exp (- Z * (s / e)) / e) with (exp (- Z * (s / e))) by (field; assumption).
    replace (e * exp (Z * (s / e)) / e) with (exp (Z * (s / e))) by (field; assumption).
    rewrite !ln_exp. repeat split; apply exp_pos.
Qed.
