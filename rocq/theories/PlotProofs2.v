(** Proofs about transform_spaced, the straight lines of probability paper and the axis limits. *)
From Coquelicot Require Import Coquelicot.
From Coq Require Import String.
From Coq Require Import List Arith Reals Lra Lia Bool ZArith Sorted Permutation.
From Verif Require Import Base RealFacts Gauss Ext RList Improper ConvertModel RepairModel RepairProofs RepairProofs2 TestingModel TestingProofs DistModel DistSpec DistProofs DistProofs2
  PoFProofs PoFProofs2 CombProofs RegProofs SelModel CIModel CISpec CIProofs CIProofs2 PlotModel PlotSpec PlotProofs.
Import ListNotations.
Open Scope R_scope.

(** ** transform_spaced *)
Lemma spaced_core p lo hi n : valid_paper p -> 0 < lo -> lo < hi -> hi < 1 -> (2 < n)%nat ->
  let l := map (inverse p) (linspace (forward p lo) (forward p hi) n) in
  length l = n /\ nth 0 l 0 = lo /\ nth (n - 1) l 0 = hi /\ strictly_increasing l /\ equally_spaced (forward p) lo hi l.
Proof.
  intros Hv H1 H2 H3 Hn l. set (A := forward p lo) in *. set (B := forward p hi) in *.
  assert (A < B) as HAB by now apply forward_strict.
  pose proof (inverse_forward p lo Hv ltac:(lra)) as [PA EA]. pose proof (inverse_forward p hi Hv ltac:(lra)) as [PB EB]. fold A in PA, EA. fold B in PB, EB.
  assert (length l = n) as L by (unfold l; rewrite map_length; apply linspace_length).
  assert (0 < INR (n - 1)) as HN by (apply lt_0_INR; lia).
  set (r := fun i : nat => A + INR i * ((B - A) / INR (n - 1))).
  assert (forall i, (i < n)%nat -> nth i l 0 = inverse p (r i)) as Hnth.
  { intros i Hi. unfold l. rewrite (nth_map_lt _ _ _ 0) by (rewrite linspace_length; exact Hi). now rewrite linspace_nth. }
  assert (0 < (B - A) / INR (n - 1)) as Hs by (apply Rdiv_lt_0_compat; lra).
  assert (r (n - 1)%nat = B) as RB by (unfold r; field; lra).
  assert (r 0%nat = A) as RA by (unfold r; simpl; ring).
  assert (forall i j, (i < j)%nat -> r i < r j) as Rinc. { intros i j Hij. unfold r. apply lt_INR in Hij. nra. }
  assert (forall i, (i < n)%nat -> on_paper p (r i)) as Ron.
  { intros i Hi. apply (on_paper_between p A B); [exact PA|exact PB|]. split.
    - destruct (Nat.eq_dec i 0) as [-> |]; [lra|]. rewrite <- RA. left. apply Rinc. lia.
    - destruct (Nat.eq_dec i (n - 1)) as [-> |]; [lra|]. rewrite <- RB. left. apply Rinc. lia. }
  split; [exact L|]. split; [rewrite Hnth, RA by lia; exact EA|]. split; [rewrite Hnth, RB by lia; exact EB|]. split.
  - intros i j Hij. rewrite L in Hij. rewrite !Hnth by lia. apply inverse_strict; [exact Hv|apply Ron; lia|apply Ron; lia|apply Rinc; lia].
  - intros i Hi. rewrite L in *. rewrite Hnth by exact Hi. rewrite (proj2 (forward_inverse p _ Hv (Ron i Hi))). fold A B. unfold r. field. lra.
Qed.
Lemma loglogistic_spaced lo hi n : 0 < lo -> 0 < hi -> lo < 1 -> hi < 1 ->
  map (fun x => 1 / (exp x + 1)) (linspace (ln (1 / lo - 1)) (ln (1 / hi - 1)) n) = map (inverse P_Loglogistic) (linspace (forward P_Loglogistic lo) (forward P_Loglogistic hi) n).
Proof.
  intros. unfold linspace. rewrite !map_map. apply map_ext. intros i. rewrite !loglogistic_flip by lra. set (A := forward P_Loglogistic lo). set (B := forward P_Loglogistic hi).
  cbn [inverse]. set (r := A + INR i * ((B - A) / INR (n - 1))). replace (- A + INR i * ((- B - - A) / INR (n - 1))) with (- r) by (unfold r, Rdiv; ring).
  rewrite exp_Ropp. pose proof (exp_pos r). field. lra.
Qed.
(** The order of the bounds does not matter. *)
Lemma spaced_bounds yl yu : (if Rltb' yu yl then yu else yl) = Rmin yl yu /\ (if Rltb' yu yl then yl else yu) = Rmax yl yu.
Proof.
  destruct (Rltb' yu yl) eqn:E; [apply Rltb'_true in E|apply Rltb'_false in E]; unfold Rmin, Rmax; destruct (Rle_dec yl yu); split; try reflexivity; lra.
Qed.
(** The paper whose pair of functions is in use. *)
Definition used_paper (p : paper) : paper := match p with P_Beta a b => P_Beta b a | _ => p end.
Lemma spaced_pair_spec t a b : match spaced_pair t a b with
  | Ok (f, g) => exists p, named_paper t a b = Some p /\ (p = P_Loglogistic /\ f = (fun x => ln (1 / x - 1)) /\ g = (fun x => 1 / (exp x + 1)) \/
                             p <> P_Loglogistic /\ f = forward (used_paper p) /\ g = inverse (used_paper p))
  | Err e => named_paper t a b = None /\ e = ValueError
  end.
Proof.
  unfold spaced_pair, named_paper, names_normal, names_gumbel, names_weibull, names_loglogistic, names_exponential, names_gamma, names_beta.
  repeat match goal with |- context [str_in t ?l] => destruct (str_in t l) end;
    try (destruct a as [a|]); try (destruct b as [b|]); try (split; reflexivity);
    (eexists; split; [reflexivity|]); first [left; split; [reflexivity|split; reflexivity] | right; split; [discriminate|split; reflexivity]].
Qed.
Lemma spaced_list t yl yu num a b p : named_paper t a b = Some p -> 0 < yl < 1 -> 0 < yu < 1 -> (2 < num)%Z ->
  transform_spaced t yl yu num a b = Ok (map (inverse (used_paper p)) (linspace (forward (used_paper p) (Rmin yl yu)) (forward (used_paper p) (Rmax yl yu)) (Z.to_nat num))).
Proof.
  intros Hp H1 H2 Hn. unfold transform_spaced. destruct (spaced_bounds yl yu) as [-> ->]. cbv zeta.
  assert (0 < Rmin yl yu) by (apply Rmin_glb_lt; lra). assert (Rmax yl yu < 1) by (apply Rmax_lub_lt; lra).
  pose proof (Rmin_l yl yu). pose proof (Rmax_l yl yu).
  assert (Rleb (Rmin yl yu) 0 = false) as -> by (unfold Rleb; destruct (Rle_dec (Rmin yl yu) 0); [lra|reflexivity]).
  assert (Rleb 1 (Rmax yl yu) = false) as -> by (unfold Rleb; destruct (Rle_dec 1 (Rmax yl yu)); [lra|reflexivity]). cbn [orb].
  destruct (Z.leb_spec num 2); [lia|]. pose proof (spaced_pair_spec t a b) as S. destruct (spaced_pair t a b) as [[f g]|e]; [|destruct S; congruence].
  destruct S as (q & Eq & S). rewrite Hp in Eq. injection Eq as <-. cbn [bind fst snd]. f_equal. destruct S as [(-> & -> & ->)|(_ & -> & ->)]; [|reflexivity].
  cbn [used_paper]. apply loglogistic_spaced; lra.
Qed.
Lemma spaced_errors t yl yu num a b : (exists l, transform_spaced t yl yu num a b = Ok l) <->
  0 < yl < 1 /\ 0 < yu < 1 /\ (2 < num)%Z /\ named_paper t a b <> None.
Proof.
  split.
  - intros (l & H). unfold transform_spaced in H. destruct (spaced_bounds yl yu) as [E1 E2]. rewrite E1, E2 in H. cbv zeta in H.
    destruct (Rleb (Rmin yl yu) 0) eqn:A; [discriminate|]. destruct (Rleb 1 (Rmax yl yu)) eqn:B; [discriminate|]. cbn [orb] in H.
    destruct (Z.leb_spec num 2); [discriminate|]. unfold Rleb in A, B. destruct (Rle_dec (Rmin yl yu) 0); [discriminate|]. destruct (Rle_dec 1 (Rmax yl yu)); [discriminate|].
    pose proof (Rmin_l yl yu). pose proof (Rmax_l yl yu). pose proof (Rmin_r yl yu). pose proof (Rmax_r yl yu).
    split; [lra|]. split; [lra|]. split; [lia|]. pose proof (spaced_pair_spec t a b) as S. destruct (spaced_pair t a b) as [[f g]|e]; [|discriminate].
    destruct S as (q & Eq & _). congruence.
  - intros (H1 & H2 & Hn & Hp). destruct (named_paper t a b) as [p|] eqn:E; [|congruence]. eexists. apply (spaced_list _ _ _ _ _ _ p); assumption.
Qed.

(** ** Closed forms of the Beta distribution *)
Lemma beta_closed a b c (G : R -> R) : 0 < a -> 0 < b -> 0 < c ->
  (forall x, 0 < x < 1 -> is_derive G x (c * beta_kernel a b x)) -> (forall x, 0 < x < 1 -> 0 <= G x <= 1 /\ G x <= 2 * x /\ 1 - G x <= 2 * (1 - x)) ->
  forall x, 0 < x < 1 -> cdf (DistModel.Beta a b) x = G x.
Proof.
  intros Ha Hb Hc HG HB. set (d := DistModel.Beta a b). assert (valid d) as Vd by (split; assumption). pose proof (all_facts d Vd) as F.
  pose proof (beta_fun_pos a b Ha Hb) as HBf. set (A := / (c * beta_fun a b)). assert (0 < A) as HA by (apply Rinv_0_lt_compat, Rmult_lt_0_compat; assumption).
  assert (forall x, 0 < x < 1 -> inside d x) as Hin by (intros x Hx; unfold inside; simpl; lra).
  assert (forall x, inside d x -> 0 < x < 1) as Hin' by (intros x Hx; unfold inside in Hx; simpl in Hx; lra).
  set (C := cdf d (1 / 2) - A * G (1 / 2)).
  assert (forall x, 0 < x < 1 -> cdf d x = A * G x + C) as E.
  { intros x Hx. enough (cdf d x - A * G x = cdf d (1 / 2) - A * G (1 / 2)) by (unfold C; lra).
    apply (const_of_derive_zero (fun x => cdf d x - A * G x)). intros y Hy. unfold Rmin, Rmax in Hy. assert (0 < y < 1) as Hy1 by (destruct (Rle_dec x (1 / 2)); lra). clear Hy.
    destruct (F_der d F y (Hin y Hy1)) as (v & Ev & _ & Dv). cbn [pdf d] in Ev. destruct (Rlt_dec y 0); [lra|]. destruct (Rlt_dec 1 y); [lra|]. destruct (Req_EM_T y 0); [lra|]. destruct (Req_EM_T y 1); [lra|].
    injection Ev as <-. replace 0 with (beta_kernel a b y / beta_fun a b - A * (c * beta_kernel a b y)) by (unfold A; field; lra).
    apply (is_derive_minus (cdf d) (fun x => A * G x)); [exact Dv|]. apply is_derive_scal. now apply HG. }
  assert (C <= 0) as C1.
  { apply Rnot_lt_le. intros HC. set (q := Rmin (C / 2) (1 / 2)). assert (0 < q) by (apply Rmin_glb_lt; lra). pose proof (Rmin_l (C / 2) (1 / 2)). pose proof (Rmin_r (C / 2) (1 / 2)). fold q in H0, H1.
    destruct (F_ppf d F q ltac:(lra)) as [I1 I2]. apply Hin' in I1. rewrite E in I2 by exact I1. destruct (HB _ I1) as (B1 & _). nra. }
  assert (0 <= C) as C2.
  { apply Rnot_lt_le. intros HC. set (x := Rmin (- C / (2 * A)) (1 / 2)). assert (0 < - C / (2 * A)) by (apply Rdiv_lt_0_compat; lra). assert (0 < x) by (apply Rmin_glb_lt; lra).
    pose proof (Rmin_l (- C / (2 * A)) (1 / 2)) as M1. pose proof (Rmin_r (- C / (2 * A)) (1 / 2)) as M2. fold x in M1, M2. assert (0 < x < 1) as Hx by lra.
    pose proof (F_in d F x (Hin x Hx)). rewrite E in H1 by exact Hx. destruct (HB x Hx) as (_ & B2 & _). assert (A * (2 * x) <= - C). { apply Rle_trans with (A * (2 * (- C / (2 * A)))); [apply Rmult_le_compat_l; lra|]. right. field. lra. } nra. }
  assert (C = 0) as C0 by lra.
  assert (1 <= A) as A1.
  { apply Rnot_lt_le. intros HC. destruct (F_ppf d F ((1 + A) / 2) ltac:(lra)) as [I1 I2]. apply Hin' in I1. rewrite E in I2 by exact I1. destruct (HB _ I1) as (B1 & _). nra. }
  assert (A <= 1) as A2.
  { apply Rnot_lt_le. intros HC. set (y := Rmin ((A - 1) / (2 * A)) (1 / 2)). assert (0 < (A - 1) / (2 * A)) by (apply Rdiv_lt_0_compat; lra). assert (0 < y) by (apply Rmin_glb_lt; lra).
    pose proof (Rmin_l ((A - 1) / (2 * A)) (1 / 2)) as M1. pose proof (Rmin_r ((A - 1) / (2 * A)) (1 / 2)) as M2. fold y in M1, M2. assert (0 < 1 - y < 1) as Hx by lra.
    pose proof (F_in d F (1 - y) (Hin _ Hx)). rewrite E in H1 by exact Hx. destruct (HB _ Hx) as (_ & _ & B3). replace (1 - (1 - y)) with y in B3 by ring.
    assert (A * (2 * y) <= A - 1). { apply Rle_trans with (A * (2 * ((A - 1) / (2 * A)))); [apply Rmult_le_compat_l; lra|]. right. field. lra. } nra. }
  intros x Hx. rewrite E by exact Hx. replace A with 1 by lra. rewrite C0. ring.
Qed.
Lemma cdf_beta_2_1 x : 0 < x < 1 -> cdf (DistModel.Beta 2 1) x = x ^ 2.
Proof.
  apply (beta_closed 2 1 2 (fun x => x ^ 2)); try lra.
  - intros y Hy. unfold beta_kernel. replace (2 - 1) with 1 by ring. replace (1 - 1) with 0 by ring. rewrite Rpower_1, Rpower_O by lra. auto_derive; [exact I|ring].
  - intros y Hy. nra.
Qed.
Lemma cdf_beta_1_2 x : 0 < x < 1 -> cdf (DistModel.Beta 1 2) x = 1 - (1 - x) ^ 2.
Proof.
  apply (beta_closed 1 2 2 (fun x => 1 - (1 - x) ^ 2)); try lra.
  - intros y Hy. unfold beta_kernel. replace (2 - 1) with 1 by ring. replace (1 - 1) with 0 by ring. rewrite Rpower_1, Rpower_O by lra. auto_derive; [exact I|ring].
  - intros y Hy. nra.
Qed.
Lemma ppf_of_cdf d x q : valid d -> inside d x -> cdf d x = q -> ppf d q = x.
Proof. intros Vd Hx <-. now apply ppf_cdf. Qed.
Lemma beta_not_spaced : exists l, transform_spaced "beta" (1 / 16) (9 / 16) 3 (Some 1) (Some 2) = Ok l /\ ~ equally_spaced (forward (P_Beta 1 2)) (1 / 16) (9 / 16) l.
Proof.
  eexists. split; [apply (spaced_list "beta" _ _ _ _ _ (P_Beta 1 2)); [reflexivity|lra|lra|lia]|].
  rewrite Rmin_left, Rmax_right by lra. cbn [used_paper]. intros H. specialize (H 1%nat). rewrite map_length, linspace_length in H. specialize (H ltac:(simpl; lia)).
  rewrite (nth_map_lt _ _ _ 0), linspace_nth in H by (rewrite ?linspace_length; simpl; lia). cbn [forward inverse] in H.
  assert (forall y, 0 < y < 1 -> inside (DistModel.Beta 2 1) y) as I21 by (intros y Hy; unfold inside; simpl; lra).
  rewrite (ppf_of_cdf (DistModel.Beta 2 1) (1 / 4) (1 / 16)) in H by (try (apply I21; lra); try (simpl; lra); rewrite cdf_beta_2_1 by lra; field).
  rewrite (ppf_of_cdf (DistModel.Beta 2 1) (3 / 4) (9 / 16)) in H by (try (apply I21; lra); try (simpl; lra); rewrite cdf_beta_2_1 by lra; field).
  replace (1 / 4 + INR 1 * ((3 / 4 - 1 / 4) / INR (Z.to_nat 3 - 1))) with (1 / 2) in H by (simpl; field).
  rewrite cdf_beta_2_1 in H by lra.
  assert (valid (DistModel.Beta 1 2)) as V by (simpl; lra). pose proof (all_facts _ V) as F.
  assert (forall q, 0 < q < 1 -> 0 < 1 - ppf (DistModel.Beta 1 2) q < 1 /\ (1 - ppf (DistModel.Beta 1 2) q) ^ 2 = 1 - q) as Q.
  { intros q Hq. destruct (F_ppf _ F q Hq) as [I1 I2]. assert (0 < ppf (DistModel.Beta 1 2) q < 1) as J by exact I1. rewrite cdf_beta_1_2 in I2 by exact J. split; lra. }
  destruct (Q (1 / 16) ltac:(lra)) as [A1 A2]. destruct (Q (9 / 16) ltac:(lra)) as [B1 B2]. destruct (Q ((1 / 2) ^ 2) ltac:(lra)) as [C1 C2].
  set (u := 1 - ppf (DistModel.Beta 1 2) (1 / 16)) in *. set (v := 1 - ppf (DistModel.Beta 1 2) (9 / 16)) in *. set (w := 1 - ppf (DistModel.Beta 1 2) ((1 / 2) ^ 2)) in *.
  assert (2 * w = u + v) as E. { unfold u, v, w. simpl in H. simpl. lra. }
  assert (u * v = 13 / 16). { assert ((2 * w) ^ 2 = (u + v) ^ 2) as E2 by now rewrite E. lra. }
  assert ((u * v) ^ 2 = 105 / 256). { replace ((u * v) ^ 2) with (u ^ 2 * v ^ 2) by ring. rewrite A2, B2. field. }
  rewrite H0 in H1. lra.
Qed.

(** ** Straight lines *)
Lemma line_from_inverse p F r : valid_paper p -> on_paper p r -> F = inverse p r -> forward p F = r.
Proof. intros Hv Hr ->. now apply forward_inverse. Qed.
Definition line_slope (d : dist) : R :=
  match d with Weibull _ b _ | Loglogistic _ b _ => b | Normal _ s | Gumbel _ s | Lognormal _ s _ => 1 / s | Exponential l _ => l | Gamma a _ _ => 1 / a | DistModel.Beta _ _ => 1 end.
Definition line_intercept (d : dist) : R :=
  match d with Weibull a b _ | Loglogistic a b _ => - b * ln a | Normal m s | Gumbel m s | Lognormal m s _ => - m / s | Exponential l g => - l * g | Gamma a _ g => - g / a | DistModel.Beta _ _ => 0 end.
Lemma straight_line d x : valid d -> inside d x -> 0 < line_slope d /\ forward (own_paper d) (cdf d x) = line_slope d * x_axis d x + line_intercept d.
Proof.
  intros Vd Hx. destruct d as [a b g|m s|m s g|l g|a b g|a b|a b g|m s]; simpl in Vd; unfold inside in Hx; simpl in Hx; cbn [own_paper line_slope line_intercept x_axis].
  - split; [lra|]. apply line_from_inverse; [exact I|exact I|]. cbn [cdf inverse]. assert (0 < (x - g) / a) by (apply Rdiv_lt_0_compat; lra). rewrite on_pos_pos by assumption.
    unfold Rpower. rewrite ln_div by lra. do 4 f_equal. ring.
  - split; [apply Rdiv_lt_0_compat; lra|]. apply line_from_inverse; [exact I|exact I|]. cbn [cdf inverse]. f_equal. field. lra.
  - split; [apply Rdiv_lt_0_compat; lra|]. apply line_from_inverse; [exact I|exact I|]. cbn [cdf inverse]. assert (0 < (x - g) / exp m) by (apply Rdiv_lt_0_compat; [lra|apply exp_pos]). rewrite on_pos_pos by assumption.
    rewrite ln_div by (try apply exp_pos; lra). rewrite ln_exp. f_equal. field. lra.
  - split; [lra|]. assert (0 < l * x + - l * g) by nra. apply line_from_inverse; [exact I|exact H|]. cbn [cdf inverse]. assert (0 < (x - g) / (1 / l)) by (apply Rdiv_lt_0_compat; [lra|apply Rdiv_lt_0_compat; lra]).
    rewrite on_pos_pos by assumption. rewrite on_pos_pos by lra. do 3 f_equal. field. lra.
  - split; [apply Rdiv_lt_0_compat; lra|]. assert (1 / a * x + - g / a = (x - g) / a) as E by (field; lra). assert (0 < (x - g) / a) by (apply Rdiv_lt_0_compat; lra). rewrite E.
    apply line_from_inverse; [simpl; lra|exact H|]. cbn [cdf inverse]. rewrite !on_pos_pos by lra. do 2 f_equal. field. lra.
  - split; [lra|]. apply line_from_inverse; [simpl; lra|simpl; lra|]. cbn [cdf inverse]. f_equal. ring.
  - split; [lra|]. apply line_from_inverse; [exact I|exact I|]. cbn [cdf inverse]. assert (0 < (x - g) / a) by (apply Rdiv_lt_0_compat; lra). rewrite on_pos_pos by assumption.
    unfold Rpower. rewrite ln_div by lra. replace (- b * (ln (x - g) - ln a)) with (- (b * ln (x - g) + - b * ln a)) by ring. rewrite exp_Ropp.
    pose proof (exp_pos (b * ln (x - g) + - b * ln a)). field. lra.
  - split; [apply Rdiv_lt_0_compat; lra|]. apply line_from_inverse; [exact I|exact I|]. cbn [cdf inverse]. do 4 f_equal. field. lra.
Qed.

(** ** Axis limits *)
Lemma log10_mono x y : 0 < x -> x <= y -> log10 x <= log10 y.
Proof. intros. unfold log10, Rdiv. apply Rmult_le_compat_r; [left; apply Rinv_0_lt_compat; rewrite <- ln_1; apply ln_increasing; lra|]. destruct H0 as [L| ->]; [left; now apply ln_increasing|lra]. Qed.
Lemma ln_10_pos : 0 < ln 10.
Proof. rewrite <- ln_1. apply ln_increasing; lra. Qed.
Lemma pow_log10 x : 0 < x -> Rpower 10 (log10 x) = x.
Proof. intros H. pose proof ln_10_pos. unfold Rpower, log10. replace (ln x / ln 10 * ln 10) with (ln x) by (field; lra). now apply exp_ln. Qed.
Lemma pow10_mono x y : x <= y -> Rpower 10 x <= Rpower 10 y.
Proof. intros H. apply Rle_Rpower; lra. Qed.
Lemma pow10_lt x y : x < y -> Rpower 10 x < Rpower 10 y.
Proof. intros H. apply Rpower_lt; lra. Qed.
Lemma x_limits_ok d s lo hi : 0 < s -> lo <= hi -> (log_x d = true -> 0 < lo) -> (signed_x d = false -> 0 <= lo) -> (log_x d = false -> lo < hi \/ 0 < hi) ->
  exists l u, x_limits d s lo hi = Ok (l, u) /\ l < u /\ l <= lo /\ hi <= u.
Proof.
  intros Hs Hle Hlog Hsg Hone. unfold x_limits. destruct (log_x d) eqn:E.
  - specialize (Hlog eq_refl). unfold Rleb at 1. destruct (Rle_dec lo 0); [lra|]. set (D := log10 hi - log10 lo). pose proof (log10_mono lo hi Hlog Hle) as HD.
    assert (0 <= D * s) by (apply Rmult_le_pos; unfold D; lra). set (l := Rpower 10 (log10 lo - D * s)). set (u := Rpower 10 (log10 hi + D * s)).
    assert (l <= lo) as Hl. { rewrite <- (pow_log10 lo) by lra. apply pow10_mono. lra. }
    assert (hi <= u) as Hu. { rewrite <- (pow_log10 hi) at 1 by lra. apply pow10_mono. lra. }
    assert (forall t, Rltb' (Rpower 10 t) 0 = false) as NN. { intros t. destruct (Rltb' (Rpower 10 t) 0) eqn:F; [|reflexivity]. apply Rltb'_true in F. pose proof (Rpower_gt_0 10 t). lra. }
    destruct (Req_EM_T l u) as [Q|Q]; cbn [bind fst snd].
    + rewrite NN. cbn [andb]. assert (0 < l) by apply Rpower_gt_0. assert (0 < u) by apply Rpower_gt_0. exists (Rpower 10 (log10 l - 10 * s)), (Rpower 10 (log10 u + 10 * s)). split; [reflexivity|].
      pose proof (pow10_lt (log10 l - 10 * s) (log10 l) ltac:(lra)) as P1. pose proof (pow10_lt (log10 u) (log10 u + 10 * s) ltac:(lra)) as P2. rewrite pow_log10 in P1, P2 by assumption. lra.
    + unfold l at 1. rewrite NN. cbn [andb]. exists l, u. split; [reflexivity|]. lra.
  - clear Hlog. set (D := hi - lo). assert (0 <= D * s) by (apply Rmult_le_pos; unfold D; lra). destruct (Req_EM_T (lo - D * s) (hi + D * s)) as [Q|Q]; cbn [bind fst snd].
    + assert (hi = lo) by lra. subst hi. destruct (Hone eq_refl); [lra|]. replace D with 0 by (unfold D; ring). assert (Rltb' 0 0 = false) as -> by (destruct (Rltb' 0 0) eqn:F; [apply Rltb'_true in F; lra|reflexivity]). cbn [andb].
      eexists _, _. split; [reflexivity|]. lra.
    + destruct (Rltb' (lo - D * s) 0) eqn:F; cbn [andb].
      * destruct (signed_x d) eqn:G; cbn [negb]; [eexists _, _; split; [reflexivity|]; unfold D in *; nra|].
        eexists _, _. split; [reflexivity|]. specialize (Hsg eq_refl). apply Rltb'_true in F. unfold D in *. nra.
      * eexists _, _. split; [reflexivity|]. unfold D in *. nra.
Qed.
Lemma y_limits_ok d s lo hi : valid_paper (y_paper d) -> 0 < s < 1 -> 0 < lo -> lo <= hi -> hi < 1 -> (lo < hi \/ s / (1 + s) <= lo) ->
  let '(l, u) := y_limits d s lo hi in 0 < l /\ l < u /\ u < 1 /\ l <= lo /\ hi <= u.
Proof.
  intros Hv Hs H1 H2 H3 Hone. unfold y_limits. set (p := y_paper d) in *. cbv zeta. set (A := forward p lo). set (B := forward p hi).
  destruct (inverse_forward p lo Hv ltac:(lra)) as [PA EA]. destruct (inverse_forward p hi Hv ltac:(lra)) as [PB EB]. fold A in PA, EA. fold B in PB, EB.
  assert (A <= B) as HAB. { destruct H2 as [L|E]; [left; now apply forward_strict|unfold A, B; rewrite E; lra]. }
  assert (0 <= (B - A) * s) by (apply Rmult_le_pos; lra).
  set (l := inverse p (A - (B - A) * s)). set (u := inverse p (B + (B - A) * s)).
  assert (l <= lo) as Hl by (rewrite <- EA; apply inverse_incr; [exact Hv|lra]).
  assert (hi <= u) as Hu by (rewrite <- EB at 1; apply inverse_incr; [exact Hv|lra]).
  pose proof (inverse_range p (A - (B - A) * s) Hv) as Rl. pose proof (inverse_range p (B + (B - A) * s) Hv) as Ru. fold l in Rl. fold u in Ru.
  assert (Rltb' 0 lo = true) as T1 by (unfold Rltb'; destruct (Rlt_dec 0 lo); [reflexivity|lra]).
  assert (Rltb' hi 1 = true) as T2 by (unfold Rltb'; destruct (Rlt_dec hi 1); [reflexivity|lra]).
  assert (lo = hi -> u = l) as EQ. { intros E. unfold u, l. assert (B = A) as E2 by (unfold A, B; now rewrite E). rewrite E2. f_equal. ring. }
  rewrite T1, T2. destruct (Req_EM_T u l) as [Q|Q].
  - assert (lo = hi) as E by lra. destruct Hone as [L|L]; [lra|]. assert (l = lo) as E1 by lra. assert (u = lo) as E2 by lra. rewrite E1, E2, <- E.
    rewrite (Rmin_right (1 - lo) (lo - 1)) by lra. assert (s <= lo * (1 + s)). { apply Rmult_le_compat_r with (r := 1 + s) in L; [|lra]. unfold Rdiv in L. rewrite Rmult_assoc, Rinv_l in L by lra. lra. }
    destruct (Req_EM_T (lo + s * (lo - 1)) 0) as [W|W]; destruct (Req_EM_T (lo - s * (lo - 1)) 1) as [W'|W']; try nra.
  - destruct (Req_EM_T l 0) as [W|W]; destruct (Req_EM_T u 1) as [W'|W']; try lra.
Qed.
