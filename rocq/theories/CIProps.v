(** Property theorems about confidence limits and confidence bounds: C66, C67, C70, C71, C96. *)
From Coquelicot Require Import Coquelicot.
From Coq Require Import String.
From Coq Require Import List Arith Reals Lra Lia Bool.
From Verif Require Import Base RealFacts Gauss Ext RList ConvertModel RepairModel RepairProofs DistModel DistSpec DistProofs DistProofs2 PoFProofs PoFProofs2
  CombProofs RegProofs SelModel CIModel CISpec CIProofs CIProofs2.
Import ListNotations.
Open Scope R_scope.

Lemma Ok_inj {A} (x y : A) : Ok x = Ok y -> x = y.
Proof. intros H. now injection H. Qed.

(** * C66: parameter confidence limits *)

(** The multiplier has two-sided normal coverage CI. *)
Theorem C66_multiplier : forall CI, 0 < CI < 1 -> 0 < Z_of CI /\ Phi (Z_of CI) - Phi (- Z_of CI) = CI.
Proof. intros CI H. split; [now apply Z_nonneg|now apply Z_cover]. Qed.
Print Assumptions C66_multiplier.

(** Every row of every fitter's table: lower <= estimate <= upper; the lower limit of a positive
    parameter is positive; the limits of a proportion are proportions. Missing from the full
    statement: the mu of the Gamma fitters when it is exactly 0 ([in_range] excludes it), and a
    Hessian that cannot be inverted after least squares (the fitter raises); see C66_refuted. *)
Theorem C66_bracket_partial : forall d forced CI ests diag opt rows i r k,
  0 < CI < 1 -> Forall2 in_range (parameter_ranges d) ests ->
  fit_limits d forced CI ests diag opt = Ok rows -> nth_error rows i = Some r -> nth_error (parameter_ranges d) i = Some k ->
  nth_error ests i = Some (p_est r) /\ brackets r /\
  (k = Positive -> exists l, p_lower r = Fin l /\ 0 < l) /\
  (k = Proportion -> exists l u, p_lower r = Fin l /\ p_upper r = Fin u /\ 0 <= l /\ u <= 1).
Proof.
  intros d forced CI ests diag opt rows i r k HC HF0 H Hn Hr. pose proof (ranges_kinds d forced ests HF0) as HF.
  destruct (fit_limits_row _ _ _ _ _ _ _ _ _ HC HF H Hn) as (k' & e & s & z & Hk & He & Hs & Hz & Hok & E0 & E1 & E2 & _ & _ & _).
  pose proof (Forall2_nth1 _ _ _ _ _ HF0 Hr) as (e' & He' & Hin). rewrite He in He'. injection He' as <-.
  pose proof (kind_range d forced i k k' Hr Hk) as KR.
  rewrite E0. split; [exact He|]. split; [|split].
  - destruct (limits_bracket k' z e s Hok Hs Hz) as (l & u & F1 & F2 & F3). rewrite limits_est in F3. exists l, u. rewrite E0, E1, E2. auto.
  - intros ->. destruct (held_fixed d forced i); subst k'; rewrite E1; simpl; simpl in Hin; (eexists; split; [reflexivity|]).
    + exact Hin.
    + apply Rmult_lt_0_compat; [exact Hin|apply exp_pos].
  - intros ->. destruct (held_fixed d forced i); subst k'; rewrite E1, E2; simpl; simpl in Hin; [do 2 eexists; repeat (split; [reflexivity|]); lra|].
    destruct (Req_EM_T e 1); [|destruct (Req_EM_T e 0)]; do 2 eexists; (split; [reflexivity|]); (split; [reflexivity|]).
    + lra.
    + lra.
    + pose proof (logit_range e (z * s / (e * (1 - e))) ltac:(lra)). pose proof (logit_range e (- z * s / (e * (1 - e))) ltac:(lra)). lra.
Qed.
Print Assumptions C66_bracket_partial.

(** A larger confidence level: every interval contains the smaller one. *)
Theorem C66_widens : forall d forced CI CI' ests diag opt rows rows' i r r',
  0 < CI -> CI <= CI' -> CI' < 1 -> Forall2 in_range (parameter_ranges d) ests ->
  fit_limits d forced CI ests diag opt = Ok rows -> fit_limits d forced CI' ests diag opt = Ok rows' ->
  nth_error rows i = Some r -> nth_error rows' i = Some r' -> inside_of r r'.
Proof.
  intros d forced CI CI' ests diag opt rows rows' i r r' H1 H2 H3 HF0 HA HB Hr Hr'. pose proof (ranges_kinds d forced ests HF0) as HF.
  destruct (fit_limits_row _ _ _ _ _ _ _ _ _ (conj H1 (Rle_lt_trans _ _ _ H2 H3)) HF HA Hr) as (k & e & s & z & Hk & He & Hs & Hz & Hok & E0 & E1 & E2 & Z1 & Z2 & D1).
  destruct (fit_limits_row _ _ _ _ _ _ _ _ _ (conj (Rlt_le_trans _ _ _ H1 H2) H3) HF HB Hr') as (k' & e' & s' & z' & Hk' & He' & Hs' & Hz' & Hok' & E0' & E1' & E2' & Z1' & Z2' & D1').
  rewrite Hk in Hk'. injection Hk' as <-. rewrite He in He'. injection He' as <-. pose proof (Z_mono CI CI' H1 H2 H3) as HZ.
  assert (z <= z' /\ (diag = None \/ s = s')) as [Hzz Hss].
  { destruct diag as [c|].
    - rewrite (Z1 ltac:(discriminate)), (Z1' ltac:(discriminate)). split; [exact HZ|right]. destruct (D1 c eq_refl) as (v & Hv & ->). destruct (D1' c eq_refl) as (v' & Hv' & ->).
      rewrite Hv in Hv'. now injection Hv' as <-.
    - rewrite (Z2 eq_refl), (Z2' eq_refl). split; [lra|now left]. }
  assert (inside_of (param_limits k z e s) (param_limits k z' e s')) as (_ & l & u & l' & u' & F1 & F2 & F3 & F4 & F5).
  { destruct Hss as [Hd| ->].
    - rewrite (Z2 Hd), (Z2' Hd). destruct (limits_at_0 k e s Hok) as (A0 & A1 & A2). destruct (limits_at_0 k e s' Hok) as (B0 & B1 & B2).
      split; [now rewrite A0, B0|]. exists e, e, e, e. repeat (split; [assumption|]). lra.
    - apply limits_nested; [exact Hok|exact Hs'|lra]. }
  split; [congruence|]. exists l, u, l', u'. repeat (split; [congruence|]). exact F5.
Qed.
Print Assumptions C66_widens.

(** When the Hessian is inverted, the standard error is the square root of the variance on its
    diagonal and the limits are the normal-theory limits on the scale of the parameter: the
    logarithm for positive parameters, the parameter itself, the logit for proportions. A
    parameter that was not estimated has no standard error and equal limits. *)
Theorem C66_scales : forall d forced CI ests c opt rows i r k v,
  0 < CI < 1 -> Forall2 in_range (parameter_ranges d) ests ->
  fit_limits d forced CI ests (Some c) opt = Ok rows -> nth_error rows i = Some r ->
  nth_error (parameter_ranges d) i = Some k -> nth_error c i = Some v ->
  if held_fixed d forced i then p_se r = 0 /\ p_lower r = Fin (p_est r) /\ p_upper r = Fin (p_est r)
  else p_se r = sqrt (Rabs v) /\
    exists l u, p_lower r = Fin l /\ p_upper r = Fin u /\ normal_limits k (Z_of CI) (p_est r) (p_se r) l u.
Proof.
  intros d forced CI ests c opt rows i r k v HC HF0 H Hn Hr Hv. unfold fit_limits in H. apply Ok_inj in H. subst rows.
  apply limits_of_nth in Hn. destruct Hn as (k' & e & s & Hk & He & Hs & ->). rewrite nth_error_map, Hv in Hs. injection Hs as <-.
  pose proof (Forall2_nth1 _ _ _ _ _ HF0 Hr) as (e' & He' & Hin). rewrite He in He'. injection He' as <-.
  pose proof (kind_range d forced i k k' Hr Hk) as KR. destruct (held_fixed d forced i); [subst k'; simpl; auto|].
  apply (normal_limits_ok k k' (Z_of CI) e (sqrt (Rabs v)) KR Hin).
Qed.
Print Assumptions C66_scales.

(** The row for 1/Lambda of the Exponential fitters: the reciprocals of the limits of Lambda in
    reverse order, and the standard error SE / Lambda^2 of the reciprocal. *)
Theorem C66_exponential_inverse : forall CI Lambda SE, 0 < CI < 1 -> 0 < Lambda -> 0 <= SE ->
  let r := exponential_inverse_limits (Z_of CI) Lambda SE in
  brackets r /\ p_se r = SE / Lambda ^ 2 /\
  exists l u, p_lower (param_limits PLog (Z_of CI) Lambda SE) = Fin l /\ p_upper (param_limits PLog (Z_of CI) Lambda SE) = Fin u /\ 0 < l /\
    p_lower r = Fin (/ u) /\ p_upper r = Fin (/ l).
Proof.
  intros CI l SE HC Hl Hs. pose proof (Z_nonneg CI HC) as HZ. set (Z := Z_of CI) in *. destruct (lambda_order l SE Z Hl Hs ltac:(lra)) as (P & A & B).
  simpl. split; [|split].
  - do 2 eexists. split; [reflexivity|]. split; [reflexivity|]. unfold exponential_inverse_limits. cbn [p_est]. unfold Rdiv. rewrite !Rmult_1_l.
    split; apply Rinv_le_contravar; lra.
  - pose proof (exp_pos (Z * (SE / l))). rewrite ln_div by nra. rewrite ln_mult, ln_exp by lra. assert (0 <= SE / l ^ 2). { apply Rdiv_le_0_compat; [exact Hs|nra]. }
    replace (1 / l * (ln l - (ln l + Z * (SE / l))) / Z) with (- (SE / l ^ 2)) by (field; lra). rewrite Rabs_Ropp. now apply Rabs_right, Rle_ge.
  - do 2 eexists. split; [reflexivity|]. split; [reflexivity|]. split; [exact P|]. split; f_equal; apply Rmult_1_l.
Qed.
Print Assumptions C66_exponential_inverse.

(** The mu of a Gamma fit whose alpha is exactly 1 has no upper limit (nan), and a fit by least
    squares whose Hessian cannot be inverted raises TypeError while composing its warning. *)
Theorem C66_refuted :
  (exists d forced CI ests diag opt rows r, 0 < CI < 1 /\ fit_limits d forced CI ests diag opt = Ok rows /\ In r rows /\
     (match d with D_Gamma_2P => nth 2 ests 0 = ln (nth 0 ests 0) /\ 0 < nth 0 ests 0 /\ 0 < nth 1 ests 0 | _ => False end) /\ p_upper r = NaN /\ ~ brackets r) /\
  (forall d forced CI ests, fit_limits d forced CI ests None None = Err TypeError).
Proof.
  split; [|reflexivity]. exists D_Gamma_2P, false, (1 / 2), [1; 2; 0], (Some [1; 1; 1]), None. eexists. exists (param_limits PLogMu (Z_of (1 / 2)) 0 (sqrt (Rabs 1))).
  split; [lra|]. split; [reflexivity|]. split; [simpl; auto|]. split; [simpl; rewrite ln_1; lra|]. simpl. destruct (Req_EM_T 0 0); [|contradiction]. split; [reflexivity|].
  intros (l & u & _ & H & _). discriminate.
Qed.
Print Assumptions C66_refuted.

Example C66_nonvacuous : exists rows r, 0 < 19 / 20 < 1 /\ Forall2 in_range (parameter_ranges D_Weibull_DSZI) [100; 2; 1 / 2; 0] /\
  fit_limits D_Weibull_DSZI false (19 / 20) [100; 2; 1 / 2; 0] (Some [4; 1; 1 / 4; 0]) None = Ok rows /\ nth_error rows 2 = Some r.
Proof.
  do 2 eexists. split; [lra|]. split; [repeat (apply Forall2_cons; [simpl; lra|]); apply Forall2_nil|]. split; [reflexivity|reflexivity].
Qed.

(** * C67: confidence bounds bracket the curve *)
Lemma needs_Some {A} c (k : covs -> result A) : needs (Some c) k = k c.
Proof. reflexivity. Qed.
Lemma extract_exp_y gj l g s f t CI ys : extract_CI gj (Exponential l g) s f t CI (Some ys) None =
  bind (needs s (fun c => exponential_CI l g (se_a c) (Z_of CI) (inl (map (q_of f) ys)))) (fun r => Ok (Some r)).
Proof. reflexivity. Qed.
Lemma extract_exp_x gj l g s f t CI xs : extract_CI gj (Exponential l g) s f t CI None (Some xs) =
  bind (needs s (fun c => exponential_CI l g (se_a c) (Z_of CI) (inr xs))) (fun r => Ok (Some (pick (Exponential l g) f r))).
Proof. reflexivity. Qed.

(** Bounds on reliability, every distribution but the Exponential. *)
Theorem C67_reliability : forall gj d s f CI xs lo up i, valid d -> ~ is_exponential d -> 0 < CI < 1 ->
  extract_CI gj d s f T_reliability CI None (Some xs) = Ok (Some (lo, up)) -> (i < length xs)%nat ->
  length lo = length xs /\ length up = length xs /\ inside d (nth i xs 0) /\ nth i lo 0 <= curve d f (nth i xs 0) <= nth i up 0.
Proof.
  intros gj d s f CI xs lo up i Hv He HC H Hi.
  assert (exists c r, ci_reliability gj d c (Z_of CI) xs = Ok r /\ pick d f r = (lo, up)) as (c & [yl yu] & H1 & H2).
  { unfold extract_CI in H. destruct d; simpl in He; try contradiction; try discriminate H; apply bind_ok in H; destruct H as (r & H & Hr); destruct s as [c|]; try discriminate H; simpl in H;
      exists c, r; injection Hr as Hr; auto. }
  apply ci_reliability_ok in H1. destruct H1 as (L1 & L2 & HB). destruct (HB i Hi) as (Hb & P1 & P2).
  pose proof (rel_bracket _ _ _ _ _ _ Hv (Rlt_le _ _ (Z_nonneg CI HC)) Hb) as Hbr.
  destruct (pick_bracket d f yl yu i (sf d (nth i xs 0)) ltac:(lia) ltac:(lia) ltac:(lra) ltac:(lra) Hbr lo up H2) as (L3 & L4 & Q).
  split; [lia|]. split; [lia|]. split; [|rewrite curve_sf by exact Hv; exact Q].
  unfold rel_bounds in Hb. destruct (u_at gj d (nth i xs 0)) as [[[u da] db]|] eqn:E; [|discriminate]. now apply (u_at_sf gj d _ u da db).
Qed.
Print Assumptions C67_reliability.

(** Bounds on time: the time at which the curve takes the value y. *)
Theorem C67_time : forall gj d s f CI ys lo up i t, valid d -> (match s with Some c => 0 <= se_a c | None => True end) -> 0 < CI < 1 ->
  extract_CI gj d s f T_time CI (Some ys) None = Ok (Some (lo, up)) -> (i < length ys)%nat ->
  inside d t -> curve d f t = nth i ys 0 ->
  length lo = length ys /\ length up = length ys /\ nth i lo 0 <= t <= nth i up 0.
Proof.
  intros gj d s f CI ys lo up i t Hv Hs HC H Hi Ht Hc. pose proof (Z_nonneg CI HC) as HZ. pose proof (sf_of_curve d f t _ Hv Ht Hc) as Hq.
  destruct (is_exponential_dec d) as [(l & g & ->)|Hne].
  - simpl in Hv. rewrite extract_exp_y in H. apply bind_ok in H. destruct H as (r & H & Hr). injection Hr as ->. destruct s as [c|]; [|discriminate]. rewrite needs_Some in H.
    apply exp_ci_time in H. destruct H as [-> ->]. rewrite !map_length. split; [reflexivity|]. split; [reflexivity|]. rewrite !map_map, !(nth_map_lt _ _ _ 0) by exact Hi.
    destruct Ht as [Ht _]. simpl in Ht. rewrite (exponential_sf l g t) in Hq by lra. rewrite <- Hq, ln_exp, Ropp_involutive.
    destruct (lambda_order l (se_a c) (Z_of CI) (proj1 Hv) Hs ltac:(lra)) as (P & A & B). set (ll := l * exp (- Z_of CI * _)) in *. set (lu := l * exp (Z_of CI * _)) in *.
    split.
    + apply Rplus_le_reg_r with (- g). replace (l * (t - g) / lu + g + - g) with (l * (t - g) / lu) by ring. apply Rle_div_l; [lra|]. nra.
    + apply Rplus_le_reg_r with (- g). replace (l * (t - g) / ll + g + - g) with (l * (t - g) / ll) by ring. apply Rle_div_r; [lra|]. nra.
  - assert (exists c, ci_time gj d c (Z_of CI) (map (q_of f) ys) = Ok (lo, up)) as (c & H1).
    { unfold extract_CI in H. destruct d; try (exfalso; apply Hne; do 2 eexists; reflexivity); try discriminate H; apply bind_ok in H; destruct H as (r & H & Hr); destruct s as [c|]; try discriminate H; simpl in H;
      exists c; injection Hr as ->; auto. }
    apply ci_time_ok in H1. rewrite map_length in H1. destruct H1 as (L1 & L2 & HB). destruct (HB i Hi) as (Hb & _). rewrite (nth_map_lt _ _ _ 0) in Hb by exact Hi.
    destruct (time_bracket _ _ _ _ _ _ Hv (Rlt_le _ _ HZ) Hb) as [_ Hbr]. rewrite <- Hq, isf_sf in Hbr by assumption. simpl in Hbr. auto.
Qed.
Print Assumptions C67_time.

(** Exponential bounds on reliability: points in increasing order, or at most two of them. Missing:
    three or more points in another order, for which the bounds are wrong (C67_refuted). *)
Theorem C67_exponential_reliability_partial : forall gj l g s f t CI xs lo up i, valid (Exponential l g) ->
  (match s with Some c => 0 <= se_a c | None => True end) -> 0 < CI < 1 -> never_decreases xs \/ (length xs <= 2)%nat ->
  extract_CI gj (Exponential l g) s f t CI None (Some xs) = Ok (Some (lo, up)) -> (i < length xs)%nat ->
  length lo = length xs /\ length up = length xs /\ g < nth i xs 0 /\
  nth i lo 0 <= curve (Exponential l g) f (nth i xs 0) <= nth i up 0.
Proof.
  intros gj l g s f t CI xs lo up i Hv Hs HC Hx H Hi. pose proof (Z_nonneg CI HC) as HZ. rewrite extract_exp_x in H. apply bind_ok in H. destruct H as ([yl yu] & H & Hr).
  injection Hr as Hr. destruct s as [c|]; [|discriminate]. rewrite needs_Some in H. apply exp_ci_rel in H. destruct H as (Hg & E1 & E2).
  destruct (lambda_order l (se_a c) (Z_of CI) (proj1 Hv) Hs ltac:(lra)) as (P & A & B).
  assert (yl = map (fun x => exp (- (l * exp (- Z_of CI * (se_a c / l))) * (x - g))) xs /\ yu = map (fun x => exp (- (l * exp (Z_of CI * (se_a c / l))) * (x - g))) xs) as [-> ->].
  { rewrite E1, E2. destruct (Nat.ltb_spec 2 (length xs)) as [L|L]; [|auto]. destruct Hx as [Hx|Hx]; [|lia]. split; apply no_reverse_decreasing, exp_decreasing; try exact Hx; lra. }
  clear E1 E2. destruct (Hg _ (nth_In xs 0 Hi)) as [Hgi|C]; [|lra].
  set (ll := l * exp (- Z_of CI * _)) in *. set (lu := l * exp (Z_of CI * _)) in *.
  assert (low (Exponential l g) (nth i (map (fun x => exp (- ll * (x - g))) xs) 0, nth i (map (fun x => exp (- lu * (x - g))) xs) 0) <= sf (Exponential l g) (nth i xs 0)
          <= high (Exponential l g) (nth i (map (fun x => exp (- ll * (x - g))) xs) 0, nth i (map (fun x => exp (- lu * (x - g))) xs) 0)) as Hb.
  { unfold low, high. simpl swapped. cbv iota. cbn [fst snd]. rewrite !(nth_map_lt _ _ _ 0) by exact Hi. rewrite exponential_sf by (simpl in Hv; lra). split; apply exp_mono; nra. }
  set (yl := map (fun x => exp (- ll * (x - g))) xs) in *. set (yu := map (fun x => exp (- lu * (x - g))) xs) in *.
  assert (length yl = length xs /\ length yu = length xs) as [L3 L4] by (unfold yl, yu; now rewrite !map_length).
  assert (0 < nth i yl 0 /\ 0 < nth i yu 0) as [P3 P4]. { unfold yl, yu. rewrite !(nth_map_lt _ _ _ 0) by exact Hi. split; apply exp_pos. }
  destruct (pick_bracket (Exponential l g) f yl yu i (sf (Exponential l g) (nth i xs 0)) ltac:(lia) ltac:(lia) P3 P4 Hb lo up Hr) as (L1 & L2 & Q).
  split; [lia|]. split; [lia|]. split; [exact Hgi|]. rewrite curve_sf by exact Hv. exact Q.
Qed.
Print Assumptions C67_exponential_reliability_partial.

(** More confidence, wider bounds. *)
Theorem C67_widens : forall gj d s f CI CI' xs lo up lo' up' i, valid d -> ~ is_exponential d -> 0 < CI -> CI <= CI' -> CI' < 1 -> (i < length xs)%nat ->
  (extract_CI gj d s f T_reliability CI None (Some xs) = Ok (Some (lo, up)) -> extract_CI gj d s f T_reliability CI' None (Some xs) = Ok (Some (lo', up')) ->
   nth i lo' 0 <= nth i lo 0 /\ nth i up 0 <= nth i up' 0) /\
  (extract_CI gj d s f T_time CI (Some xs) None = Ok (Some (lo, up)) -> extract_CI gj d s f T_time CI' (Some xs) None = Ok (Some (lo', up')) ->
   nth i lo' 0 <= nth i lo 0 /\ nth i up 0 <= nth i up' 0).
Proof.
  intros gj d s f CI CI' xs lo up lo' up' i Hv He H1 H2 H3 Hi. pose proof (Z_nonneg CI ltac:(lra)) as HZ. pose proof (Z_mono CI CI' H1 H2 H3) as HZZ. split; intros HA HB.
  - assert (exists c r r', ci_reliability gj d c (Z_of CI) xs = Ok r /\ pick d f r = (lo, up) /\ ci_reliability gj d c (Z_of CI') xs = Ok r' /\ pick d f r' = (lo', up'))
      as (c & [yl yu] & [yl' yu'] & E1 & E2 & E3 & E4).
    { unfold extract_CI in HA, HB. destruct d; simpl in He; try contradiction; try discriminate HA; apply bind_ok in HA; destruct HA as (r & HA & Hr); apply bind_ok in HB; destruct HB as (r' & HB & Hr');
        destruct s as [c|]; try discriminate HA; simpl in HA, HB; exists c, r, r'; injection Hr as Hr; injection Hr' as Hr'; auto. }
    apply ci_reliability_ok in E1. destruct E1 as (L1 & L2 & B). destruct (B i Hi) as (Hb & P1 & P2).
    apply ci_reliability_ok in E3. destruct E3 as (L1' & L2' & B'). destruct (B' i Hi) as (Hb' & P1' & P2').
    destruct (rel_nested gj d c (Z_of CI) (Z_of CI') _ _ Hv ltac:(lra) Hb) as (p & Ep & N1 & N2). rewrite Hb' in Ep. injection Ep as <-.
    pose proof (rel_bracket _ _ _ _ _ _ Hv (Rlt_le _ _ HZ) Hb) as Q. unfold low, high in *. cbn [fst snd] in *.
    replace (pick d) with (if swapped d then pick_swapped else pick_plain) in E2, E4 by (destruct d; reflexivity).
    destruct (swapped d), f; cbn [pick_swapped pick_plain fst snd] in E2, E4; injection E2 as <- <-; injection E4 as <- <-;
      rewrite ?(nth_map_lt _ _ _ 0) by lia; try lra.
    + pose proof (ln_le _ _ (proj1 P2') N1). pose proof (ln_le _ _ (proj1 P1) N2). lra.
    + pose proof (ln_le _ _ (proj1 P1') N1). pose proof (ln_le _ _ (proj1 P2) N2). lra.
  - assert (exists c, ci_time gj d c (Z_of CI) (map (q_of f) xs) = Ok (lo, up) /\ ci_time gj d c (Z_of CI') (map (q_of f) xs) = Ok (lo', up')) as (c & E1 & E2).
    { unfold extract_CI in HA, HB. destruct d; simpl in He; try contradiction; try discriminate HA; apply bind_ok in HA; destruct HA as (r & HA & Hr); apply bind_ok in HB; destruct HB as (r' & HB & Hr');
        destruct s as [c|]; try discriminate HA; simpl in HA, HB; exists c; injection Hr as ->; injection Hr' as ->; auto. }
    apply ci_time_ok in E1. rewrite map_length in E1. destruct E1 as (L1 & L2 & B). destruct (B i Hi) as (Hb & _).
    apply ci_time_ok in E2. rewrite map_length in E2. destruct E2 as (L1' & L2' & B'). destruct (B' i Hi) as (Hb' & _).
    destruct (time_nested gj d c (Z_of CI) (Z_of CI') _ _ ltac:(lra) Hb) as (p & Ep & N1 & N2). rewrite Hb' in Ep. injection Ep as <-. simpl in *. auto.
Qed.
Print Assumptions C67_widens.

(** The variance is the delta-method variance: u is the link function of the reliability, v the time on
    its scale, and the coefficients are their partial derivatives (for Gamma they are computed
    numerically and are an oracle); it is not negative for a covariance matrix. *)
Theorem C67_delta_method : forall gj d, valid d -> two_parameter_link d ->
  (forall x u da db, u_at gj d x = Some (u, da, db) -> u = link d (sf d x) /\
     is_derive (fun a => link d (sf (with_a d a) x)) (par_a d) da /\ is_derive (fun b => link d (sf (with_b d b) x)) (par_b d) db) /\
  (forall q v da db, v_at gj d q = Some (v, da, db) -> v = time_scale d (isf d q) /\
     is_derive (fun a => time_scale d (isf (with_a d a) q)) (par_a d) da /\ is_derive (fun b => time_scale d (isf (with_b d b) q)) (par_b d) db) /\
  (forall s da db, proper_cov s -> 0 <= var_of s da db).
Proof.
  intros gj d Hv Hl. split; [|split].
  - intros x u da db E. split; [|split].
    + destruct (u_at_sf gj d x u da db Hv E) as [-> _]. symmetry. now apply link_unlink.
    + now apply (u_grad_a gj d x u da db).
    + now apply (u_grad_b gj d x u da db).
  - intros q v da db E. split; [|now apply (v_grad gj d q v da db)]. destruct (v_at_isf gj d q v da db Hv E) as [_ ->]. symmetry. apply time_scale_untime.
  - intros s da db. apply var_nonneg.
Qed.
Print Assumptions C67_delta_method.

(** Both arguments, no standard errors, and the unknown distribution. *)
Theorem C67_errors : forall gj d s f t CI ys xs,
  extract_CI gj d s f t CI (Some ys) (Some xs) = Err ValueError /\
  (match d with DistModel.Beta _ _ => True | _ =>
     extract_CI gj d None f T_time CI (Some ys) None = Err TypeError /\ extract_CI gj d None f T_reliability CI None (Some xs) = Err TypeError end) /\
  (~ is_exponential d -> extract_CI gj d s f T_time CI None (Some xs) = Ok None /\ extract_CI gj d s f T_reliability CI (Some ys) None = Ok None).
Proof.
  intros gj d s f t CI ys xs. split; [|split].
  - reflexivity.
  - destruct d; try exact I; split; reflexivity.
  - intros H. destruct d; simpl in H; try (exfalso; exact (H I)); split; reflexivity.
Qed.
Print Assumptions C67_errors.

(** A concrete covariance and confidence level with Z = 1. *)
Lemma Z_of_Phi z : 0 < z -> 0 < Phi z - Phi (- z) < 1 /\ Z_of (Phi z - Phi (- z)) = z.
Proof.
  intros Hz. pose proof (Phi_increasing (- z) z ltac:(lra)). pose proof (Phi_lt_1 z). pose proof (Phi_gt_0 (- z)). split; [lra|].
  unfold Z_of. rewrite Phi_sym in *. replace ((1 - (Phi z - (1 - Phi z))) / 2) with (Phi (- z)) by (rewrite Phi_sym; field). rewrite norm_ppf_Phi. ring.
Qed.
Lemma tol_small n : (n <= 50)%nat -> / 10 ^ 50 <= / 10 ^ n.
Proof. intros H. apply Rinv_le_contravar; [apply pow_lt; lra|]. apply Rle_pow; [lra|exact H]. Qed.
(** Rows that are all legal are all returned. *)
Lemma clean_legal pt rows out xg qg : Forall2 (legal_row pt) rows out ->
  clean_CI_arrays (map col1 rows) (map col2 rows) (map col3 rows) (map col4 rows) pt xg qg = Ok (map q_xl out, map q_xu out, map q_yl out, map q_yu out).
Proof.
  intros H. rewrite (clean_rows _ _ _ _ _ _ _ _ (keep_finite_rows rows)). cbv zeta. rewrite (legal_rows_fun _ _ _ (filter_legal pt rows) out (legal_rows_all _ _ _ H)).
  rewrite !map_length. assert (length out = length rows) as E by (clear -H; induction H; simpl; congruence). unfold quad in *. rewrite E, Nat.eqb_refl. reflexivity.
Qed.
Lemma clean_illegal pt rows xg qg : xg || qg = true -> Exists (fun r => forall v, ~ legal_row pt r v) rows ->
  clean_CI_arrays (map col1 rows) (map col2 rows) (map col3 rows) (map col4 rows) pt xg qg = Err ValueError.
Proof.
  intros Hg HE. rewrite (clean_rows _ _ _ _ _ _ _ _ (keep_finite_rows rows)). cbv zeta. rewrite !map_length.
  pose proof (legal_rows_length _ _ _ (filter_legal pt rows)) as (_ & _ & HL). specialize (HL HE). set (out := filter _ _) in *.
  unfold quad in *. destruct (Nat.eqb_spec (length out) (length rows)); [lia|]. cbn [negb andb]. destruct xg; [reflexivity|]. destruct qg; [reflexivity|discriminate].
Qed.

(** The Exponential bounds on reliability at three points the user asks for out of order: the
    upper bound on the SF at x = 2 is below the SF. *)
Theorem C67_refuted : exists gj s CI xs lo up i, 0 < CI < 1 /\ 0 < se_a s /\ valid (Exponential 1 0) /\ (i < length xs)%nat /\
  extract_CI gj (Exponential 1 0) (Some s) F_SF T_none CI None (Some xs) = Ok (Some (lo, up)) /\ nth i up 0 < sf (Exponential 1 0) (nth i xs 0).
Proof.
  destruct (Z_of_Phi 1 ltac:(lra)) as [HC HZ]. set (CI := Phi 1 - Phi (- (1))) in *.
  exists {| gj_um := fun _ => 0; gj_ub := fun _ => 0; gj_vm := fun _ => 0; gj_vb := fun _ => 0 |}, {| se_a := / 10; se_b := 0; cov_ab := 0 |}, CI, [1; 3; 2].
  cbn [extract_CI needs se_a]. unfold exponential_CI. rewrite exp_clean, HZ.
  set (ll := 1 * exp (- (1) * (/ 10 / 1))). set (lu := 1 * exp (1 * (/ 10 / 1))).
  assert (9 / 10 <= ll <= 1) as Hll.
  { unfold ll. pose proof (exp_ineq1_le (- (1) * (/ 10 / 1))). pose proof (exp_mono (- (1) * (/ 10 / 1)) 0 ltac:(lra)) as Q. rewrite exp_0 in Q. lra. }
  assert (1 <= lu <= 4 / 3) as Hlu.
  { unfold lu. pose proof (exp_mono 0 (1 * (/ 10 / 1)) ltac:(lra)) as Q. rewrite exp_0 in Q. assert (exp (1 * (/ 10 / 1)) * exp (- (1) * (/ 10 / 1)) = 1) as M.
    { rewrite <- exp_plus, <- exp_0. f_equal. lra. } unfold ll in Hll. split; [lra|]. pose proof (exp_pos (1 * (/ 10 / 1))). nra. }
  assert (forall t k, 0 < t <= 3 -> 9 / 10 <= k <= 4 / 3 -> legal_y "CDF" (exp (- k * t))) as HL.
  { intros t k Ht Hk. split.
    - apply Rle_lt_trans with (/ 10 ^ 4); [apply tol_small; lia|]. apply Rlt_le_trans with (exp (- (1) * 4)); [|apply exp_mono; nra].
      replace (exp (- (1) * 4)) with (/ (exp 1 ^ 4)). 2:{ rewrite <- (Rpower_pow 4 (exp 1)) by apply exp_pos. unfold Rpower. rewrite ln_exp, <- exp_Ropp. f_equal. simpl. lra. }
      pose proof exp_le_3. pose proof (exp_pos 1). apply Rinv_lt_contravar; [apply Rmult_lt_0_compat; apply pow_lt; lra|]. apply Rle_lt_trans with (3 ^ 4); [apply pow_incr; lra|lra].
    - intros _. rewrite <- exp_0. apply exp_increasing. nra. }
  set (xs' := map (fun x : R => x - 0) [1; 3; 2]).
  rewrite (clean_legal "CDF" _ (map (fun t => (t, t, exp (- ll * t), exp (- lu * t))) xs')).
  2:{ unfold exp_rows, xs'. fold ll lu. cbn [map]. repeat (apply Forall2_cons; [split; [reflexivity|]; split; apply HL; lra|]). apply Forall2_nil. }
  cbn [bind]. unfold pick, pick_swapped. cbn [fst snd]. eexists. eexists. exists 2%nat. split; [exact HC|]. split; [simpl; lra|]. split; [simpl; lra|]. split; [simpl; lia|].
  split; [reflexivity|]. rewrite map_map. cbn [q_yl]. rewrite !map_length.
  change (2 <? length xs')%nat with true. cbn [andb]. rewrite no_reverse_nth by (rewrite map_length; simpl; lia).
  set (ys := map _ xs'). assert (ys = [exp (- ll * (1 - 0)); exp (- ll * (3 - 0)); exp (- ll * (2 - 0))]) as Ey by reflexivity.
  assert (extreme true ys = exp (- ll * (3 - 0))) as Ee.
  { apply extreme_unique; rewrite Ey; [simpl; auto|]. intros x Hx. simpl in Hx. destruct Hx as [<-|[<-|[<-|[]]]]; apply exp_mono; nra. }
  rewrite Ee. destruct (2 <? first_index _ ys)%nat eqn:E.
  - exfalso. apply Nat.ltb_lt in E. rewrite Ey in E. simpl in E. destruct (Req_EM_T _ _) in E; [lia|]. destruct (Req_EM_T _ _) as [|N] in E; [lia|]. now apply N.
  - rewrite exponential_sf by (simpl; lra). apply exp_increasing. simpl. nra.
Qed.
Print Assumptions C67_refuted.

(** The Exponential bounds on time can be refused although nothing is wrong with the requested
    value: one failure (standard error = Lambda) and a confidence level of 99.7%. *)
Theorem C67_exponential_time_refused_refuted : exists CI, 0 < CI < 1 /\ forall gj f y, 0 < y < 1 ->
  extract_CI gj (Exponential 1 0) (Some {| se_a := 1; se_b := 0; cov_ab := 0 |}) f T_none CI (Some [y]) None = Err ValueError.
Proof.
  destruct (Z_of_Phi 3 ltac:(lra)) as [HC HZ]. exists (Phi 3 - Phi (- (3))). split; [exact HC|]. intros gj f y Hy.
  cbn [extract_CI needs se_a]. unfold exponential_CI. rewrite exp_clean, HZ, clean_illegal; [reflexivity|reflexivity|].
  apply Exists_exists. unfold exp_rows, geomspace. rewrite map_map. eexists. split.
  - apply (in_map _ _ 199%nat). apply in_seq. lia.
  - cbv beta. set (a := ppf _ (/ 10 ^ 5) - 0). set (b := ppf _ (1 - / 10 ^ 5) - 0).
    assert (0 < / 10 ^ 5 < / 2) as Hp. { split; [apply Rinv_0_lt_compat, pow_lt; lra|]. apply Rinv_lt_contravar; lra. }
    assert (0 < a) as Ha. { unfold a. simpl. pose proof (ln_increasing (1 - / 10 ^ 5) 1 ltac:(lra) ltac:(lra)) as Q. rewrite ln_1 in Q. simpl in Q. lra. }
    assert (b = 5 * ln 10) as Hb.
    { unfold b. cbn [ppf]. replace (1 - (1 - / 10 ^ 5)) with (/ 10 ^ 5) by ring. rewrite ln_Rinv by (apply pow_lt; lra). rewrite ln_pow by lra. simpl. lra. }
    assert (0 < ln 10) as HL by (rewrite <- ln_1; apply ln_increasing; lra).
    assert (a * Rpower (b / a) (INR 199 / INR (200 - 1)) = b) as ->.
    { replace (INR 199 / INR (200 - 1)) with 1. 2:{ change (200 - 1)%nat with 199%nat. field. apply not_0_INR. lia. }
      rewrite Rpower_1 by (apply Rdiv_lt_0_compat; lra). field. lra. }
    intros v Hv. destruct v as [[[v1 v2] v3] v4]. simpl in Hv. destruct Hv as (E & _ & [Hlow _]). injection E as _ _ _ <-.
    assert (10 <= exp 3) as H10.
    { replace 3 with (INR 6 * / 2) by (simpl; lra). replace (exp (INR 6 * / 2)) with (exp (/ 2) ^ 6). 2:{ rewrite <- (Rpower_pow 6 (exp (/ 2))) by apply exp_pos. unfold Rpower. now rewrite ln_exp. }
      pose proof (exp_ineq1_le (/ 2)). apply Rle_trans with ((3 / 2) ^ 6); [lra|]. apply pow_incr. lra. }
    assert (exp (- (1 * exp (3 * (1 / 1))) * b) <= / 10 ^ 50) as Q; [|lra].
    replace (/ 10 ^ 50) with (exp (- (INR 50 * ln 10))). 2:{ rewrite exp_Ropp. f_equal. rewrite <- ln_pow by lra. apply exp_ln, pow_lt. lra. }
    apply exp_mono. replace (3 * (1 / 1)) with 3 by lra. rewrite Hb. replace (INR 50) with 50 by (simpl; lra). nra.
Qed.
Print Assumptions C67_exponential_time_refused_refuted.

Definition no_jac : gamma_jac := {| gj_um := fun _ => 0; gj_ub := fun _ => 0; gj_vm := fun _ => 0; gj_vb := fun _ => 0 |}.
Lemma weibull_bounds : rel_bounds no_jac (Weibull 1 1 0) {| se_a := 1; se_b := 1; cov_ab := 0 |} 1 1 = Some (exp (- exp 1), exp (- exp (- (1)))).
Proof.
  unfold rel_bounds, u_at. rewrite log_of_pos by lra. cbn [omap obind]. unfold half_width, var_of. cbn [se_a se_b cov_ab].
  replace (1 - 0) with 1 by ring. rewrite ln_1. replace ((- (1) / 1) ^ 2 * 1 ^ 2 + (0 - 0) ^ 2 * 1 ^ 2 + 2 * (- (1) / 1) * (0 - 0) * 0) with 1 by field.
  destruct (Rlt_dec 1 0); [lra|]. rewrite sqrt_1. cbn [omap]. repeat f_equal; ring.
Qed.
Example C67_nonvacuous : exists CI lo up, 0 < CI < 1 /\ valid (Weibull 1 1 0) /\
  extract_CI no_jac (Weibull 1 1 0) (Some {| se_a := 1; se_b := 1; cov_ab := 0 |}) F_SF T_reliability CI None (Some [1; 1]) = Ok (Some (lo, up)) /\
  nth 0 lo 0 < nth 0 up 0.
Proof.
  destruct (Z_of_Phi 1 ltac:(lra)) as [HC HZ]. exists (Phi 1 - Phi (- (1))). do 2 eexists. split; [exact HC|]. split; [simpl; lra|].
  pose proof (exp_increasing (- (1)) 1 ltac:(lra)) as He. pose proof exp_le_3 as H3. pose proof (exp_pos (- (1))) as H0.
  assert (forall k, 0 < k <= 3 -> legal_y "CDF" (exp (- k))) as HL.
  { intros k Hk. split; [|intros _; rewrite <- exp_0; apply exp_increasing; lra]. apply Rle_lt_trans with (/ 10 ^ 2); [apply tol_small; lia|].
    apply Rlt_le_trans with (exp (- (3))); [|apply exp_mono; lra]. rewrite exp_Ropp. apply Rinv_lt_contravar; [apply Rmult_lt_0_compat; [apply exp_pos|lra]|].
    replace (exp 3) with (exp 1 ^ 3). 2:{ rewrite <- (Rpower_pow 3 (exp 1)) by apply exp_pos. unfold Rpower. rewrite ln_exp. f_equal. simpl. lra. }
    pose proof (exp_pos 1). apply Rle_lt_trans with (3 ^ 3); [apply pow_incr; lra|lra]. }
  split.
  - cbn [extract_CI needs]. unfold ci_reliability. rewrite HZ. cbn [map]. rewrite weibull_bounds. cbn [omap fst snd ci_gamma].
    rewrite (clean_legal "CDF" [(Some (1 - 0), Some (1 - 0), Some (exp (- exp 1)), Some (exp (- exp (- (1))))); (Some (1 - 0), Some (1 - 0), Some (exp (- exp 1)), Some (exp (- exp (- (1)))))]
      [(1 - 0, 1 - 0, exp (- exp 1), exp (- exp (- (1)))); (1 - 0, 1 - 0, exp (- exp 1), exp (- exp (- (1))))]).
    + reflexivity.
    + repeat (apply Forall2_cons; [split; [reflexivity|]; split; apply HL; lra|]). apply Forall2_nil.
  - simpl. apply exp_increasing. lra.
Qed.
Example C67_time_nonvacuous : exists CI lo up t, 0 < CI < 1 /\ valid (Weibull 1 1 0) /\
  extract_CI no_jac (Weibull 1 1 0) (Some {| se_a := 1; se_b := 0; cov_ab := 0 |}) F_SF T_time CI (Some [exp (- (1))]) None = Ok (Some (lo, up)) /\
  inside (Weibull 1 1 0) t /\ curve (Weibull 1 1 0) F_SF t = nth 0 [exp (- (1))] 0.
Proof.
  destruct (Z_of_Phi 1 ltac:(lra)) as [HC HZ]. exists (Phi 1 - Phi (- (1))).
  assert (0 < exp (- (1)) < 1) as Hq. { split; [apply exp_pos|]. apply Rlt_le_trans with (exp 0); [apply exp_increasing; lra|rewrite exp_0; lra]. }
  assert (exists a b, time_bounds no_jac (Weibull 1 1 0) {| se_a := 1; se_b := 0; cov_ab := 0 |} 1 (exp (- (1))) = Some (a, b)) as (a & b & E).
  { unfold time_bounds, v_at. destruct (Rlt_dec 0 (exp (- (1)))); [|lra]. destruct (Rlt_dec (exp (- (1))) 1); [|lra]. cbn [obind]. unfold half_width.
    pose proof (var_nonneg {| se_a := 1; se_b := 0; cov_ab := 0 |} (1 / 1) (- 1 / 1 ^ 2 * ln (- ln (exp (- (1))))) ltac:(unfold proper_cov; simpl; rewrite Rabs_R0; lra)) as V.
    destruct (Rlt_dec _ 0); [lra|]. do 2 eexists. reflexivity. }
  do 2 eexists. exists 1. split; [exact HC|]. split; [simpl; lra|].
  assert (inside (Weibull 1 1 0) 1) as Hin by (unfold inside; simpl; lra).
  assert (sf (Weibull 1 1 0) 1 = exp (- (1))) as Hsf.
  { unfold sf. rewrite on_pos_pos by lra. replace ((1 - 0) / 1) with 1 by field. rewrite Rpower_1 by lra. reflexivity. }
  split; [|split; [exact Hin|exact Hsf]].
  cbn [extract_CI needs]. unfold ci_time. rewrite HZ. cbn [map q_of].
  rewrite E. cbn [omap fst snd].
  rewrite (clean_legal "CDF" [(Some a, Some b, Some (exp (- (1))), Some (exp (- (1))))] [(a, b, exp (- (1)), exp (- (1)))]).
  - reflexivity.
  - apply Forall2_cons; [|apply Forall2_nil]. split; [reflexivity|]. assert (legal_y "CDF" (exp (- (1)))); [|split; assumption]. split; [|intros; lra].
    apply Rle_lt_trans with (/ 10 ^ 1); [apply tol_small; lia|]. rewrite exp_Ropp. pose proof exp_le_3. pose proof (exp_pos 1). apply Rinv_lt_contravar; [nra|lra].
Qed.

(** * C70: no_reverse *)

(** The array is not always monotone afterwards. *)
Theorem C70_refuted : exists x y, no_reverse (map Some x) "reliability" "CDF" = Ok (map Some y) /\ ~ never_increases y /\ ~ never_decreases y.
Proof.
  exists [3; 5; 1; 2], [3; 5; 1; 1]. split; [|split].
  - unfold no_reverse. rewrite all_finite_map. change (Ok (map Some (no_reverse_finite true [3; 5; 1; 2])) = Ok (map Some [3; 5; 1; 1])). do 2 f_equal. unfold no_reverse_finite.
    assert (rmin [3; 5; 1; 2] = 1) as ->. { unfold rmin. cbn [fold_right]. repeat (unfold Rmin; destruct (Rle_dec _ _); try lra). }
    assert (first_index 1 [3; 5; 1; 2] = 2%nat) as ->. { simpl. repeat (destruct (Req_EM_T _ _); try lra). reflexivity. }
    reflexivity.
  - intros H. specialize (H 0%nat 1%nat ltac:(simpl; lia)). simpl in H. lra.
  - intros H. specialize (H 1%nat 2%nat ltac:(simpl; lia)). simpl in H. lra.
Qed.
Print Assumptions C70_refuted.

Definition chf_time (CI_type plot_type : string) : bool := String.eqb CI_type "time" && String.eqb plot_type "CHF".
(** What is true: a curve which turns at most once (the case the function is written for) is made
    monotone; a curve which is already monotone is unchanged, and so are arrays containing nan;
    no entry is raised (or lowered) and every entry before the turning point is kept. *)
Theorem C70_partial : forall x CI_type plot_type, (2 <= length x)%nat -> exists y, no_reverse (map Some x) CI_type plot_type = Ok (map Some y) /\ length y = length x /\
  (chf_time CI_type plot_type = false ->
     (down_then_up x -> never_increases y) /\ (never_increases x -> y = x) /\ (forall i, nth i y 0 <= nth i x 0)) /\
  (chf_time CI_type plot_type = true ->
     (up_then_down x -> never_decreases y) /\ (never_decreases x -> y = x) /\ (forall i, nth i x 0 <= nth i y 0)) /\
  (forall v, In v y -> In v x).
Proof.
  intros x ct pt Hl. assert (x <> []) as Hne by (destruct x; simpl in *; [lia|discriminate]).
  unfold no_reverse. rewrite map_length. destruct (Nat.ltb_spec (length x) 2) as [C|_]; [lia|]. rewrite all_finite_map. fold (chf_time ct pt).
  exists (no_reverse_finite (negb (chf_time ct pt)) x). split; [reflexivity|]. split; [apply no_reverse_length|].
  assert (forall dec v, In v (no_reverse_finite dec x) -> In v x) as Hin by (intros; eapply no_reverse_in; eassumption).
  assert (forall dec i, (i < length x)%nat -> nth i (no_reverse_finite dec x) 0 = if (i <? first_index (extreme dec x) x)%nat then nth i x 0 else extreme dec x) as Hnth by (intros; now apply no_reverse_nth).
  assert (forall dec i, (length x <= i)%nat -> nth i (no_reverse_finite dec x) 0 = nth i x 0) as Hout.
  { intros dec i Hi. rewrite !nth_overflow; [reflexivity|exact Hi|now rewrite no_reverse_length]. }
  assert (forall dec : bool, forall i, (i < length x)%nat -> if dec then extreme dec x <= nth i x 0 else nth i x 0 <= extreme dec x) as Hbest.
  { intros dec i Hi. apply extreme_best, nth_In, Hi. }
  split; [|split; [|intros v; apply Hin]].
  - intros ->. cbn [negb]. split; [|split].
    + intros (k & Hk & HA & HB) i j Hij. rewrite no_reverse_length in Hij. rewrite !Hnth by lia.
      assert (extreme true x = nth k x 0) as Ee.
      { apply extreme_unique; [now apply nth_In|]. intros v Hv. apply (In_nth _ _ 0) in Hv. destruct Hv as (m & Hm & <-). destruct (Nat.le_ge_cases m k); [apply HA; lia|apply HB; lia]. }
      destruct (first_index_spec (extreme true x) x (extreme_in true x Hne)) as (F1 & F2 & F3).
      assert (first_index (extreme true x) x <= k)%nat. { destruct (Nat.le_gt_cases (first_index (extreme true x) x) k) as [Q|Q]; [exact Q|]. exfalso. apply (F3 k Q). now symmetry. }
      destruct (Nat.ltb_spec j (first_index (extreme true x) x)); destruct (Nat.ltb_spec i (first_index (extreme true x) x)); try lia.
      * apply HA. lia.
      * apply (Hbest true i). lia.
      * lra.
    + intros H. now apply no_reverse_decreasing.
    + intros i. destruct (Nat.le_gt_cases (length x) i) as [Q|Q]; [rewrite Hout by exact Q; lra|]. rewrite Hnth by exact Q. destruct (i <? _)%nat; [lra|now apply (Hbest true)].
  - intros ->. cbn [negb]. split; [|split].
    + intros (k & Hk & HA & HB) i j Hij. rewrite no_reverse_length in Hij. rewrite !Hnth by lia.
      assert (extreme false x = nth k x 0) as Ee.
      { apply extreme_unique; [now apply nth_In|]. intros v Hv. apply (In_nth _ _ 0) in Hv. destruct Hv as (m & Hm & <-). destruct (Nat.le_ge_cases m k); [apply HA; lia|apply HB; lia]. }
      destruct (first_index_spec (extreme false x) x (extreme_in false x Hne)) as (F1 & F2 & F3).
      assert (first_index (extreme false x) x <= k)%nat. { destruct (Nat.le_gt_cases (first_index (extreme false x) x) k) as [Q|Q]; [exact Q|]. exfalso. apply (F3 k Q). now symmetry. }
      destruct (Nat.ltb_spec j (first_index (extreme false x) x)); destruct (Nat.ltb_spec i (first_index (extreme false x) x)); try lia.
      * apply HA. lia.
      * apply (Hbest false i). lia.
      * lra.
    + intros H. now apply no_reverse_increasing.
    + intros i. destruct (Nat.le_gt_cases (length x) i) as [Q|Q]; [rewrite Hout by exact Q; lra|]. rewrite Hnth by exact Q. destruct (i <? _)%nat; [lra|now apply (Hbest false)].
Qed.
Print Assumptions C70_partial.

(** Applying it twice changes nothing more, for every array, with or without nan; arrays of fewer
    than two entries are refused and arrays containing nan returned unchanged. *)
Theorem C70_idempotent : forall x CI_type plot_type y, no_reverse x CI_type plot_type = Ok y -> no_reverse y CI_type plot_type = Ok y.
Proof.
  intros x ct pt y H. unfold no_reverse in *. destruct (Nat.ltb_spec (length x) 2) as [C|C]; [discriminate|]. destruct (all_finite x) as [l|] eqn:E.
  - apply Ok_inj in H. subst y. rewrite map_length, no_reverse_length, all_finite_map, no_reverse_idem. apply all_finite_Some in E. subst x. rewrite map_length in C.
    destruct (Nat.ltb_spec (length l) 2); [lia|reflexivity].
  - apply Ok_inj in H. subst y. rewrite E. destruct (Nat.ltb_spec (length x) 2); [lia|reflexivity].
Qed.
Print Assumptions C70_idempotent.
Theorem C70_errors : forall x CI_type plot_type,
  ((length x < 2)%nat <-> no_reverse x CI_type plot_type = Err ValueError) /\
  ((2 <= length x)%nat -> In None x -> no_reverse x CI_type plot_type = Ok x).
Proof.
  intros x ct pt. unfold no_reverse. destruct (Nat.ltb_spec (length x) 2) as [C|C]; (split; [split|]).
  - reflexivity.
  - intros _. exact C.
  - intros; lia.
  - intros; lia.
  - destruct (all_finite x); discriminate.
  - intros _ HN. destruct (all_finite x) as [l|] eqn:E; [|reflexivity]. apply all_finite_Some in E. subst x. apply in_map_iff in HN. destruct HN as (v & D & _). discriminate.
Qed.
Print Assumptions C70_errors.

Example C70_nonvacuous : down_then_up [5; 3; 1; 2; 4] /\ up_then_down [1; 2; 5; 3] /\ chf_time "time" "CHF" = true /\ chf_time "time" "SF" = false.
Proof.
  split; [|split; [|split; reflexivity]].
  - exists 2%nat. split; [simpl; lia|]. split; intros i j Hij; [|intros Hj; simpl in Hj]; do 5 (destruct i as [|i]; [do 5 (destruct j as [|j]; [simpl; try lra; try lia|]); lia|]); lia.
  - exists 2%nat. split; [simpl; lia|]. split; intros i j Hij; [|intros Hj; simpl in Hj]; do 5 (destruct i as [|i]; [do 5 (destruct j as [|j]; [simpl; try lra; try lia|]); lia|]); lia.
Qed.

(** * C71: clean_CI_arrays *)
Theorem C71_legal_rows : forall rows pt xg qg xl xu yl yu,
  clean_CI_arrays (map col1 rows) (map col2 rows) (map col3 rows) (map col4 rows) pt xg qg = Ok (xl, xu, yl, yu) ->
  exists out, legal_rows pt rows out /\
    xl = map (fun r => fst (fst (fst r))) out /\ xu = map (fun r => snd (fst (fst r))) out /\ yl = map (fun r => snd (fst r)) out /\ yu = map snd out /\
    (xg || qg = true -> length out = length rows).
Proof.
  intros rows pt xg qg xl xu yl yu H. pose proof H as H0. rewrite (clean_rows _ _ _ _ _ _ _ _ (keep_finite_rows rows)) in H. cbv zeta in H.
  pose proof (filter_legal pt rows) as HL. set (out := filter _ _) in *. exists out. split; [exact HL|].
  assert (Ok (map q_xl out, map q_xu out, map q_yl out, map q_yu out) = Ok (xl, xu, yl, yu)) as E. { destruct (_ && xg); [discriminate|]. destruct (_ && qg); [discriminate|exact H]. }
  apply Ok_inj in E. injection E as <- <- <- <-.
  assert (forall g h : quad -> R, (forall p, g p = h p) -> map g out = map h out) as ME by (intros; now apply map_ext).
  split; [apply ME; now intros [[[? ?] ?] ?]|]. split; [apply ME; now intros [[[? ?] ?] ?]|]. split; [apply ME; now intros [[[? ?] ?] ?]|]. split; [apply ME; now intros [[[? ?] ?] ?]|].
  intros Hg. apply clean_given in H0; [|exact Hg]. destruct H0 as (out' & HF & _ & _ & _ & _). unfold quad in *.
  rewrite (legal_rows_fun _ _ _ HL out' (legal_rows_all _ _ _ HF)). clear -HF. induction HF; simpl; congruence.
Qed.
Print Assumptions C71_legal_rows.

(** When the user asked for particular points, an illegal row is refused; otherwise the call
    succeeds. If all rows are legal all are returned. *)
Theorem C71_refusal : forall rows pt xg qg,
  (xg || qg = true -> Exists (fun r => forall v, ~ legal_row pt r v) rows ->
     clean_CI_arrays (map col1 rows) (map col2 rows) (map col3 rows) (map col4 rows) pt xg qg = Err ValueError) /\
  (xg || qg = false \/ (forall r, In r rows -> exists v, legal_row pt r v) ->
     exists r, clean_CI_arrays (map col1 rows) (map col2 rows) (map col3 rows) (map col4 rows) pt xg qg = Ok r).
Proof.
  intros rows pt xg qg. split; [apply clean_illegal|]. intros [H|H].
  - rewrite (clean_rows _ _ _ _ _ _ _ _ (keep_finite_rows rows)). cbv zeta. destruct xg, qg; try discriminate. rewrite !andb_false_r. eauto.
  - apply legal_all in H. destruct H as (out & H). rewrite (clean_legal _ _ _ _ _ H). eauto.
Qed.
Print Assumptions C71_refusal.

(** Arrays of any lengths: if the call returns, the four arrays have the same length and their
    y-values are legal. *)
Theorem C71_result : forall xl xu yl yu pt xg qg a b c e, clean_CI_arrays xl xu yl yu pt xg qg = Ok (a, b, c, e) ->
  length a = length b /\ length b = length c /\ length c = length e /\ (length a <= length xl)%nat /\ (forall y, In y c \/ In y e -> legal_y pt y) /\
  (xg = true -> length a = length xl) /\ (qg = true -> length c = length yl).
Proof.
  intros xl xu yl yu pt xg qg a b c e H. assert (exists out, keep_finite xl xu yl yu = Ok out) as (out & Ho).
  { unfold clean_CI_arrays in H. apply bind_ok in H. destruct H as (out & H & _). eauto. }
  rewrite (clean_rows _ _ _ _ _ _ _ _ Ho) in H. cbv zeta in H.
  assert (length out <= length xl)%nat as Hle.
  { clear -Ho. revert xu yl yu out Ho. induction xl as [|x xl IH]; intros xu yl yu out Ho; cbn [keep_finite] in Ho; [apply Ok_inj in Ho; subst; simpl; lia|].
    apply bind_ok in Ho. destruct Ho as (h & _ & Ho). apply bind_ok in Ho. destruct Ho as (rest & Hr & Ho). apply IH in Hr. apply Ok_inj in Ho. subst out. destruct h; simpl; lia. }
  pose proof (row_ok_spec pt) as Hs. set (o := filter (row_ok pt) out) in *.
  assert (length o <= length out)%nat as Ho2. { unfold o. clear. induction out as [|p out IH]; simpl; [lia|]. destruct (row_ok pt p); simpl; lia. }
  destruct (negb (length o =? length xl)%nat && xg) eqn:E1; [discriminate|]. destruct (negb (length o =? length yl)%nat && qg) eqn:E2; [discriminate|].
  apply Ok_inj in H. injection H as <- <- <- <-. rewrite !map_length. repeat (split; [lia|]). split; [|split].
  - intros y Hy. assert (exists p, In p o /\ (y = q_yl p \/ y = q_yu p)) as (p & Hp & Hv).
    { destruct Hy as [Hy|Hy]; apply in_map_iff in Hy; destruct Hy as (p & <- & Hp); eauto. }
    unfold o in Hp. apply filter_In in Hp. destruct Hp as [_ Hp]. apply Hs in Hp. destruct Hv as [-> | ->]; tauto.
  - intros ->. rewrite andb_true_r in E1. apply negb_false_iff, Nat.eqb_eq in E1. exact E1.
  - intros ->. rewrite andb_true_r in E2. apply negb_false_iff, Nat.eqb_eq in E2. exact E2.
Qed.
Print Assumptions C71_result.

Example C71_nonvacuous : exists rows : list row4, (exists v, legal_row "CDF" (nth 0 rows (None, None, None, None)) v) /\ Exists (fun r => forall v, ~ legal_row "CDF" r v) rows.
Proof.
  exists [(Some 1, Some 2, Some (1 / 2), Some (1 / 3)); (Some 1, None, Some (1 / 2), Some (1 / 3))]. split.
  - exists (1, 2, 1 / 2, 1 / 3). split; [reflexivity|]. pose proof (tol_small 1 ltac:(lia)). split; (split; [lra|intros; lra]).
  - apply Exists_cons_tl, Exists_cons_hd. intros [[[a b] c] e] (D & _). discriminate.
Qed.

(** * C96: the method reported by the three-parameter fitters *)

(** The fit produced by a method: the three-parameter estimates, or if their gamma is below 0.01 the
    two-parameter estimates with gamma = 0. *)
Definition estimates_by (est3 : fmethod -> R * R * R) (est2 : fmethod -> R * R) (m : fmethod) (p : R * R * R) : Prop :=
  (1 / 100 <= snd (est3 m) /\ p = est3 m) \/ (snd (est3 m) < 1 / 100 /\ p = (fst (est2 m), snd (est2 m), 0)).
Theorem C96_refuted : exists est3 est2 method, let f := fit_three_params est3 est2 method in
  r_method f <> M_MLE /\ ~ estimates_by est3 est2 (r_method f) (r_params f).
Proof.
  exists (fun _ => (1, 1, 0)), (fun m => match m with M_MLE => (1, 1) | _ => (2, 2) end), M_RRX. unfold fit_three_params. cbn [snd]. rewrite (proj2 (Rltb'_true 0 (1 / 100)) ltac:(lra)).
  simpl. split; [discriminate|]. intros [[H _]|[_ H]]; [simpl in H; lra|]. injection H as H _. lra.
Qed.
Print Assumptions C96_refuted.
Theorem C96_partial : forall est3 est2 method, 1 / 100 <= snd (est3 method) \/ method = M_MLE ->
  let f := fit_three_params est3 est2 method in estimates_by est3 est2 (r_method f) (r_params f) /\ r_method f = method.
Proof.
  intros est3 est2 m H. unfold fit_three_params, estimates_by. destruct (Rltb' (snd (est3 m)) (1 / 100)) eqn:E.
  - apply Rltb'_true in E. destruct H as [H| ->]; [lra|]. simpl. split; [right; auto|reflexivity].
  - apply Rltb'_false in E. simpl. split; [left; split; [lra|reflexivity]|reflexivity].
Qed.
Print Assumptions C96_partial.
Example C96_nonvacuous : let est3 := fun _ : fmethod => (10, 2, 3) in 1 / 100 <= snd (est3 M_RRY).
Proof. simpl. lra. Qed.
