(** The properties C126 and C127 of the mean cumulative function. *)
From Coquelicot Require Import Coquelicot.
From Coq Require Import List Arith Reals Lra Lia Bool Sorted Permutation.
From Verif Require Import Base RealFacts Gauss RList Linear NonparModel NonparProofs RepairModel RepairSpec RepairProofs RepairProofs2 RepairProofs3 RegProofs PoFModel CIModel CIProofs PlotProofs MCFModel MCFSpec MCFProofs.
Import ListNotations.
Open Scope R_scope.

(** ** C126 The parametric MCF is a power law through the nonparametric one *)

(** The points are those of MCF_nonparametric. *)
Theorem C126_points : forall cf noisy data CI r data', mcf_parametric cf noisy data CI = (Ok r, data') ->
  exists np, mcf_nonparametric data (95 / 100) = (Ok np, data') /\ pm_times r = mcf_time np /\ pm_MCF r = mcf_MCF np.
Proof. intros cf noisy data CI r data' H. destruct (parametric_inv _ _ _ _ _ _ H) as (_ & np & g & f & EN & _ & _ & _ & E1 & E2 & _). eauto. Qed.
Print Assumptions C126_points.

(** curve_fit starts from the power law closest to the logarithms of the points, which is a
    rising one, and is the power law itself if there is one through all points. *)
Theorem C126_start : forall cf noisy data CI r data', Forall (fun s => s <> []) data -> mcf_parametric cf noisy data CI = (Ok r, data') ->
  (exists t t', In t (pm_times r) /\ In t' (pm_times r) /\ t <> t') ->
  exists alpha beta va vb c, cf (pm_times r) (pm_MCF r) (alpha, beta) = Ok (mkCurve (pm_alpha r) (pm_beta r) va vb c) /\
    0 < alpha /\ 0 < beta /\ (forall a b, 0 < a -> log_error alpha beta (pm_times r) (pm_MCF r) <= log_error a b (pm_times r) (pm_MCF r)) /\
    (forall a b, 0 < a -> Forall (fun p => snd p = power_law a b (fst p)) (combine (pm_times r) (pm_MCF r)) -> alpha = a /\ beta = b).
Proof.
  intros cf noisy data CI r data' HF H D. destruct (parametric_inv _ _ _ _ _ _ H) as (_ & np & g & f & EN & EG & _ & EC & E1 & E2 & E3 & E4 & _). rewrite E1, E2 in *.
  destruct (mcf_positive data np data' HF EN) as (S1 & S2 & P & L). set (T := mcf_time np) in *. set (M := mcf_MCF np) in *.
  unfold mcf_guess in EG. destruct (existsb (fun t => Rleb t 0) T) eqn:B; [discriminate|]. apply existsb_nonpos in B.
  set (pts := combine (map ln T) (map ln M)).
  assert (map fst pts = map ln T) as F1 by (apply map_fst_combine'; rewrite !map_length; congruence).
  assert (map snd pts = map ln M) as F2 by (apply map_snd_combine'; rewrite !map_length; congruence).
  assert (Sxx pts <> 0) as NZ.
  { intros Z. destruct D as (t & t' & Ht & Ht' & N). apply N. apply ln_inv; [eapply Forall_forall; [exact B|exact Ht]|eapply Forall_forall; [exact B|exact Ht']|].
    assert (forall u, In u T -> exists p, In p pts /\ fst p = ln u) as K by (intros u Hu; apply (in_map ln) in Hu; rewrite <- F1 in Hu; apply in_map_iff in Hu; destruct Hu as (p & <- & Hp); eauto).
    destruct (K t Ht) as (p & Hp & <-). destruct (K t' Ht') as (q & Hq & <-). now apply (proj1 (Sxx_zero pts) Z). }
  assert (0 < lsq_slope pts) as SP by (apply slope_pos; [rewrite F1; now apply sorted_ln_le|rewrite F2; now apply sorted_ln_lt|exact NZ]).
  unfold polyfit1 in EG. fold pts in EG. destruct (Req_EM_T (Sxx pts) 0); [contradiction|]. injection EG as <-. set (m := lsq_slope pts) in *. set (c := lsq_intercept pts) in *.
  exists (exp (- c / m)), m, (cv_var_alpha f), (cv_var_beta f), (cv_cov f). rewrite E3, E4. split; [rewrite EC; now destruct f|].
  assert (0 < exp (- c / m)) as EP by apply exp_pos. split; [exact EP|]. split; [exact SP|]. split.
  - intros a b Ha. rewrite !log_error_sse by assumption. fold pts. rewrite ln_exp. replace (- (m * (- c / m))) with c by (field; lra). now apply lsq_optimal.
  - intros a b Ha E. destruct (lsq_exact pts b (- (b * ln a)) NZ) as [X1 X2].
    + intros p Hp. unfold pts in Hp. rewrite combine_ln in Hp. apply in_map_iff in Hp. destruct Hp as ((t, y) & <- & Hp). cbn [fst snd].
      rewrite Forall_forall in E. specialize (E _ Hp). cbn [fst snd] in E. rewrite E. apply ln_power_law; [exact Ha|]. apply in_combine_l in Hp. now apply (proj1 (Forall_forall _ _) B).
    + fold m in X1. fold c in X2. split; [|exact X1]. rewrite X1, X2. replace (- - (b * ln a) / b) with (ln a) by (field; lra). now apply exp_ln.
Qed.
Print Assumptions C126_start.

(** The limits contain the estimates, symmetrically on a logarithmic scale, and are positive for
    positive estimates. *)
Theorem C126_limits : forall cf noisy data CI r data', mcf_parametric cf noisy data CI = (Ok r, data') -> pm_alpha r <> 0 -> pm_beta r <> 0 ->
  (pm_alpha_lower r <= pm_alpha r <= pm_alpha_upper r /\ pm_alpha_lower r * pm_alpha_upper r = pm_alpha r ^ 2 /\ (0 < pm_alpha r -> 0 < pm_alpha_lower r) /\
   (0 < pm_alpha_SE r -> pm_alpha_lower r < pm_alpha r < pm_alpha_upper r)) /\
  (pm_beta_lower r <= pm_beta r <= pm_beta_upper r /\ pm_beta_lower r * pm_beta_upper r = pm_beta r ^ 2 /\ (0 < pm_beta r -> 0 < pm_beta_lower r) /\
   (0 < pm_beta_SE r -> pm_beta_lower r < pm_beta r < pm_beta_upper r)).
Proof.
  intros cf noisy data CI r data' H Ha Hb. destruct (parametric_inv _ _ _ _ _ _ H) as (HC & np & g & f & _ & _ & _ & _ & _ & _ & _ & _ & S1 & S2 & _ & -> & -> & -> & -> & _).
  pose proof (Z_nonneg CI HC) as HZ.
  destruct (log_limits (pm_alpha r) (pm_alpha_SE r) (Z_of CI) Ha) as (A1 & A2 & A3 & A4); [rewrite S1; apply sqrt_pos|exact HZ|].
  destruct (log_limits (pm_beta r) (pm_beta_SE r) (Z_of CI) Hb) as (B1 & B2 & B3 & B4); [rewrite S2; apply sqrt_pos|exact HZ|]. repeat split; try assumption; try apply A1; try apply B1; try now apply A2. all: now apply B2.
Qed.
Print Assumptions C126_limits.

(** More confidence, wider limits around the same estimates. *)
Theorem C126_wider : forall cf noisy data CI CI' r r' data1 data2, CI <= CI' -> mcf_parametric cf noisy data CI = (Ok r, data1) -> mcf_parametric cf noisy data CI' = (Ok r', data2) ->
  0 < pm_alpha r -> 0 < pm_beta r ->
  pm_alpha r' = pm_alpha r /\ pm_beta r' = pm_beta r /\
  pm_alpha_lower r' <= pm_alpha_lower r /\ pm_alpha_upper r <= pm_alpha_upper r' /\ pm_beta_lower r' <= pm_beta_lower r /\ pm_beta_upper r <= pm_beta_upper r'.
Proof.
  intros cf noisy data CI CI' r r' data1 data2 HCI H H' Ha Hb.
  destruct (parametric_inv _ _ _ _ _ _ H) as (HC & np & g & f & EN & EG & _ & EC & _ & _ & E3 & E4 & S1 & S2 & _ & -> & -> & -> & -> & _).
  destruct (parametric_inv _ _ _ _ _ _ H') as (HC' & np' & g' & f' & EN' & EG' & _ & EC' & _ & _ & E3' & E4' & S1' & S2' & _ & -> & -> & -> & -> & _).
  rewrite EN in EN'. injection EN' as <- <-. rewrite EG in EG'. injection EG' as <-. rewrite EC in EC'. injection EC' as <-. rewrite <- E3, <- E4, <- S1, <- S2 in *.
  assert (pm_alpha r' = pm_alpha r /\ pm_beta r' = pm_beta r /\ pm_alpha_SE r' = pm_alpha_SE r /\ pm_beta_SE r' = pm_beta_SE r) as (-> & -> & -> & ->) by (repeat split; congruence).
  pose proof (Z_mono CI CI' ltac:(lra) HCI ltac:(lra)) as HZ.
  assert (0 <= pm_alpha_SE r / pm_alpha r) by (apply Rmult_le_pos; [rewrite S1; apply sqrt_pos|left; now apply Rinv_0_lt_compat]).
  assert (0 <= pm_beta_SE r / pm_beta r) by (apply Rmult_le_pos; [rewrite S2; apply sqrt_pos|left; now apply Rinv_0_lt_compat]).
  repeat split; apply Rmult_le_compat_l; try lra; apply exp_le_iff; nra.
Qed.
Print Assumptions C126_wider.

(** The verdict in terms of the fitted function: IMPROVING, for every shape inside the limits the
    rate of repair never rises; WORSENING, it never falls; CONSTANT, the limits contain shapes
    with a rising and with a falling rate. *)
Theorem C126_verdict : forall cf noisy data CI r data', mcf_parametric cf noisy data CI = (Ok r, data') -> 0 < pm_alpha r -> 0 < pm_beta r ->
  (pm_verdict r = Improving -> forall b, pm_beta_lower r <= b <= pm_beta_upper r -> never_rises (power_law (pm_alpha r) b)) /\
  (pm_verdict r = Worsening -> really_rises (power_law (pm_alpha r) (pm_beta r)) /\
     forall b, pm_beta_lower r <= b <= pm_beta_upper r -> never_falls (power_law (pm_alpha r) b)) /\
  (pm_verdict r = Constant <-> exists b b', pm_beta_lower r <= b <= pm_beta_upper r /\ pm_beta_lower r <= b' <= pm_beta_upper r /\
     really_falls (power_law (pm_alpha r) b) /\ really_rises (power_law (pm_alpha r) b')).
Proof.
  intros cf noisy data CI r data' H Ha Hb. destruct (C126_limits _ _ _ _ _ _ H ltac:(lra) ltac:(lra)) as (_ & L & _ & P & S). specialize (P Hb).
  destruct (parametric_inv _ _ _ _ _ _ H) as (_ & np & g & f & _ & _ & _ & _ & _ & _ & _ & _ & _ & S2 & _ & _ & _ & Elo & Eup & ->). unfold verdict. split; [|split].
  - intros V b Hin. destruct (Rle_dec (pm_beta_upper r) 1); [apply no_rise; lra|]. destruct (Rlt_dec (pm_beta_lower r) 1); [destruct (Rlt_dec 1 (pm_beta_upper r)); discriminate|discriminate].
  - intros V. destruct (Rle_dec (pm_beta_upper r) 1); [discriminate|]. destruct (Rlt_dec (pm_beta_lower r) 1); [destruct (Rlt_dec 1 (pm_beta_upper r)); [discriminate|lra]|].
    split; [|intros b Hin; apply no_fall; lra]. apply rises; [exact Ha|]. assert (0 <= pm_beta_SE r) as [Q|Q] by (rewrite S2; apply sqrt_pos); [specialize (S Q); lra|].
    assert (pm_beta_upper r = pm_beta r); [|lra]. rewrite Eup, <- Q. unfold Rdiv. rewrite Rmult_0_l, Rmult_0_r, exp_0. ring.
  - split.
    + intros V. destruct (Rle_dec (pm_beta_upper r) 1); [discriminate|]. destruct (Rlt_dec (pm_beta_lower r) 1); [|discriminate]. destruct (Rlt_dec 1 (pm_beta_upper r)); [|discriminate].
      exists (pm_beta_lower r), (pm_beta_upper r). split; [lra|]. split; [lra|]. split; [apply falls; lra|apply rises; lra].
    + intros (b & b' & B & B' & F & G). destruct (Rle_dec (pm_beta_upper r) 1) as [U|U].
      * exfalso. specialize (G 1 1 ltac:(lra) ltac:(lra)). pose proof (no_rise (pm_alpha r) b' Ha ltac:(lra) 1 1 ltac:(lra) ltac:(lra)). lra.
      * destruct (Rlt_dec (pm_beta_lower r) 1) as [U'|U']; [destruct (Rlt_dec 1 (pm_beta_upper r)); [reflexivity|lra]|].
        exfalso. specialize (F 1 1 ltac:(lra) ltac:(lra)). pose proof (no_fall (pm_alpha r) b Ha ltac:(lra) 1 1 ltac:(lra) ltac:(lra)). lra.
Qed.
Print Assumptions C126_verdict.

(** "Since Beta is less than 1, IMPROVING". Missing: an estimate without error, C126_improving_refuted. *)
Theorem C126_improving_partial : forall cf noisy data CI r data', mcf_parametric cf noisy data CI = (Ok r, data') -> 0 < pm_alpha r -> 0 < pm_beta r ->
  pm_verdict r = Improving -> 0 < pm_beta_SE r \/ pm_beta r <> 1 -> really_falls (power_law (pm_alpha r) (pm_beta r)).
Proof.
  intros cf noisy data CI r data' H Ha Hb V S. destruct (C126_limits _ _ _ _ _ _ H ltac:(lra) ltac:(lra)) as (_ & L & _ & P & SS). apply falls; [exact Ha|].
  destruct (parametric_inv _ _ _ _ _ _ H) as (_ & np & g & f & _ & _ & _ & _ & _ & _ & _ & _ & _ & S2 & _ & _ & _ & Elo & Eup & EV). rewrite EV in V. unfold verdict in V.
  destruct (Rle_dec (pm_beta_upper r) 1); [|destruct (Rlt_dec (pm_beta_lower r) 1); [destruct (Rlt_dec 1 (pm_beta_upper r)); discriminate|discriminate]].
  destruct S as [S|S]; [specialize (SS S); lra|lra].
Qed.
Print Assumptions C126_improving_partial.

Lemma line_mcf : exists np data', mcf_nonparametric [[1; 2; 3]] (95 / 100) = (Ok np, data') /\ mcf_time np = [1; 2] /\ mcf_MCF np = [1; 2].
Proof.
  assert (Forall (fun s : list R => s <> []) [[1; 2; 3]]) as NE by (constructor; [discriminate|constructor]).
  destruct (mcf_succeeds [[1; 2; 3]] (95 / 100) NE) as (np & data' & E); [exists [1; 2; 3]; split; [now left|cbn; lia]|lra|]. exists np, data'. split; [exact E|].
  destruct (mcf_structure _ _ NE np data' E) as (P & S & _ & _ & _ & EM & _).
  assert (rmax [1; 2; 3] = 3) as R3 by (unfold rmax; cbn [fold_right]; rewrite (Rmax_left 3 1), (Rmax_right 2 3) by lra; reflexivity).
  cbn [map concat app] in P. rewrite R3 in P. 
  assert (mcf_time np = [1; 2]) as ET.
  { apply (sorted_unique_R (mcf_time np) [1; 2]); [|exact S|repeat constructor; lra]. apply Permutation_app_inv_r with [3]. exact P. }
  split; [exact ET|]. rewrite EM, ET. cbn [map]. unfold systems_observed. cbn [map]. rewrite R3.
  assert (forall t, t <= 3 -> INR (length (filter (fun e => Rleb t e) [3])) = 1) as K by (intros t Ht; cbn [filter]; rewrite (proj2 (Rleb_true t 3) Ht); reflexivity).
  rewrite !K by lra. cbn [cumsum]. f_equal; [lra|]. f_equal. lra.
Qed.

(** One repair per unit of time: a straight line, reported as IMPROVING. *)
Theorem C126_improving_refuted : exists cf data r data', Forall (fun s => s <> []) data /\ mcf_parametric cf (0, 0) data (95 / 100) = (Ok r, data') /\
  pm_times r = [1; 2] /\ pm_MCF r = [1; 2] /\ (forall t, 0 < t -> power_law (pm_alpha r) (pm_beta r) t = t) /\ pm_verdict r = Improving.
Proof.
  destruct line_mcf as (np & data' & E & ET & EM). exists (fun _ _ _ => Ok (mkCurve 1 1 0 0 0)), [[1; 2; 3]].
  assert (exists g, mcf_guess (0, 0) (mcf_time np) (mcf_MCF np) = Ok g) as (g & EG).
  { unfold mcf_guess. rewrite ET. assert (existsb (fun t => Rleb t 0) [1; 2] = false) as -> by (apply existsb_nonpos; repeat constructor; lra). destruct (polyfit1 _ _) as [[? ?]|]; eauto. }
  unfold mcf_parametric. destruct (Rleb (95 / 100) 0) eqn:E1; [apply Rleb_true in E1; lra|]. destruct (Rleb 1 (95 / 100)) eqn:E2; [apply Rleb_true in E2; lra|]. cbn [orb].
  rewrite E. cbn [bind]. rewrite EG. cbn [bind]. rewrite ET. cbn [length Nat.ltb Nat.leb bind cv_alpha cv_beta cv_var_alpha cv_var_beta cv_cov]. rewrite sqrt_0.
  assert (forall z, exp (z * (0 / 1)) = 1) as EX by (intros z; unfold Rdiv; rewrite Rmult_0_l, Rmult_0_r; apply exp_0). rewrite !EX, !Rmult_1_l.
  do 2 eexists. split; [constructor; [discriminate|constructor]|]. split; [reflexivity|]. cbn [pm_times pm_MCF pm_alpha pm_beta pm_verdict]. split; [reflexivity|]. split; [exact EM|]. split.
  - intros t Ht. rewrite straight by lra. lra.
  - unfold verdict. destruct (Rle_dec 1 1); [reflexivity|lra].
Qed.
Print Assumptions C126_improving_refuted.

(** The band at time t: the curve times and divided by exp (Z sd / value), sd the standard error of
    the value by the delta method. *)
Theorem C126_band : forall cf noisy data CI r data' va vb t, mcf_parametric cf noisy data CI = (Ok r, data') -> 0 < pm_alpha r -> 0 < t ->
  va = pm_alpha_SE r ^ 2 -> vb = pm_beta_SE r ^ 2 -> covariance va vb (pm_cov r) ->
  let y := power_law (pm_alpha r) (pm_beta r) t in
  exists g1 g2 sd, is_derive (fun a => power_law a (pm_beta r) t) (pm_alpha r) g1 /\ is_derive (fun b => power_law (pm_alpha r) b t) (pm_beta r) g2 /\
    0 <= sd /\ sd ^ 2 = g1 ^ 2 * va + g2 ^ 2 * vb + 2 * g1 * g2 * pm_cov r /\
    mcf_line r t = y /\ mcf_band r CI t = (y * exp (- (Z_of CI * sd / y)), y * exp (Z_of CI * sd / y)) /\
    0 < fst (mcf_band r CI t) <= y /\ y <= snd (mcf_band r CI t).
Proof.
  intros cf noisy data CI r data' va vb t H Ha Ht -> -> (V1 & V2 & V3) y. destruct (parametric_inv _ _ _ _ _ _ H) as (HC & _). pose proof (Z_nonneg CI HC) as HZ.
  set (a := pm_alpha r) in *. set (b := pm_beta r) in *. set (sa := pm_alpha_SE r) in *. set (sb := pm_beta_SE r) in *. set (c := pm_cov r) in *.
  set (g1 := - (b / a) * Rpower (t / a) b). set (g2 := Rpower (t / a) b * ln (t / a)). exists g1, g2, (sqrt (sa ^ 2 * g1 ^ 2 + sb ^ 2 * g2 ^ 2 + 2 * g1 * g2 * c)).
  assert (0 < t / a) as Hq by (apply Rdiv_lt_0_compat; lra).
  assert (0 <= sa ^ 2 * g1 ^ 2 + sb ^ 2 * g2 ^ 2 + 2 * g1 * g2 * c) as NN.
  { assert (Rabs c <= Rabs sa * Rabs sb) as C.
    { apply Rsqr_incr_0; [|apply Rabs_pos|apply Rmult_le_pos; apply Rabs_pos]. rewrite Rsqr_mult, <- !Rsqr_abs. unfold Rsqr. nra. }
    assert (Rabs (2 * g1 * g2 * c) <= 2 * (Rabs g1 * Rabs sa) * (Rabs g2 * Rabs sb)) as C2.
    { rewrite !Rabs_mult, (Rabs_right 2) by lra. pose proof (Rabs_pos g1). pose proof (Rabs_pos g2). assert (0 <= Rabs g1 * Rabs g2) by (apply Rmult_le_pos; assumption). nra. }
    assert (sa ^ 2 * g1 ^ 2 = (Rabs g1 * Rabs sa) ^ 2) as -> by (rewrite Rpow_mult_distr, !pow2_abs; ring).
    assert (sb ^ 2 * g2 ^ 2 = (Rabs g2 * Rabs sb) ^ 2) as -> by (rewrite Rpow_mult_distr, !pow2_abs; ring).
    pose proof (Rle_abs (- (2 * g1 * g2 * c))) as C3. rewrite Rabs_Ropp in C3. pose proof (pow2_ge_0 (Rabs g1 * Rabs sa - Rabs g2 * Rabs sb)). nra. }
  assert (0 < y) as Hy by apply exp_pos.
  split; [|split; [|split; [apply sqrt_pos|split; [|split; [reflexivity|split; [|]]]]]].
  - unfold power_law, Rpower. auto_derive; [split; [lra|split; [exact Hq|exact I]]|]. unfold g1, Rpower, Rdiv. as_R. field. split; lra.
  - unfold power_law, Rpower. auto_derive; [exact I|]. unfold g2, Rpower. ring.
  - rewrite pow2_sqrt by exact NN. ring.
  - unfold mcf_band, mcf_line. fold a b sa sb c. fold g1 g2. change (Rpower (t / a) b) with y. do 2 f_equal; f_equal; unfold Rdiv; ring.
  - assert (forall x, 0 <= x -> 0 < y * exp (- x) <= y /\ y <= y * exp x) as K.
    { intros x Hx. assert (exp (- x) <= 1) by (rewrite <- exp_0; apply exp_le_iff; lra). assert (1 <= exp x) by (rewrite <- exp_0; apply exp_le_iff; lra). pose proof (exp_pos (- x)). split; [split|]; nra. }
    unfold mcf_band, mcf_line. fold a b sa sb c. fold g1 g2. change (Rpower (t / a) b) with y. cbn [fst snd].
    replace (- Z_of CI * sqrt (sa ^ 2 * g1 ^ 2 + sb ^ 2 * g2 ^ 2 + 2 * g1 * g2 * c) / y) with (- (Z_of CI * sqrt (sa ^ 2 * g1 ^ 2 + sb ^ 2 * g2 ^ 2 + 2 * g1 * g2 * c) / y)) by (unfold Rdiv; ring).
    apply K. apply Rmult_le_pos; [apply Rmult_le_pos; [lra|apply sqrt_pos]|left; now apply Rinv_0_lt_compat].
Qed.
Print Assumptions C126_band.

Example C126_example : exists cf data r data', Forall (fun s => s <> []) data /\ mcf_parametric cf (0, 0) data (95 / 100) = (Ok r, data') /\
  0 < pm_alpha r /\ 0 < pm_beta r /\ (exists t t', In t (pm_times r) /\ In t' (pm_times r) /\ t <> t').
Proof.
  destruct C126_improving_refuted as (cf & data & r & data' & H1 & H2 & H3 & _). exists (fun _ _ _ => Ok (mkCurve 2 3 1 1 0)), [[1; 2; 3]].
  destruct line_mcf as (np & d' & E & ET & EM).
  assert (exists g, mcf_guess (0, 0) (mcf_time np) (mcf_MCF np) = Ok g) as (g & EG).
  { unfold mcf_guess. rewrite ET. assert (existsb (fun t => Rleb t 0) [1; 2] = false) as -> by (apply existsb_nonpos; repeat constructor; lra). destruct (polyfit1 _ _) as [[? ?]|]; eauto. }
  unfold mcf_parametric. destruct (Rleb (95 / 100) 0) eqn:E1; [apply Rleb_true in E1; lra|]. destruct (Rleb 1 (95 / 100)) eqn:E2; [apply Rleb_true in E2; lra|]. cbn [orb].
  rewrite E. cbn [bind]. rewrite EG. cbn [bind]. rewrite ET. cbn [length Nat.ltb Nat.leb bind cv_alpha cv_beta cv_var_alpha cv_var_beta cv_cov].
  do 2 eexists. split; [constructor; [discriminate|constructor]|]. split; [reflexivity|]. cbn [pm_alpha pm_beta pm_times]. split; [lra|]. split; [lra|].
  exists 1, 2. split; [now left|]. split; [right; now left|lra].
Qed.

(** ** C127 What the nonparametric MCF depends on *)

Lemma some_repair data CI res data' : Forall (fun s => s <> []) data -> mcf_nonparametric data CI = (Ok res, data') -> (exists s, In s data /\ (2 <= length s)%nat) /\ 0 <= CI <= 1.
Proof.
  intros HF H. destruct (mcf_structure data CI HF res data' H) as (P & _ & _ & N & HC & _). split; [|exact HC].
  destruct (Exists_dec (fun s : list R => (2 <= length s)%nat) data) as [E|E]; [intros s; destruct (le_lt_dec 2 (length s)); [now left|right; lia]|apply Exists_exists in E; exact E|].
  exfalso. apply N. apply Permutation_length in P. rewrite app_length, map_length in P.
  assert (length (concat data) = length data) as L.
  { clear -HF E. induction data as [|s data IH]; [reflexivity|]. cbn [concat length]. rewrite app_length. inversion HF as [|? ? Hs HF']; subst. rewrite IH; [|exact HF'|intros C; apply E; now apply Exists_cons_tl].
    assert (~ (2 <= length s)%nat) by (intros C; apply E; now apply Exists_cons_hd). destruct s as [|a [|b s]]; [congruence|reflexivity|cbn in *; lia]. }
  destruct (mcf_time res); [reflexivity|cbn in P; lia].
Qed.
Lemma same_results d1 d2 CI r1 r2 x1 x2 (f : R -> R) : Forall (fun s => s <> []) d1 -> Forall (fun s => s <> []) d2 ->
  mcf_nonparametric d1 CI = (Ok r1, x1) -> mcf_nonparametric d2 CI = (Ok r2, x2) ->
  mcf_time r2 = map f (mcf_time r1) -> (forall t, systems_observed d2 (f t) = systems_observed d1 t) ->
  mcf_MCF r2 = mcf_MCF r1 /\ mcf_var r2 = mcf_var r1 /\ mcf_lower r2 = mcf_lower r1 /\ mcf_upper r2 = mcf_upper r1.
Proof.
  intros F1 F2 H1 H2 ET ES. destruct (mcf_structure d1 CI F1 r1 x1 H1) as (_ & _ & _ & _ & _ & EM1 & EV1 & EL1 & EU1). destruct (mcf_structure d2 CI F2 r2 x2 H2) as (_ & _ & _ & _ & _ & EM2 & EV2 & EL2 & EU2).
  assert (mcf_MCF r2 = mcf_MCF r1) as EM by (rewrite EM1, EM2, ET, map_map; f_equal; apply map_ext; intros t; now rewrite ES).
  assert (mcf_var r2 = mcf_var r1) as EV by (rewrite EV1, EV2, ET, map_map; f_equal; apply map_ext; intros t; now rewrite ES).
  split; [exact EM|]. split; [exact EV|]. rewrite EL1, EL2, EU1, EU2, EM, EV. auto.
Qed.
Lemma rmax_map (f : R -> R) l : (forall x y, x < y -> f x < f y) -> l <> [] -> rmax (map f l) = f (rmax l).
Proof.
  intros Hf N. apply Rle_antisym.
  - assert (map f l <> []) as N' by (destruct l; [congruence|discriminate]). destruct (proj1 (in_map_iff _ _ _) (rmax_in _ N')) as (x & E & Hx). rewrite <- E. destruct (rmax_ge l x Hx) as [L| ->]; [left; now apply Hf|lra].
  - apply rmax_ge. apply in_map. now apply rmax_in.
Qed.
Lemma rmax_perm l l' : Permutation l l' -> rmax l = rmax l'.
Proof.
  intros P. destruct l as [|a l]; [apply Permutation_nil in P; now subst|]. assert (l' <> []) as N by (intros ->; symmetry in P; apply Permutation_nil in P; discriminate).
  apply Rle_antisym; apply rmax_ge; [apply (Permutation_in _ P); apply rmax_in; discriminate|apply (Permutation_in _ (Permutation_sym P)); now apply rmax_in].
Qed.
Lemma observed_map (f : R -> R) data t : (forall x y, x < y -> f x < f y) -> Forall (fun s => s <> []) data -> systems_observed (map (map f) data) (f t) = systems_observed data t.
Proof.
  intros Hf HF. unfold systems_observed. induction HF as [|s data Hs HF IH]; [reflexivity|]. cbn [map filter]. rewrite rmax_map by assumption.
  assert (Rleb (f t) (f (rmax s)) = Rleb t (rmax s)) as ->.
  { destruct (Rleb t (rmax s)) eqn:E; [apply Rleb_true in E; apply Rleb_true; destruct E as [L|E]; [left; now apply Hf|rewrite E; lra]|apply Rleb_false in E; apply Rleb_false; now apply Hf]. }
  destruct (Rleb t (rmax s)); cbn [length]; now rewrite IH.
Qed.
Lemma observed_perm d d' t : Permutation (map rmax d) (map rmax d') -> systems_observed d t = systems_observed d' t.
Proof. intros P. unfold systems_observed. apply Permutation_length. now apply filter_perm. Qed.

(** The order of the systems, and of the times of a system, does not matter. *)
Theorem C127_order : forall data data2 mid CI res x, Forall (fun s => s <> []) data -> Permutation data mid -> Forall2 (@Permutation R) mid data2 ->
  mcf_nonparametric data CI = (Ok res, x) -> exists x', mcf_nonparametric data2 CI = (Ok res, x').
Proof.
  intros data data2 mid CI res x HF P1 P2 H.
  assert (Forall (fun s => s <> []) mid) as HM by (eapply Permutation_Forall; [exact P1|exact HF]).
  assert (Forall (fun s => s <> []) data2) as HF2 by (clear -P2 HM; induction P2 as [|a b l l' P P2 IH]; [constructor|]; inversion HM; subst; constructor; [intros ->; symmetry in P; apply Permutation_nil in P; congruence|now apply IH]).
  destruct (some_repair _ _ _ _ HF H) as ((s & Hs & Ls) & HC).
  assert (exists s, In s data2 /\ (2 <= length s)%nat) as SR.
  { apply (Permutation_in _ P1) in Hs. clear -P2 Hs Ls. induction P2 as [|a b l l' P P2 IH]; [destruct Hs|]. destruct Hs as [->|Hs]; [exists b; split; [now left|now rewrite <- (Permutation_length P)]|].
    destruct (IH Hs) as (u & Hu & Lu). exists u. split; [now right|exact Lu]. }
  destruct (mcf_succeeds data2 CI HF2 SR HC) as (res2 & x2 & H2). exists x2. rewrite H2. f_equal. f_equal.
  assert (map rmax mid = map rmax data2) as EM by (clear -P2; induction P2 as [|a b l l' P P2 IH]; [reflexivity|]; cbn [map]; now rewrite IH, (rmax_perm a b P)).
  assert (Permutation (map rmax data) (map rmax data2)) as PM by (rewrite <- EM; now apply Permutation_map).
  assert (Permutation (concat data) (concat data2)) as PC.
  { transitivity (concat mid); [clear -P1; induction P1; cbn [concat]; [reflexivity|now apply Permutation_app_head|rewrite !app_assoc; apply Permutation_app_tail; apply Permutation_app_comm|etransitivity; eassumption]|].
    clear -P2. induction P2; [reflexivity|]. cbn [concat]. now apply Permutation_app. }
  assert (mcf_time res2 = mcf_time res) as ET.
  { destruct (mcf_structure _ _ HF _ _ H) as (Q1 & S1 & _). destruct (mcf_structure _ _ HF2 _ _ H2) as (Q2 & S2 & _). apply sorted_unique_R; [|exact S2|exact S1].
    apply Permutation_app_inv_r with (map rmax data2). rewrite Q2, <- PC, <- Q1. now apply Permutation_app_head. }
  destruct (same_results data data2 CI res res2 x x2 (fun t => t) HF HF2 H H2) as (E1 & E2 & E3 & E4); [now rewrite map_id|intros t; symmetry; now apply observed_perm|].
  destruct res, res2. cbn in ET, E1, E2, E3, E4. congruence.
Qed.
Print Assumptions C127_order.

(** Another scale of time. *)
Theorem C127_transform : forall f data CI res x, (forall x y, x < y -> f x < f y) -> Forall (fun s => s <> []) data -> mcf_nonparametric data CI = (Ok res, x) ->
  exists res' x', mcf_nonparametric (map (map f) data) CI = (Ok res', x') /\ mcf_time res' = map f (mcf_time res) /\
    mcf_MCF res' = mcf_MCF res /\ mcf_var res' = mcf_var res /\ mcf_lower res' = mcf_lower res /\ mcf_upper res' = mcf_upper res.
Proof.
  intros f data CI res x Hf HF H.
  assert (Forall (fun s => s <> []) (map (map f) data)) as HF2 by (rewrite Forall_map; eapply Forall_impl; [|exact HF]; intros [|? ?] N; [congruence|discriminate]).
  destruct (some_repair _ _ _ _ HF H) as ((s & Hs & Ls) & HC).
  destruct (mcf_succeeds (map (map f) data) CI HF2) as (res2 & x2 & H2); [exists (map f s); split; [now apply in_map|now rewrite map_length]|exact HC|].
  exists res2, x2. split; [exact H2|].
  assert (mcf_time res2 = map f (mcf_time res)) as ET.
  { destruct (mcf_structure _ _ HF _ _ H) as (Q1 & S1 & _). destruct (mcf_structure _ _ HF2 _ _ H2) as (Q2 & S2 & _). apply sorted_unique_R; [|exact S2|].
    - apply Permutation_app_inv_r with (map rmax (map (map f) data)). rewrite Q2, <- concat_map, <- Q1, map_app. apply Permutation_app_head. rewrite !map_map.
      rewrite (map_ext_in (fun s => rmax (map f s)) (fun s => f (rmax s))); [reflexivity|]. intros a Ha. apply rmax_map; [exact Hf|]. now apply (proj1 (Forall_forall _ _) HF).
    - clear -S1 Hf. induction S1 as [|a l S IH F]; [constructor|]. cbn [map]. apply SSorted_cons; [exact IH|]. rewrite Forall_map. eapply Forall_impl; [|exact F]. cbn. intros y [L| ->]; [left; now apply Hf|lra]. }
  split; [exact ET|]. apply (same_results data (map (map f) data) CI res res2 x x2 f HF HF2 H H2 ET). intros t. now apply observed_map.
Qed.
Print Assumptions C127_transform.

(** A system: its repairs and the end of its observation. *)
Definition systems (l : list (list R * R)) : list (list R) := map (fun s => fst s ++ [snd s]) l.
Definition well_observed (l : list (list R * R)) : Prop := Forall (fun s => Forall (fun t => t <= snd s) (fst s)) l.
Lemma systems_ne l : Forall (fun s => s <> []) (systems l).
Proof. unfold systems. rewrite Forall_map, Forall_forall. intros [r e] _ E. destruct r; discriminate. Qed.
Lemma systems_rmax l : well_observed l -> map rmax (systems l) = map snd l.
Proof.
  intros W. unfold systems. rewrite map_map. apply map_ext_in. intros [r e] Hin. cbn [fst snd]. pose proof (proj1 (Forall_forall _ _) W _ Hin) as F. cbn [fst snd] in F.
  apply Rle_antisym; [|apply rmax_ge; apply in_or_app; right; now left]. assert (r ++ [e] <> []) as N by (destruct r; discriminate).
  destruct (in_app_or _ _ _ (rmax_in _ N)) as [I|[<-|[]]]; [now apply (proj1 (Forall_forall _ _) F)|lra].
Qed.
Lemma systems_concat l : Permutation (concat (systems l)) (concat (map fst l) ++ map snd l).
Proof.
  induction l as [|[r e] l IH]; [reflexivity|]. cbn [systems map concat fst snd]. fold (systems l). rewrite IH, <- !app_assoc. apply Permutation_app_head. cbn [app]. apply Permutation_cons_app. reflexivity.
Qed.
Lemma systems_times l CI res x : well_observed l -> mcf_nonparametric (systems l) CI = (Ok res, x) -> Permutation (mcf_time res) (concat (map fst l)).
Proof.
  intros W H. destruct (mcf_structure _ _ (systems_ne l) _ _ H) as (P & _). rewrite (systems_rmax l W), systems_concat in P. now apply Permutation_app_inv_r in P.
Qed.
Lemma cumsum_le (f g : R -> R) l : forall a b, a <= b -> (forall x, In x l -> f x <= g x) -> Forall2 Rle (cumsum a (map f l)) (cumsum b (map g l)).
Proof.
  induction l as [|x l IH]; intros a b H K; [constructor|]. cbn [map cumsum]. assert (f x <= g x) by (apply K; now left). constructor; [lra|]. apply IH; [lra|]. intros y Hy. apply K. now right.
Qed.

(** Watching some systems longer, or watching further systems that need no repair, never raises
    the MCF. *)
Theorem C127_observation : forall l l2 extra CI res res2 x x2, well_observed l -> Forall2 (fun s s2 => fst s = fst s2 /\ snd s <= snd s2) l l2 ->
  Forall (fun s => fst s = []) extra ->
  mcf_nonparametric (systems l) CI = (Ok res, x) -> mcf_nonparametric (systems (l2 ++ extra)) CI = (Ok res2, x2) ->
  mcf_time res2 = mcf_time res /\ Forall2 Rle (mcf_MCF res2) (mcf_MCF res).
Proof.
  intros l l2 extra CI res res2 x x2 W H2 HX E1 E2.
  assert (well_observed (l2 ++ extra)) as W2.
  { apply Forall_app. split; [|eapply Forall_impl; [|exact HX]; intros s ->; constructor]. clear -W H2. induction H2 as [|s s2 l l2 (A & B) H2 IH]; [constructor|]. inversion W; subst. constructor; [|now apply IH].
    rewrite <- A. eapply Forall_impl; [|eassumption]. cbn. intros; lra. }
  assert (concat (map fst (l2 ++ extra)) = concat (map fst l)) as EF.
  { rewrite map_app, concat_app. replace (concat (map fst extra)) with (@nil R).
    - rewrite app_nil_r. f_equal. clear -H2. induction H2 as [|s s2 l l2 (A & B) H2 IH]; [reflexivity|]. cbn [map]. congruence.
    - clear -HX. induction HX as [|s e A HX IH]; [reflexivity|]. cbn [map concat]. rewrite A. exact IH. }
  assert (mcf_time res2 = mcf_time res) as ET.
  { destruct (mcf_structure _ _ (systems_ne _) _ _ E1) as (_ & S1 & _). destruct (mcf_structure _ _ (systems_ne _) _ _ E2) as (_ & S2 & _). apply sorted_unique_R; [|exact S2|exact S1].
    rewrite (systems_times _ _ _ _ W2 E2), EF. symmetry. exact (systems_times _ _ _ _ W E1). }
  split; [exact ET|]. destruct (mcf_structure _ _ (systems_ne _) _ _ E1) as (_ & _ & R1 & _ & _ & -> & _). destruct (mcf_structure _ _ (systems_ne _) _ _ E2) as (_ & _ & R2 & _ & _ & -> & _). rewrite ET.
  apply cumsum_le; [lra|]. intros t Ht. specialize (R1 t Ht). unfold Rdiv. rewrite !Rmult_1_l. apply Rinv_le_contravar; [now apply lt_0_INR|]. apply le_INR.
  unfold systems_observed. rewrite (systems_rmax l W), (systems_rmax _ W2). clear -H2. rewrite map_app, filter_app, app_length.
  enough (length (filter (fun e => Rleb t e) (map snd l)) <= length (filter (fun e => Rleb t e) (map snd l2)))%nat by lia.
  induction H2 as [|s s2 l l2 (A & B) H2 IH]; [apply Nat.le_refl|]. cbn [map filter]. destruct (Rleb t (snd s)) eqn:E.
  - apply Rleb_true in E. rewrite (proj2 (Rleb_true t (snd s2))) by lra. cbn [length]. lia.
  - destruct (Rleb t (snd s2)); cbn [length]; lia.
Qed.
Print Assumptions C127_observation.

Example C127_example : well_observed [([1; 2], 3); ([2], 4)] /\ exists res x, mcf_nonparametric (systems [([1; 2], 3); ([2], 4)]) (95 / 100) = (Ok res, x).
Proof. split; [repeat constructor; cbn; lra|]. apply mcf_succeeds; [apply systems_ne|exists [1; 2; 3]; split; [now left|cbn; lia]|lra]. Qed.
