(** Lemmas on the parametric mean cumulative function. *)
From Coquelicot Require Import Coquelicot.
From Coq Require Import List Arith Reals Lra Lia Bool Sorted Permutation.
From Verif Require Import Base RealFacts Gauss RList Linear NonparModel NonparProofs RepairModel RepairSpec RepairProofs RepairProofs2 RepairProofs3 RegProofs PoFModel CIModel CIProofs MCFModel MCFSpec.
Import ListNotations.
Open Scope R_scope.

(** ** Second differences of powers *)
Lemma rpower_above w b : 0 < w -> 1 < b -> w <> 1 -> 1 + b * (w - 1) < Rpower w b.
Proof. intros H1 H2 H3. pose proof (bernoulli_strict w b H1 H2 H3). lra. Qed.
Lemma rpower_below w b : 0 < w -> 0 < b < 1 -> w <> 1 -> Rpower w b < 1 + b * (w - 1).
Proof.
  intros H1 H2 H3. set (v := Rpower w b). assert (0 < v) as Hv by apply exp_pos.
  assert (Rpower v (/ b) = w) as E by (unfold v; rewrite Rpower_mult, Rinv_r by lra; now apply Rpower_1).
  assert (v <> 1) as Nv by (intros Ev; rewrite Ev in E; unfold Rpower in E; rewrite ln_1, Rmult_0_r, exp_0 in E; lra).
  pose proof (rpower_above v (/ b) Hv) as K. assert (1 < / b) as Hb by (rewrite <- Rinv_1; apply Rinv_lt_contravar; lra). specialize (K Hb Nv). rewrite E in K.
  assert (b * (1 + / b * (v - 1)) < b * w) as K' by (apply Rmult_lt_compat_l; lra). replace (b * (1 + / b * (v - 1))) with (b + v - 1) in K' by (field; lra). lra.
Qed.
Lemma power_law_mid a b t h : 0 < a -> 0 < t -> 0 < h ->
  let m := t + h in power_law a b t = power_law a b m * Rpower (t / m) b /\ power_law a b (t + 2 * h) = power_law a b m * Rpower ((t + 2 * h) / m) b /\
  t / m + (t + 2 * h) / m = 2 /\ 0 < t / m /\ 0 < (t + 2 * h) / m /\ t / m <> 1 /\ (t + 2 * h) / m <> 1 /\ 0 < power_law a b m.
Proof.
  intros Ha Ht Hh m. assert (0 < m) as Hm by (unfold m; lra). unfold power_law.
  assert (0 < t / m) by (apply Rdiv_lt_0_compat; lra). assert (0 < (t + 2 * h) / m) by (apply Rdiv_lt_0_compat; lra). assert (0 < m / a) by (apply Rdiv_lt_0_compat; lra).
  split; [rewrite Rpower_mult_distr by assumption; f_equal; field; lra|].
  split; [rewrite Rpower_mult_distr by assumption; f_equal; field; lra|].
  split; [unfold m; field; unfold m in Hm; lra|]. split; [assumption|]. split; [assumption|].
  split; [intros E; apply (f_equal (fun x => x * m)) in E; replace (t / m * m) with t in E by (field; lra); unfold m in E; lra|].
  split; [intros E; apply (f_equal (fun x => x * m)) in E; replace ((t + 2 * h) / m * m) with (t + 2 * h) in E by (field; lra); unfold m in E; lra|apply exp_pos].
Qed.
Lemma falls a b : 0 < a -> 0 < b < 1 -> really_falls (power_law a b).
Proof.
  intros Ha Hb t h Ht Hh. destruct (power_law_mid a b t h Ha Ht Hh) as (-> & -> & E & P1 & P2 & N1 & N2 & P). set (m := t + h) in *.
  pose proof (rpower_below _ b P1 Hb N1) as K1. pose proof (rpower_below _ b P2 Hb N2) as K2.
  assert (Rpower (t / m) b + Rpower ((t + 2 * h) / m) b < 2) as K by (assert (b * (t / m + (t + 2 * h) / m) = b * 2) by (now rewrite E); lra).
  apply (Rmult_lt_compat_l _ _ _ P) in K. lra.
Qed.
Lemma rises a b : 0 < a -> 1 < b -> really_rises (power_law a b).
Proof.
  intros Ha Hb t h Ht Hh. destruct (power_law_mid a b t h Ha Ht Hh) as (-> & -> & E & P1 & P2 & N1 & N2 & P). set (m := t + h) in *.
  pose proof (rpower_above _ b P1 Hb N1) as K1. pose proof (rpower_above _ b P2 Hb N2) as K2.
  assert (2 < Rpower (t / m) b + Rpower ((t + 2 * h) / m) b) as K by (assert (b * (t / m + (t + 2 * h) / m) = b * 2) by (now rewrite E); lra).
  apply (Rmult_lt_compat_l _ _ _ P) in K. lra.
Qed.
Lemma straight a t : 0 < a -> 0 < t -> power_law a 1 t = t / a.
Proof. intros Ha Ht. unfold power_law. apply Rpower_1. apply Rdiv_lt_0_compat; lra. Qed.
Lemma no_rise a b : 0 < a -> 0 < b <= 1 -> never_rises (power_law a b).
Proof.
  intros Ha Hb t h Ht Hh. destruct (Req_dec b 1) as [-> |N].
  - rewrite !straight by lra. apply Req_le. field. lra.
  - left. apply falls; lra.
Qed.
Lemma no_fall a b : 0 < a -> 1 <= b -> never_falls (power_law a b).
Proof.
  intros Ha Hb t h Ht Hh. destruct (Req_dec b 1) as [-> |N].
  - rewrite !straight by lra. apply Req_le. field. lra.
  - left. apply rises; lra.
Qed.

(** ** Limits *)
Lemma exp_le_iff x y : exp x <= exp y <-> x <= y.
Proof. split; intros H; [destruct (Rle_lt_dec x y) as [L|L]; [exact L|apply exp_increasing in L; lra]|destruct H as [L| ->]; [left; now apply exp_increasing|lra]]. Qed.
Lemma exp_gt_1 x : 0 < x -> 1 < exp x. Proof. intros H. rewrite <- exp_0. now apply exp_increasing. Qed.
Lemma exp_lt_1 x : x < 0 -> exp x < 1. Proof. intros H. rewrite <- exp_0. now apply exp_increasing. Qed.
Lemma log_limits e se z : e <> 0 -> 0 <= se -> 0 < z ->
  e * exp (- z * (se / e)) <= e <= e * exp (z * (se / e)) /\ (0 < se -> e * exp (- z * (se / e)) < e < e * exp (z * (se / e))) /\
  e * exp (- z * (se / e)) * (e * exp (z * (se / e))) = e ^ 2 /\ (0 < e -> 0 < e * exp (- z * (se / e))).
Proof.
  intros He Hs Hz. split; [|split; [|split]].
  - destruct (Req_dec se 0) as [-> |N]; [unfold Rdiv; rewrite Rmult_0_l, !Rmult_0_r, exp_0; lra|].
    destruct (Rtotal_order e 0) as [L|[L|L]]; [|lra|].
    + assert (0 < - (se / e)) as Q by (replace (- (se / e)) with (se / - e) by (field; lra); apply Rdiv_lt_0_compat; lra).
      pose proof (exp_gt_1 (- z * (se / e)) ltac:(nra)). pose proof (exp_lt_1 (z * (se / e)) ltac:(nra)). nra.
    + assert (0 < se / e) as Q by (apply Rdiv_lt_0_compat; lra). pose proof (exp_lt_1 (- z * (se / e)) ltac:(nra)). pose proof (exp_gt_1 (z * (se / e)) ltac:(nra)). nra.
  - intros Hp. destruct (Rtotal_order e 0) as [L|[L|L]]; [|lra|].
    + assert (0 < - (se / e)) as Q by (replace (- (se / e)) with (se / - e) by (field; lra); apply Rdiv_lt_0_compat; lra).
      pose proof (exp_gt_1 (- z * (se / e)) ltac:(nra)). pose proof (exp_lt_1 (z * (se / e)) ltac:(nra)). nra.
    + assert (0 < se / e) as Q by (apply Rdiv_lt_0_compat; lra). pose proof (exp_lt_1 (- z * (se / e)) ltac:(nra)). pose proof (exp_gt_1 (z * (se / e)) ltac:(nra)). nra.
  - replace (e * exp (- z * (se / e)) * (e * exp (z * (se / e)))) with (e ^ 2 * (exp (- z * (se / e)) * exp (z * (se / e)))) by ring. rewrite <- exp_plus.
    replace (- z * (se / e) + z * (se / e)) with 0 by ring. rewrite exp_0. ring.
  - intros Hp. apply Rmult_lt_0_compat; [exact Hp|apply exp_pos].
Qed.

(** ** The starting point *)
Lemma rsum_split_pair (l : list (R * R)) x y : rsum (map (fun q => (fst q - x) * (snd q - y)) l) =
  rsum (map (fun q => fst q * snd q) l) + INR (length l) * (x * y) - x * rsum (map snd l) - y * rsum (map fst l).
Proof. induction l as [|q l IH]; [cbn; ring|]. cbn [map length]. rewrite !rsum_cons, IH, S_INR. ring. Qed.
Lemma comonotone (l : list (R * R)) : StronglySorted Rle (map fst l) -> StronglySorted Rlt (map snd l) ->
  0 <= INR (length l) * rsum (map (fun q => fst q * snd q) l) - rsum (map fst l) * rsum (map snd l) /\
  ((exists p q, In p l /\ In q l /\ fst p <> fst q) -> 0 < INR (length l) * rsum (map (fun q => fst q * snd q) l) - rsum (map fst l) * rsum (map snd l)).
Proof.
  induction l as [|[x y] l IH]; intros S1 S2; [cbn; split; [lra|intros (p & q & [] & _)]|].
  cbn [map fst snd] in S1, S2. inversion S1 as [|? ? S1' F1]; subst. inversion S2 as [|? ? S2' F2]; subst. destruct (IH S1' S2') as (I1 & I2). clear IH S1 S2.
  rewrite Forall_map, Forall_forall in F1, F2.
  assert (INR (length ((x, y) :: l)) * rsum (map (fun q => fst q * snd q) ((x, y) :: l)) - rsum (map fst ((x, y) :: l)) * rsum (map snd ((x, y) :: l)) =
    INR (length l) * rsum (map (fun q => fst q * snd q) l) - rsum (map fst l) * rsum (map snd l) + rsum (map (fun q => (fst q - x) * (snd q - y)) l)) as ->.
  { cbn [map fst snd length]. rewrite !rsum_cons, S_INR, rsum_split_pair. ring. }
  assert (Forall (fun v => 0 <= v) (map (fun q => (fst q - x) * (snd q - y)) l)) as NN.
  { rewrite Forall_map, Forall_forall. intros q Hq. specialize (F1 q Hq). specialize (F2 q Hq). cbn in *. nra. }
  pose proof (rsum_nonneg _ NN) as N0. split; [lra|].
  intros (p & q & Hp & Hq & N). destruct (Req_dec (rsum (map (fun q => (fst q - x) * (snd q - y)) l)) 0) as [E|E]; [|lra].
  assert (forall q, In q l -> fst q = x) as K.
  { apply rsum_zero_nonneg in E; [|exact NN]. rewrite Forall_forall in E. intros r Hr. specialize (E _ (in_map (fun q => (fst q - x) * (snd q - y)) l r Hr)). cbn beta in E.
    specialize (F2 r Hr). cbn in F2. apply Rmult_integral in E. lra. }
  exfalso. apply N. assert (forall r, In r ((x, y) :: l) -> fst r = x) as K' by (intros r [<-|Hr]; [reflexivity|now apply K]). now rewrite (K' p Hp), (K' q Hq).
Qed.
Lemma slope_pos (l : list (R * R)) : StronglySorted Rle (map fst l) -> StronglySorted Rlt (map snd l) -> Sxx l <> 0 -> 0 < lsq_slope l.
Proof.
  intros S1 S2 N. pose proof (Sxx_nonneg l) as NN. assert (l <> []) as Hne by (intros ->; apply N; reflexivity).
  assert (0 < INR (length l)) as Hn by (apply lt_0_INR; destruct l; [congruence|cbn; lia]).
  assert (exists p q, In p l /\ In q l /\ fst p <> fst q) as D.
  { apply Classical_Prop.NNPP. intros A. apply N. apply Sxx_zero. intros p q Hp Hq. apply Classical_Prop.NNPP. intros B. apply A. eauto. }
  destruct (comonotone l S1 S2) as [_ C]. specialize (C D). unfold lsq_slope. apply Rdiv_lt_0_compat; [|lra]. rewrite Sxy_eq by exact Hne.
  apply Rmult_lt_reg_l with (INR (length l)); [exact Hn|]. rewrite Rmult_0_r.
  replace (INR (length l) * (rsum (map (fun p => fst p * snd p) l) - rsum (map fst l) * rsum (map snd l) / INR (length l)))
    with (INR (length l) * rsum (map (fun p => fst p * snd p) l) - rsum (map fst l) * rsum (map snd l)) by (field; lra). exact C.
Qed.
Lemma sorted_ln_le l : Forall (Rlt 0) l -> StronglySorted Rle l -> StronglySorted Rle (map ln l).
Proof.
  intros P S. induction S as [|x l S IH F]; [constructor|]. inversion P as [|? ? Px Pl]; subst. cbn [map]. apply SSorted_cons; [now apply IH|]. rewrite Forall_map. rewrite Forall_forall in *.
  intros y Hy. destruct (F y Hy) as [L| <-]; [left; now apply ln_increasing|lra].
Qed.
Lemma sorted_ln_lt l : Forall (Rlt 0) l -> StronglySorted Rlt l -> StronglySorted Rlt (map ln l).
Proof.
  intros P S. induction S as [|x l S IH F]; [constructor|]. inversion P as [|? ? Px Pl]; subst. cbn [map]. apply SSorted_cons; [now apply IH|]. rewrite Forall_map. rewrite Forall_forall in *.
  intros y Hy. apply ln_increasing; [exact Px|now apply F].
Qed.
Lemma combine_ln (x y : list R) : combine (map ln x) (map ln y) = map (fun p => (ln (fst p), ln (snd p))) (combine x y).
Proof. revert y. induction x as [|a x IH]; intros [|b y]; cbn; try reflexivity. now rewrite IH. Qed.
Lemma map_fst_combine' {A B} (x : list A) (y : list B) : length x = length y -> map fst (combine x y) = x.
Proof. revert y. induction x as [|a x IH]; intros [|b y] H; try discriminate; [reflexivity|]. cbn. f_equal. apply IH. now injection H. Qed.
Lemma map_snd_combine' {A B} (x : list A) (y : list B) : length x = length y -> map snd (combine x y) = y.
Proof. revert y. induction x as [|a x IH]; intros [|b y] H; try discriminate; [reflexivity|]. cbn. f_equal. apply IH. now injection H. Qed.
Lemma ln_power_law a b t : 0 < a -> 0 < t -> ln (power_law a b t) = b * ln t + - (b * ln a).
Proof. intros Ha Ht. unfold power_law. unfold Rpower. rewrite ln_exp, ln_div by assumption. ring. Qed.
Lemma log_error_sse a b times MCF : 0 < a -> Forall (Rlt 0) times -> log_error a b times MCF = sse (combine (map ln times) (map ln MCF)) b (- (b * ln a)).
Proof.
  intros Ha HT. unfold log_error, sse. rewrite combine_ln, map_map. apply rsum_ext. intros [t m] H. cbn [fst snd].
  rewrite Forall_forall in HT. rewrite ln_power_law; [ring|exact Ha|]. apply HT. apply in_combine_l in H. exact H.
Qed.

(** ** The parametric fit *)
Lemma parametric_inv cf noisy data CI r data' : mcf_parametric cf noisy data CI = (Ok r, data') ->
  0 < CI < 1 /\ exists np guess fit, mcf_nonparametric data (95 / 100) = (Ok np, data') /\ mcf_guess noisy (mcf_time np) (mcf_MCF np) = Ok guess /\
    (2 <= length (mcf_time np))%nat /\ cf (mcf_time np) (mcf_MCF np) guess = Ok fit /\
    pm_times r = mcf_time np /\ pm_MCF r = mcf_MCF np /\ pm_alpha r = cv_alpha fit /\ pm_beta r = cv_beta fit /\
    pm_alpha_SE r = sqrt (cv_var_alpha fit) /\ pm_beta_SE r = sqrt (cv_var_beta fit) /\ pm_cov r = cv_cov fit /\
    pm_alpha_lower r = pm_alpha r * exp (- Z_of CI * (pm_alpha_SE r / pm_alpha r)) /\ pm_alpha_upper r = pm_alpha r * exp (Z_of CI * (pm_alpha_SE r / pm_alpha r)) /\
    pm_beta_lower r = pm_beta r * exp (- Z_of CI * (pm_beta_SE r / pm_beta r)) /\ pm_beta_upper r = pm_beta r * exp (Z_of CI * (pm_beta_SE r / pm_beta r)) /\
    pm_verdict r = verdict (pm_beta_lower r) (pm_beta_upper r).
Proof.
  unfold mcf_parametric. intros H. destruct (Rleb CI 0 || Rleb 1 CI) eqn:E; [discriminate|]. apply orb_false_iff in E. destruct E as [E1 E2]. apply Rleb_false in E1, E2. split; [lra|].
  destruct (mcf_nonparametric data (95 / 100)) as [np d'] eqn:EN. injection H as H <-. apply bind_ok in H. destruct H as (n & -> & H). apply bind_ok in H. destruct H as (g & HG & H).
  apply bind_ok in H. destruct H as (f & HF & H). injection H as <-. destruct (length (mcf_time n) <? 2)%nat eqn:EL; [discriminate|]. apply Nat.ltb_ge in EL.
  exists n, g, f. repeat (split; [assumption || reflexivity|]). reflexivity.
Qed.
Lemma mcf_positive data res data' : Forall (fun s => s <> []) data -> mcf_nonparametric data (95 / 100) = (Ok res, data') ->
  StronglySorted Rle (mcf_time res) /\ StronglySorted Rlt (mcf_MCF res) /\ Forall (Rlt 0) (mcf_MCF res) /\ length (mcf_MCF res) = length (mcf_time res).
Proof.
  intros HF H. destruct (mcf_structure data (95 / 100) HF res data' H) as (_ & HS & Hr & _ & _ & EM & _). split; [exact HS|].
  assert (Forall (fun x => 0 < x) (map (fun t => 1 / INR (systems_observed data t)) (mcf_time res))) as P.
  { rewrite Forall_map, Forall_forall. intros t Ht. apply Rdiv_lt_0_compat; [lra|]. apply lt_0_INR. now apply Hr. }
  destruct (cumsum_incr _ 0 P) as [S F]. rewrite EM. split; [exact S|]. split; [exact F|]. now rewrite cumsum_length, map_length.
Qed.
Lemma sorted_unique_R (l : list R) : forall l', Permutation l l' -> StronglySorted Rle l -> StronglySorted Rle l' -> l = l'.
Proof.
  induction l as [|x l IH]; intros l' P S S'; [apply Permutation_nil in P; now subst|]. destruct l' as [|y l']; [symmetry in P; apply Permutation_nil in P; discriminate|].
  inversion S as [|? ? S1 F1]; subst. inversion S' as [|? ? S1' F1']; subst. rewrite Forall_forall in F1, F1'.
  assert (x = y) as ->.
  { apply Rle_antisym.
    - assert (In y (x :: l)) as [->|I] by (apply (Permutation_in _ (Permutation_sym P)); now left); [lra|now apply F1].
    - assert (In x (y :: l')) as [->|I] by (apply (Permutation_in _ P); now left); [lra|now apply F1']. }
  f_equal. apply IH; [now apply Permutation_cons_inv in P|assumption|assumption].
Qed.
