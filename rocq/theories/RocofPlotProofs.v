From Coquelicot Require Import Coquelicot.
From Coq Require Import List Arith Reals Lra Lia Bool Permutation Sorted.
From Verif Require Import Base RealFacts RList NonparModel RepairModel Gauss RepairProofs RepairProofs3 MCFProofs MCFProps PlotProofs GrowthProofs RepairSpec RocofPlotModel RocofPlotSpec.
Import ListNotations.
Open Scope R_scope.

(** The maximum of the likelihood of a power law process observed up to T. *)
Lemma plp_max times T : Forall (fun t => 0 < t) times -> times <> [] ->
  let n := INR (length times) in
  let d := rsum (map (fun t => ln (T / t)) times) in
  0 < T -> 0 < d ->
  let b := n / d in let l := n / Rpower T b in
  0 < b /\ 0 < l /\
  forall lam bet, 0 < lam -> 0 < bet ->
    plp_loglik lam bet times T <= plp_loglik l b times T /\
    (lam <> l \/ bet <> b -> plp_loglik lam bet times T < plp_loglik l b times T).
Proof.
  intros HF Hne n d HT Hd b l.
  assert (0 < n) as Hn. { apply lt_0_INR. destruct times; [congruence|simpl; lia]. }
  set (S := rsum (map ln times)).
  assert (d = n * ln T - S) as Ed.
  { unfold d, S. rewrite (rsum_ext _ (fun t => ln T + (- 1) * ln t)).
    - rewrite rsum_plus, rsum_const, rsum_scal. fold n. lra.
    - intros t Ht. rewrite Forall_forall in HF. specialize (HF t Ht). rewrite ln_div by assumption. lra. }
  assert (0 < b) as HBp by (unfold b; now apply Rdiv_lt_0_compat).
  assert (0 < l) as HLp by (unfold l; apply Rdiv_lt_0_compat; [assumption|apply exp_pos]).
  split; [assumption|]. split; [assumption|]. intros lam bet Hl Hb.
  rewrite !plp_loglik_closed by assumption. fold n S.
  set (P := Rpower T bet). assert (0 < P) as HP by apply exp_pos.
  assert (ln P = bet * ln T) as HlnP by (unfold P, Rpower; apply ln_exp).
  assert (l * Rpower T b = n) as HLT.
  { unfold l. field. apply Rgt_not_eq, exp_pos. }
  assert (ln l = ln n - b * ln T) as HlnL.
  { unfold l. rewrite ln_div; [|assumption|apply exp_pos]. unfold Rpower. rewrite ln_exp. ring. }
  rewrite HLT, HlnL.
  set (x := lam * P / n). set (y := bet * d / n).
  assert (0 < x) as Hx by (unfold x; apply Rdiv_lt_0_compat; [now apply Rmult_lt_0_compat|assumption]).
  assert (0 < y) as Hy by (unfold y; apply Rdiv_lt_0_compat; [now apply Rmult_lt_0_compat|assumption]).
  assert (ln lam = ln x + ln n - bet * ln T) as El.
  { unfold x. rewrite ln_div, ln_mult, HlnP; try assumption; [ring|]. now apply Rmult_lt_0_compat. }
  assert (ln bet = ln y + ln b) as Eb.
  { unfold b, y. rewrite !ln_div, ln_mult; try assumption; [ring|]. now apply Rmult_lt_0_compat. }
  assert (lam * P = n * x) as Ex by (unfold x; field; lra).
  assert (bet * d = n * y) as Ey by (unfold y; field; lra).
  assert (b * d = n) as EB by (unfold b; field; lra).
  assert (S = n * ln T - d) as ES by lra.
  rewrite El, Eb, Ex, ES.
  pose proof (ln_le_minus_1 x Hx) as Lx. pose proof (ln_le_minus_1 y Hy) as Ly.
  match goal with |- ?a <= ?b /\ _ =>
    assert (a - b = n * (ln x - (x - 1)) + n * (ln y - (y - 1))) as EQ end.
  { transitivity (n * ln x - n * x + n * ln y - bet * d + n + b * d); [ring|]. rewrite EB, Ey. ring. }
  split; [nra|].
  intros Hneq.
  assert (x <> 1 \/ y <> 1) as Hxy.
  { destruct (Req_EM_T y 1) as [Y|Y]; [|now right]. left. intros X.
    assert (bet = b) as Hbc. { unfold b. apply Rmult_eq_reg_r with d; [|lra]. rewrite Ey, Y. field. lra. }
    destruct Hneq as [Hneq|Hneq]; [|contradiction]. apply Hneq. unfold l. rewrite <- Hbc. fold P.
    apply Rmult_eq_reg_r with P; [|lra]. rewrite Ex, X. field. lra. }
  destruct Hxy as [X|Y].
  - pose proof (ln_lt_minus_1 x Hx X). nra.
  - pose proof (ln_lt_minus_1 y Hy Y). nra.
Qed.
Lemma plp_perm lam bet t t' T : Permutation t t' -> plp_loglik lam bet t T = plp_loglik lam bet t' T.
Proof. intros P. unfold plp_loglik. f_equal. now apply rsum_perm, Permutation_map. Qed.

(** The ages in order are the partial sums of the gaps. *)
Lemma cumsum_sorted ti : forall a, Forall (fun t => 0 < t) ti -> StronglySorted Rle (cumsum a ti) /\ Forall (fun t => a <= t) (cumsum a ti).
Proof.
  induction ti as [|x ti IH]; intros a H; cbn [cumsum]; [split; constructor|]. inversion H; subst.
  destruct (IH (a + x) ltac:(assumption)) as [S F]. split.
  - constructor; assumption.
  - constructor; [lra|]. eapply Forall_impl; [|exact F]. cbn. intros; lra.
Qed.
Lemma ages_cumsum g : failure_ages (Some g) None = cumsum 0 g.
Proof. cbn [failure_ages]. rewrite cumsum_prefix. apply map_ext. intros. ring. Qed.
Lemma input_ages tbf ft ti : rocof_input tbf ft = Ok ti -> in_order (cumsum 0 ti) (failure_ages tbf ft).
Proof.
  unfold rocof_input. destruct tbf as [l|], ft as [f|]; try discriminate.
  - destruct (existsb _ l) eqn:E; [discriminate|]. intros H. injection H as <-. apply existsb_nonpos in E.
    rewrite ages_cumsum. split; [reflexivity|]. now apply (cumsum_sorted l 0).
  - destruct (existsb _ f) eqn:E; [discriminate|]. intros H. injection H as <-. rewrite cumsum_diffs. split.
    + symmetry. apply isort_perm.
    + apply sorted_R.
Qed.
Lemma in_order_unique s s' ages : in_order s ages -> in_order s' ages -> s = s'.
Proof. intros [P S] [P' S']. apply sorted_unique_R; try assumption. now rewrite P, P'. Qed.
Lemma last_default {A} (l : list A) a b : l <> [] -> last l a = last l b.
Proof. intros H. destruct (exists_last H) as (m & x & ->). now rewrite !last_last. Qed.
Lemma last_cumsum ti : forall a, last (cumsum a ti) a = a + rsum ti.
Proof.
  induction ti as [|x ti IH]; intros a; [simpl; ring|]. cbn [cumsum]. destruct ti as [|y ti]; [simpl; ring|].
  rewrite rsum_cons. transitivity (last (cumsum (a + x) (y :: ti)) (a + x)).
  - transitivity (last (cumsum (a + x) (y :: ti)) a); [reflexivity|apply last_default; discriminate].
  - rewrite IH. ring.
Qed.
Lemma sorted_last_max l : l <> [] -> StronglySorted Rle l -> rmax l = last l 0.
Proof.
  intros Hne S. destruct (exists_last Hne) as (m & x & ->). rewrite last_last.
  assert (Forall (fun y => y <= x) (m ++ [x])) as F.
  { clear Hne. induction m as [|y m IH]; [constructor; [lra|constructor]|]. cbn [app] in *. inversion S as [|? ? S' F]; subst. constructor; [|now apply IH].
    rewrite Forall_forall in F. apply F, in_or_app. right. now left. }
  rewrite Forall_forall in F. apply Rle_antisym.
  - apply F, rmax_in, Hne.
  - apply rmax_ge, in_or_app. right. now left.
Qed.
Lemma total_max tbf ft ti : rocof_input tbf ft = Ok ti -> ti <> [] -> rsum ti = rmax (failure_ages tbf ft).
Proof.
  intros H Hne. pose proof (input_ages _ _ _ H) as [P S]. rewrite <- (rmax_perm _ _ P).
  assert (cumsum 0 ti <> []) as N by (destruct ti; [congruence|discriminate]).
  rewrite sorted_last_max by assumption. rewrite last_cumsum. lra.
Qed.

(** The result in terms of the ages. *)
Definition spread (ages : list R) (T : R) : R := rsum (map (fun t => ln (T / t)) ages).
Lemma ROCOF_inv tbf ft CI te r : ROCOF tbf ft CI te = Ok r ->
  let ages := failure_ages tbf ft in let T := observed_until ages te in let n := INR (length ages) in
  Forall (fun t => 0 < t) ages /\ ages <> [] /\ (forall t, In t ages -> t <= T) /\ 0 < CI < 1 /\ r_z_crit r = norm_ppf ((1 - CI) / 2) /\ (r_trend r = Improving <-> r_U r < r_z_crit r) /\ (r_trend r = Worsening <-> - r_z_crit r < r_U r) /\ (forall e, te = Some e -> r_U r = laplace_statistic ages e) /\ (r_trend r = Constant /\ r_Beta r = None /\ r_Lambda r = None \/
   r_trend r <> Constant /\ (spread ages T = 0 /\ r_Beta r = None /\ r_Lambda r = None \/
     spread ages T <> 0 /\ r_Beta r = Some (n / spread ages T) /\ r_Lambda r = Some (n / Rpower T (n / spread ages T)))).
Proof.
  unfold ROCOF. destruct (rocof_input tbf ft) as [ti|] eqn:EI; [|discriminate]. cbn [bind]. intros H. cbv zeta.
  pose proof (rocof_inv _ _ _ _ H) as (HCI & Hte & HL & EU & EZ & I & Wo & C & _).
  pose proof (input_ages _ _ _ EI) as [P S]. pose proof (rocof_input_pos _ _ _ EI) as HF.
  assert (ti <> []) as Hne.
  { intros ->. unfold rocof in H. destruct (Rleb CI 0 || Rleb 1 CI); [discriminate|]. destruct te as [e|].
    - destruct (Rltb e (rsum [])); cbn in H; discriminate.
    - cbn in H. discriminate. }
  pose proof (total_max _ _ _ EI Hne) as EM.
  set (ages := failure_ages tbf ft) in *. set (s := cumsum 0 ti) in *.
  assert (length s = length ti) as Ls by apply cumsum_length.
  assert (s <> []) as Hs by (destruct ti; [congruence|discriminate]).
  assert (ages <> []) as Ha by (intros E; apply Hs, Permutation_nil; rewrite <- E; now symmetry).
  assert (length ages = length ti) as La by (rewrite <- Ls; symmetry; now apply Permutation_length).
  assert (observed_until ages te = match te with None => rsum ti | Some e => e end) as ET by (destruct te; [reflexivity|symmetry; exact EM]).
  assert (forall t, In t ages -> t <= observed_until ages te) as HT.
  { intros t Ht. rewrite ET. assert (t <= rsum ti) as Q by (rewrite EM; now apply rmax_ge). destruct te as [e|]; [simpl in Hte; lra|exact Q]. }
  split; [now apply (Permutation_Forall P)|]. split; [exact Ha|]. split; [exact HT|]. split; [exact HCI|].
  split; [exact EZ|]. split; [exact I|]. split; [exact Wo|]. split.
  { intros e ->. rewrite EU, laplace_is_statistic by (unfold gaps; destruct ti; discriminate).
    rewrite gaps_total, arrivals_cumsum. unfold gaps. rewrite removelast_last. fold s. unfold laplace_statistic.
    now rewrite (rsum_perm _ _ P), (Permutation_length P). }
  assert (spread ages (observed_until ages te) = rsum (map (fun t => ln (match te with None => rsum ti | Some e => e end / t)) (cumsum 0 (firstn (match te with None => (length ti - 1)%nat | Some _ => length ti end) ti)))) as ES.
  { rewrite ET. unfold spread. rewrite <- (rsum_perm _ _ (Permutation_map _ P)). destruct te as [e|].
    - now rewrite firstn_all.
    - rewrite cumsum_firstn. fold s. rewrite <- Ls, firstn_removelast.
      pose proof (last_cumsum ti 0) as LC. fold s in LC. destruct (exists_last Hs) as (m & x & E). rewrite E in *. rewrite last_last in LC. rewrite removelast_last, map_app, rsum_app. cbn [map]. rewrite rsum_cons.
      replace (rsum ti) with x by lra. assert (0 < x) by (apply Forall_app in HF as [_ HF]; now inversion HF).
      replace (x / x) with 1 by (field; lra). rewrite ln_1. cbn. ring. }
  rewrite ES, ET, La. clear ES. unfold rocof in H.
  destruct (Rleb CI 0 || Rleb 1 CI); [discriminate|].
  destruct (match te with None => false | Some e => Rltb e (rsum ti) end); [discriminate|].
  destruct (Nat.eqb _ 0); [discriminate|]. cbv zeta in H.
  set (sp := rsum (map _ _)) in *.
  destruct (Rlt_dec _ _); [|destruct (Rlt_dec _ _)]; injection H as <-; cbn [r_trend r_Beta r_Lambda].
  - right. split; [discriminate|]. destruct (Req_EM_T sp 0) as [E|E]; [left|right]; auto.
  - right. split; [discriminate|]. destruct (Req_EM_T sp 0) as [E|E]; [left|right]; auto.
  - left. auto.
Qed.
Lemma spread_nonneg ages T : Forall (fun t => 0 < t) ages -> (forall t, In t ages -> t <= T) ->
  0 <= spread ages T /\ (spread ages T = 0 <-> Forall (fun t => t = T) ages).
Proof.
  intros HF HT. unfold spread. induction HF as [|t l Ht HF IH]; cbn [map].
  - split; [simpl; lra|]. split; [constructor|reflexivity].
  - rewrite rsum_cons. destruct (IH ltac:(intros; apply HT; now right)) as [N E]. specialize (HT t ltac:(now left)).
    assert (0 <= ln (T / t)) as Q. { rewrite ln_div by lra. destruct HT as [HT| ->]; [|lra]. pose proof (ln_increasing t T Ht HT). lra. }
    split; [lra|]. split; intros H.
    + assert (ln (T / t) = 0) as Z by lra. constructor; [|apply E; lra]. rewrite ln_div in Z by lra. apply ln_inv; lra.
    + inversion H; subst. assert (T / T = 1) as -> by (field; lra). rewrite ln_1, (proj2 E) by assumption. ring.
Qed.

Lemma ROCOF_ok ft CI e : 0 < CI < 1 -> Forall (fun t => 0 < t <= e) ft -> ft <> [] -> exists r, ROCOF None (Some ft) CI (Some e) = Ok r.
Proof.
  intros HCI HF Hne. unfold ROCOF.
  assert (rocof_input None (Some ft) = Ok (diffs 0 (isort Rleb ft))) as E.
  { cbn [rocof_input]. replace (existsb (fun t => Rleb t 0) ft) with false; [reflexivity|]. symmetry. apply existsb_nonpos. eapply Forall_impl; [|exact HF]. cbn. intros; lra. }
  rewrite E. cbn [bind]. set (ti := diffs 0 (isort Rleb ft)) in *.
  assert (ti <> []) as N.
  { intros Z. pose proof (input_ages _ _ _ E) as [P _]. rewrite Z in P. cbn in P. apply Permutation_nil in P. now apply Hne. }
  apply rocof_ok; [exact HCI| |].
  - cbn [te_ok]. rewrite (total_max _ _ _ E N). cbn [failure_ages]. rewrite Forall_forall in HF. apply HF, rmax_in, Hne.
  - unfold gaps. rewrite app_length. destruct ti; [congruence|]. cbn [length]. lia.
Qed.
Lemma large_statistic K c : 0 < c -> exists n0 : nat, forall n : nat, (n0 <= n)%nat -> (1 <= n)%nat -> K < c / sqrt (1 / (12 * INR n)).
Proof.
  intros Hc. destruct (nfloor_ex (Rmax 0 ((K / c) ^ 2))) as [m [_ Hm]]; [apply Rmax_l|]. set (n0 := S m). assert ((K / c) ^ 2 < INR n0) as Hn by (unfold n0; rewrite S_INR; eapply Rle_lt_trans; [apply Rmax_r|exact Hm]). exists n0. intros n H1 H2.
  assert (INR n0 <= INR n) by now apply le_INR. assert (1 <= INR n) by (change 1 with (INR 1); now apply le_INR).
  assert (c / sqrt (1 / (12 * INR n)) = c * sqrt (12 * INR n)) as ->.
  { rewrite sqrt_div_alt, sqrt_1 by lra. assert (0 < sqrt (12 * INR n)) by (apply sqrt_lt_R0; lra). field. lra. }
  assert (K / c < sqrt (12 * INR n)) as Q.
  { apply Rle_lt_trans with (Rabs (K / c)); [apply Rle_abs|]. rewrite <- sqrt_Rsqr_abs. apply sqrt_lt_1_alt. unfold Rsqr. split; [apply Rle_0_sqr|]. replace ((K / c) ^ 2) with (K / c * (K / c)) in Hn by ring. lra. }
  apply Rmult_lt_reg_r with (/ c); [now apply Rinv_0_lt_compat|]. replace (c * sqrt (12 * INR n) * / c) with (sqrt (12 * INR n)) by (field; lra). exact Q.
Qed.
Lemma rsum_repeat (x : R) n : rsum (repeat x n) = INR n * x.
Proof. induction n as [|n IH]; [simpl; ring|]. cbn [repeat]. rewrite rsum_cons, IH, S_INR. ring. Qed.
Lemma map_repeat' {A B} (f : A -> B) x n : map f (repeat x n) = repeat (f x) n.
Proof. induction n; simpl; congruence. Qed.
Lemma statistic_scale ages T c : T <> 0 -> ages <> [] -> mean_age ages = T * (1 / 2 + c) -> laplace_statistic ages T = c / sqrt (1 / (12 * INR (length ages))).
Proof.
  intros HT Hne E. unfold laplace_statistic. cbv zeta. unfold mean_age in E. rewrite E.
  assert (0 < INR (length ages)) by (apply lt_0_INR; destruct ages; [congruence|simpl; lia]).
  assert (0 < sqrt (1 / (12 * INR (length ages)))) by (apply sqrt_lt_R0, Rdiv_lt_0_compat; lra).
  field. split; lra.
Qed.
Lemma Forall_repeat {A} (P : A -> Prop) x n : P x -> Forall P (repeat x n).
Proof. intros H. apply Forall_forall. intros y Hy. apply repeat_spec in Hy. now subst. Qed.

Lemma improving_rising CI : 0 < CI < 1 -> exists ft e r b, ROCOF None (Some ft) CI (Some e) = Ok r /\ r_trend r = Improving /\ r_Beta r = Some b /\ 1 < b.
Proof.
  intros HCI. destruct (large_statistic (- norm_ppf ((1 - CI) / 2)) (1 / 10) ltac:(lra)) as [n0 Hn].
  set (n := S n0). set (ft := repeat 4 n).
  assert (ft <> []) as Hne by discriminate.
  assert (length ft = n) as L by apply repeat_length.
  assert (0 < INR n) as Pn by (apply lt_0_INR; unfold n; lia).
  destruct (ROCOF_ok ft CI 10 HCI) as [r Hr]; [apply Forall_repeat; lra|exact Hne|].
  pose proof (ROCOF_inv _ _ _ _ _ Hr) as (_ & _ & _ & _ & EZ & I & _ & EU & HB). cbn [failure_ages observed_until] in *.
  specialize (EU 10 eq_refl). rewrite (statistic_scale ft 10 (- (1 / 10))) in EU; [|lra|exact Hne|].
  2:{ unfold mean_age, ft. rewrite rsum_repeat, repeat_length. field. lra. }
  rewrite L in EU. specialize (Hn n ltac:(unfold n; lia) ltac:(unfold n; lia)).
  assert (r_trend r = Improving) as TI. { apply I. rewrite EU, EZ. set (q := sqrt _) in *. replace (- (1 / 10) / q) with (- (1 / 10 / q)) by (unfold Rdiv; ring). lra. }
  assert (spread ft 10 = INR n * ln (10 / 4)) as ES by (unfold spread, ft; now rewrite map_repeat', rsum_repeat).
  assert (0 < ln (10 / 4)) as Q0 by (rewrite <- ln_1; apply ln_increasing; lra).
  assert (ln (10 / 4) < 1) as Q1.
  { rewrite <- (ln_exp 1). apply ln_increasing; [lra|]. replace 1 with (1 / 8 + 1 / 8 + 1 / 8 + 1 / 8 + 1 / 8 + 1 / 8 + 1 / 8 + 1 / 8) by lra. rewrite !exp_plus.
    pose proof (exp_ineq1 (1 / 8) ltac:(lra)) as Q. set (v := exp (1 / 8)) in *. assert (9 / 8 < v) as Q' by lra. assert (81 / 64 < v * v) as Q2 by nra. assert (6561 / 4096 < v * v * v * v) as Q4 by nra.
    assert (10 / 4 < (v * v * v * v) * (v * v * v * v)) by nra. lra. }
  destruct HB as [[T _]|[_ [[Z _]|(_ & B & _)]]]; [congruence|rewrite ES in Z; nra|].
  exists ft, 10, r, (INR (length ft) / spread ft 10). split; [exact Hr|]. split; [exact TI|]. split; [exact B|].
  rewrite ES, L. apply Rmult_lt_reg_r with (INR n * ln (10 / 4)); [nra|]. replace (INR n / (INR n * ln (10 / 4)) * (INR n * ln (10 / 4))) with (INR n) by (field; split; lra). nra.
Qed.
Lemma worsening_falling CI : 0 < CI < 1 -> exists ft e r b, ROCOF None (Some ft) CI (Some e) = Ok r /\ r_trend r = Worsening /\ r_Beta r = Some b /\ b < 1.
Proof.
  intros HCI. destruct (large_statistic (- norm_ppf ((1 - CI) / 2)) (1001 / 4000) ltac:(lra)) as [n0 Hn].
  set (n := S n0). set (ft := repeat 1 n ++ repeat 1000 (3 * n)).
  assert (ft <> []) as Hne by discriminate.
  assert (length ft = (4 * n)%nat) as L by (unfold ft; rewrite app_length, !repeat_length; lia).
  assert (0 < INR n) as Pn by (apply lt_0_INR; unfold n; lia).
  assert (INR (3 * n) = 3 * INR n) as E3 by (rewrite mult_INR; simpl; lra). assert (INR (4 * n) = 4 * INR n) as E4 by (rewrite mult_INR; simpl; lra).
  destruct (ROCOF_ok ft CI 1000 HCI) as [r Hr]; [apply Forall_app; split; apply Forall_repeat; lra|exact Hne|].
  pose proof (ROCOF_inv _ _ _ _ _ Hr) as (_ & _ & _ & _ & EZ & _ & W & EU & HB). cbn [failure_ages observed_until] in *.
  specialize (EU 1000 eq_refl). rewrite (statistic_scale ft 1000 (1001 / 4000)) in EU; [|lra|exact Hne|].
  2:{ unfold mean_age. rewrite L, E4. unfold ft. rewrite rsum_app, !rsum_repeat, E3. field. lra. }
  rewrite L in EU. specialize (Hn (4 * n)%nat ltac:(unfold n; lia) ltac:(unfold n; lia)).
  assert (r_trend r = Worsening) as TI by (apply W; rewrite EU, EZ; exact Hn).
  assert (spread ft 1000 = INR n * ln 1000) as ES.
  { unfold spread, ft. rewrite map_app, !map_repeat', rsum_app, !rsum_repeat. replace (1000 / 1000) with 1 by lra. replace (1000 / 1) with 1000 by lra. rewrite ln_1. ring. }
  assert (4 < ln 1000) as Q1.
  { rewrite <- (ln_exp 4). apply ln_increasing; [apply exp_pos|]. replace 4 with (1 + 1 + 1 + 1) by lra. rewrite !exp_plus. pose proof exp_le_3. pose proof (exp_pos 1). set (v := exp 1) in *.
    assert (v * v <= 9) by nra. assert (v * v * v * v <= 81) by nra. lra. }
  destruct HB as [[T _]|[_ [[Z _]|(_ & B & _)]]]; [congruence|rewrite ES in Z; nra|].
  exists ft, 1000, r, (INR (length ft) / spread ft 1000). split; [exact Hr|]. split; [exact TI|]. split; [exact B|].
  rewrite ES, L, E4. apply Rmult_lt_reg_r with (INR n * ln 1000); [nra|]. replace (4 * INR n / (INR n * ln 1000) * (INR n * ln 1000)) with (4 * INR n) by (field; split; lra). nra.
Qed.

(** Jensen: the spread from the mean age. *)
Lemma spread_jensen ages T : Forall (fun t => 0 < t) ages -> ages <> [] -> 0 < T -> mean_age ages <= T / exp 1 -> INR (length ages) <= spread ages T.
Proof.
  intros HF Hne HT HM. pose proof (exp_pos 1) as He.
  assert (forall l, Forall (fun t => 0 < t) l -> 2 * INR (length l) - exp 1 / T * rsum l <= spread l T) as K.
  { clear - HT He. induction 1 as [|t l Ht HF IH]; [unfold spread; simpl; lra|]. unfold spread in *. cbn [map length]. rewrite !rsum_cons, S_INR.
    assert (2 - exp 1 / T * t <= ln (T / t)) as Q.
    { pose proof (ln_le_minus_1 (exp 1 / T * t)) as Q. assert (0 < exp 1 / T * t) as P by (apply Rmult_lt_0_compat; [now apply Rdiv_lt_0_compat|assumption]). specialize (Q P).
      rewrite ln_mult in Q; [|now apply Rdiv_lt_0_compat|assumption]. rewrite ln_div, ln_exp in Q by assumption. rewrite ln_div by assumption. lra. }
    nra. }
  specialize (K ages HF). assert (0 < INR (length ages)) as Hn by (apply lt_0_INR; destruct ages; [congruence|simpl; lia]).
  assert (exp 1 / T * rsum ages <= INR (length ages)) as Q; [|lra].
  unfold mean_age in HM. apply Rmult_le_reg_r with (T / exp 1); [now apply Rdiv_lt_0_compat|].
  replace (exp 1 / T * rsum ages * (T / exp 1)) with (rsum ages) by (field; lra).
  apply Rmult_le_compat_r with (r := INR (length ages)) in HM; [|lra]. replace (rsum ages / INR (length ages) * INR (length ages)) with (rsum ages) in HM by (field; lra). lra.
Qed.

(** The plot. *)
Lemma nth_cumsum_gap ti : forall a i, (i < length ti)%nat -> nth i ti 0 = nth i (cumsum a ti) 0 - match i with O => a | S j => nth j (cumsum a ti) 0 end.
Proof.
  induction ti as [|x ti IH]; intros a [|i] H; cbn [length] in H; [lia|lia|cbn; ring|]. cbn [cumsum nth]. rewrite (IH (a + x)) by lia. destruct i; reflexivity.
Qed.
Lemma numbers_nth ti i : (i < length ti)%nat -> nth_error (numbers ti) i = Some (INR (S i)).
Proof. intros H. unfold numbers. rewrite nth_error_map, (nth_error_nth' _ 0%nat) by now rewrite seq_length. now rewrite seq_nth. Qed.
Lemma numbers_length ti : length (numbers ti) = length ti.
Proof. unfold numbers. now rewrite map_length, seq_length. Qed.
Lemma nth_error_combine {A B} (l : list A) : forall (m : list B) i a b, nth_error l i = Some a -> nth_error m i = Some b -> nth_error (combine l m) i = Some (a, b).
Proof. induction l as [|x l IH]; intros [|y m] [|i] a b; cbn; try discriminate; [congruence|apply IH]. Qed.
Lemma nth_error_removelast {A} (l : list A) i : (i < length l - 1)%nat -> nth_error (removelast l) i = nth_error l i.
Proof.
  intros H. destruct l as [|x l]; [simpl in H; lia|]. destruct (exists_last (l := x :: l) ltac:(discriminate)) as (m & y & E). rewrite E in *. rewrite removelast_last. rewrite app_length in H. cbn [length] in H.
  symmetry. apply nth_error_app1. lia.
Qed.
Lemma ok_inj {A} (x y : A) : Ok x = Ok y -> x = y.
Proof. congruence. Qed.
Lemma nth_error_same {A} (l : list A) : forall m, (forall i, nth_error l i = nth_error m i) -> l = m.
Proof.
  induction l as [|x l IH]; intros [|y m] H; [reflexivity|discriminate (H 0%nat)|discriminate (H 0%nat)|].
  pose proof (H 0%nat) as E. cbn in E. injection E as ->. f_equal. apply IH. intros i. exact (H (S i)).
Qed.
Lemma removelast_len {A} (l : list A) : length (removelast l) = (length l - 1)%nat.
Proof. rewrite <- firstn_removelast, firstn_length. lia. Qed.
Lemma repeat_sorted (x : R) n : StronglySorted Rle (repeat x n).
Proof. induction n as [|n IH]; cbn [repeat]; constructor; [exact IH|]. apply Forall_repeat. lra. Qed.
