(** Reliability growth, replacement times and ROCOF. *)
From Coquelicot Require Import Coquelicot.
From Coq Require Import List Arith Reals Bool Permutation Sorted Lra Lia.
From Verif Require Import Base RealFacts Gauss NonparModel NonparProofs RList RepairModel RepairSpec.
Import ListNotations.
Open Scope R_scope.

(** * Crow-AMSAA *)
Lemma ln_lt_minus_1 x : 0 < x -> x <> 1 -> ln x < x - 1.
Proof.
  intros Hx Hn. assert (ln x <> 0) as Hl. { intros E. apply Hn. apply ln_inv; [lra|lra|]. now rewrite ln_1. }
  pose proof (exp_ineq1 (ln x) Hl) as H. rewrite exp_ln in H by assumption. lra.
Qed.

Lemma rmax_ge l x : In x l -> x <= rmax l.
Proof.
  destruct l as [|y l]; [intros []|]. simpl. intros [<-|H].
  - induction l as [|z l IH]; simpl; [lra|]. eapply Rle_trans; [exact IH|apply Rmax_r].
  - induction l as [|z l IH]; [destruct H|]. destruct H as [<-|H]; simpl; [apply Rmax_l|].
    eapply Rle_trans; [exact (IH H)|apply Rmax_r].
Qed.
Lemma rmax_in l : l <> [] -> In (rmax l) l.
Proof.
  destruct l as [|y l]; [congruence|]. intros _. simpl. induction l as [|z l IH]; simpl; [now left|].
  set (m := fold_right Rmax y l) in *. unfold Rmax. destruct (Rle_dec z m) as [H|H].
  - destruct IH as [IH|IH]; [now left|right; now right].
  - right; now left.
Qed.

Lemma plp_loglik_closed lam bet times T : 0 < lam -> 0 < bet -> Forall (fun t => 0 < t) times ->
  plp_loglik lam bet times T =
  INR (length times) * ln lam + INR (length times) * ln bet
  + (bet - 1) * rsum (map ln times) - lam * Rpower T bet.
Proof.
  intros Hl Hb HF. unfold plp_loglik. f_equal.
  rewrite (rsum_ext _ (fun t => (ln lam + ln bet) + (bet - 1) * ln t)).
  - rewrite rsum_plus, rsum_const, rsum_scal. ring.
  - intros t Ht. rewrite Forall_forall in HF. specialize (HF t Ht).
    rewrite ln_mult; [|apply Rmult_lt_0_compat; assumption|unfold Rpower; apply exp_pos].
    rewrite ln_mult by assumption. unfold Rpower at 1. rewrite ln_exp. ring.
Qed.

Lemma existsb_pos times : existsb (fun t => negb (Rltb 0 t)) times = false <-> Forall (fun t => 0 < t) times.
Proof.
  induction times as [|t l IH]; simpl; [split; auto|].
  rewrite orb_false_iff, negb_false_iff, Rltb_true, IH. split.
  - intros [? ?]; now constructor.
  - intros H; inversion H; auto.
Qed.

Lemma crow_inv times r : crow_amsaa times = Ok r ->
  Forall (fun t => 0 < t) times /\ times <> [] /\
  let n := INR (length times) in
  let T := rmax times in
  let d := n * ln T - rsum (map ln times) in
  (d = 0 /\ r = None) \/
  (d <> 0 /\ exists c, r = Some c /\ Beta c = n / d /\ Lambda c = n / Rpower T (n / d) /\
     growth_rate c = 1 - Beta c /\
     DMTBF_I c = 1 / (Lambda c * Beta c * Rpower T (Beta c - 1)) /\ DFI_I c = 1 / DMTBF_I c /\
     DMTBF_C c = 1 / Lambda c * Rpower T (1 - Beta c) /\ DFI_C c = 1 / DMTBF_C c).
Proof.
  unfold crow_amsaa. destruct (existsb _ _) eqn:E; [discriminate|]. apply existsb_pos in E.
  destruct times as [|t l]; [discriminate|]. intros H. split; [exact E|]. split; [discriminate|].
  cbv zeta in *. destruct (Req_EM_T _ 0) as [Z|Z].
  - left. split; [exact Z|congruence].
  - right. split; [exact Z|]. eexists. split; [symmetry; injection H as H; exact H|].
    cbn [Beta Lambda growth_rate DMTBF_I DFI_I DMTBF_C DFI_C]. repeat split; reflexivity.
Qed.

Lemma crow_d_nonneg times : Forall (fun t => 0 < t) times ->
  let d := INR (length times) * ln (rmax times) - rsum (map ln times) in
  0 <= d /\ (d = 0 <-> forall t, In t times -> t = rmax times).
Proof.
  intros HF d.
  assert (d = rsum (map (fun t => ln (rmax times) - ln t) times)) as E.
  { unfold d. rewrite rsum_minus, rsum_const. ring. }
  rewrite Forall_forall in HF.
  assert (forall t, In t times -> 0 <= ln (rmax times) - ln t) as Hnn.
  { intros t Ht. pose proof (rmax_ge times t Ht) as [H|H].
    - pose proof (ln_increasing t (rmax times) (HF t Ht) H). lra.
    - rewrite H. lra. }
  assert (Forall (fun x => 0 <= x) (map (fun t => ln (rmax times) - ln t) times)) as HFn.
  { rewrite Forall_map, Forall_forall. exact Hnn. }
  split; [rewrite E; now apply rsum_nonneg|]. rewrite E. split.
  - intros Z t Ht. apply rsum_zero_nonneg in Z; [|assumption].
    rewrite Forall_map, Forall_forall in Z. specialize (Z t Ht). simpl in Z.
    apply ln_inv; [auto| |lra]. pose proof (rmax_ge times t Ht). pose proof (HF t Ht). lra.
  - intros H. rewrite (rsum_ext _ (fun _ => 0)); [rewrite rsum_const; ring|].
    intros t Ht. rewrite <- (H t Ht). ring.
Qed.

Lemma crow_mle times c : crow_amsaa times = Ok (Some c) ->
  0 < Beta c /\ 0 < Lambda c /\
  forall lam bet, 0 < lam -> 0 < bet ->
    plp_loglik lam bet times (rmax times) <= plp_loglik (Lambda c) (Beta c) times (rmax times) /\
    (lam <> Lambda c \/ bet <> Beta c ->
     plp_loglik lam bet times (rmax times) < plp_loglik (Lambda c) (Beta c) times (rmax times)).
Proof.
  intros H. apply crow_inv in H as (HF & Hne & [[_ H]|(Hd & c' & E & HB & HL & _)]); [discriminate|].
  injection E as <-.
  set (n := INR (length times)) in *. set (T := rmax times) in *.
  set (S := rsum (map ln times)) in *. set (d := n * ln T - S) in *.
  assert (0 < n) as Hn. { apply lt_0_INR. destruct times; [congruence|simpl; lia]. }
  assert (0 < d) as Hdp. { destruct (crow_d_nonneg times HF) as [[H|H] _]; fold n T S d in H; [exact H|congruence]. }
  assert (0 < Beta c) as HBp. { rewrite HB. now apply Rdiv_lt_0_compat. }
  assert (0 < Lambda c) as HLp. { rewrite HL. apply Rdiv_lt_0_compat; [assumption|apply exp_pos]. }
  split; [assumption|]. split; [assumption|]. intros lam bet Hl Hb.
  rewrite !plp_loglik_closed by assumption. fold n T S.
  rewrite <- HB in HL.
  set (P := Rpower T bet). assert (0 < P) as HP by apply exp_pos.
  assert (ln P = bet * ln T) as HlnP by (unfold P, Rpower; apply ln_exp).
  assert (Lambda c * Rpower T (Beta c) = n) as HLT.
  { rewrite HL. field. apply Rgt_not_eq, exp_pos. }
  assert (ln (Lambda c) = ln n - Beta c * ln T) as HlnL.
  { rewrite HL. unfold Rdiv. rewrite ln_mult, ln_Rinv; try assumption; try apply exp_pos.
    - unfold Rpower. rewrite ln_exp. ring.
    - apply Rinv_0_lt_compat, exp_pos. }
  rewrite HLT, HlnL.
  (* x = lam*P/n, y = bet*d/n *)
  set (x := lam * P / n). set (y := bet * d / n).
  assert (0 < x) as Hx by (unfold x; apply Rdiv_lt_0_compat; [now apply Rmult_lt_0_compat|assumption]).
  assert (0 < y) as Hy by (unfold y; apply Rdiv_lt_0_compat; [now apply Rmult_lt_0_compat|assumption]).
  assert (ln lam = ln x + ln n - bet * ln T) as El.
  { unfold x, Rdiv. rewrite ln_mult, ln_mult, ln_Rinv, HlnP; try assumption; [ring| |now apply Rinv_0_lt_compat].
    now apply Rmult_lt_0_compat. }
  assert (ln bet = ln y + ln (Beta c)) as Eb.
  { rewrite HB. unfold y, Rdiv. rewrite !ln_mult, !ln_Rinv; try assumption; try (now apply Rinv_0_lt_compat); [ring|].
    now apply Rmult_lt_0_compat. }
  assert (lam * P = n * x) as Ex by (unfold x; field; lra).
  assert (bet * d = n * y) as Ey by (unfold y; field; lra).
  assert (Beta c * d = n) as EB by (rewrite HB; field; lra).
  assert (S = n * ln T - d) as ES by (unfold d; ring).
  rewrite El, Eb, Ex, ES.
  pose proof (ln_le_minus_1 x Hx) as Lx. pose proof (ln_le_minus_1 y Hy) as Ly.
  match goal with |- ?a <= ?b /\ _ =>
    assert (a - b = n * (ln x - (x - 1)) + n * (ln y - (y - 1))) as EQ end.
  { transitivity (n * ln x - n * x + n * ln y - bet * d + n + Beta c * d); [ring|]. rewrite EB, Ey. ring. }
  split; [nra|].
  intros Hneq.
  assert (x <> 1 \/ y <> 1) as Hxy.
  { destruct (Req_EM_T y 1) as [Y|Y]; [|now right]. left. intros X.
    assert (bet = Beta c) as Hbc. { rewrite HB. apply Rmult_eq_reg_r with d; [|lra]. rewrite Ey, Y. field. lra. }
    destruct Hneq as [Hneq|Hneq]; [|contradiction]. apply Hneq. rewrite HL, <- Hbc. fold P.
    apply Rmult_eq_reg_r with P; [|lra]. rewrite Ex, X. field. lra. }
  destruct Hxy as [X|Y].
  - pose proof (ln_lt_minus_1 x Hx X). nra.
  - pose proof (ln_lt_minus_1 y Hy Y). nra.
Qed.

(** * Time to target *)
Lemma crow_target times c target : crow_amsaa times = Ok (Some c) -> 0 < target -> Beta c <> 1 ->
  let t := crow_time_to_target c target in
  0 < t /\ 1 / Lambda c * Rpower t (1 - Beta c) = target.
Proof.
  intros H Ht HB t. pose proof (crow_mle _ _ H) as (Hb & Hl & _).
  split; [apply exp_pos|]. unfold t, crow_time_to_target.
  assert (0 < 1 / (Lambda c * target)) as Hp.
  { apply Rdiv_lt_0_compat; [lra|now apply Rmult_lt_0_compat]. }
  rewrite Rpower_mult.
  replace (1 / (Beta c - 1) * (1 - Beta c)) with (- (1)) by (field; lra).
  rewrite Rpower_Ropp, Rpower_1 by assumption. field. lra.
Qed.

Lemma duane_target max_time z0 z1 target : 0 < target -> z0 <> 0 ->
  let d := duane_model max_time z0 z1 in
  let t := duane_time_to_target d target in
  0 < t /\ 1 / A d * Rpower t (Alpha d) = target.
Proof.
  intros Ht Hz d t. split; [apply exp_pos|]. unfold t, duane_time_to_target, d, duane_model. cbn [A Alpha].
  pose proof (exp_pos z1) as He.
  replace (1 / (1 / exp z1)) with (exp z1) by (field; lra).
  rewrite Rpower_mult. replace (1 / z0 * z0) with 1 by (field; assumption).
  rewrite Rpower_1 by (now apply Rdiv_lt_0_compat). field. lra.
Qed.

(** * Optimal replacement time *)
Lemma exp_tangent_strict a m : a <> m -> exp m * (1 + (a - m)) < exp a.
Proof.
  intros H. replace a with (m + (a - m)) at 2 by ring. rewrite exp_plus.
  apply Rmult_lt_compat_l; [apply exp_pos|]. apply exp_ineq1. lra.
Qed.

Lemma bernoulli_strict w b : 0 < w -> 1 < b -> w <> 1 -> b * w < Rpower w b + b - 1.
Proof.
  intros Hw Hb Hn. unfold Rpower.
  assert (ln w <> 0) as Hl. { intros E. apply Hn. apply ln_inv; [lra|lra|]. now rewrite ln_1. }
  pose proof (exp_tangent_strict (b * ln w) (ln w) ltac:(nra)) as H1.
  pose proof (exp_tangent_strict 0 (ln w) ltac:(lra)) as H2.
  rewrite exp_0 in H2. rewrite exp_ln in * by assumption. nra.
Qed.

Lemma ort_old_optimal PM CM alpha beta t : 0 < PM -> 0 < CM -> 0 < alpha -> 1 < beta -> 0 < t ->
  let ORT := ort_old PM CM alpha beta in
  0 < ORT /\ cput_old PM CM alpha beta ORT <= cput_old PM CM alpha beta t /\
  (t <> ORT -> cput_old PM CM alpha beta ORT < cput_old PM CM alpha beta t).
Proof.
  intros HP HC Ha Hb Ht ORT.
  assert (0 < CM / (PM * (beta - 1))) as Hq.
  { apply Rdiv_lt_0_compat; [assumption|]. apply Rmult_lt_0_compat; lra. }
  assert (0 < ORT) as HO. { unfold ORT, ort_old. apply Rmult_lt_0_compat; [assumption|apply exp_pos]. }
  split; [assumption|].
  assert (Rpower (ORT / alpha) beta = CM / (PM * (beta - 1))) as EO.
  { unfold ORT, ort_old. replace (alpha * _ / alpha) with (Rpower (CM / (PM * (beta - 1))) (1 / beta)) by (field; lra).
    rewrite Rpower_mult. replace (1 / beta * beta) with 1 by (field; lra). now apply Rpower_1. }
  clearbody ORT.
  set (w := t / ORT). assert (0 < w) as Hw by (unfold w; now apply Rdiv_lt_0_compat).
  assert (Rpower (t / alpha) beta = Rpower w beta * (CM / (PM * (beta - 1)))) as ET.
  { rewrite <- EO. rewrite Rpower_mult_distr; [|assumption|now apply Rdiv_lt_0_compat].
    f_equal. unfold w. field. lra. }
  assert (t <> ORT -> cput_old PM CM alpha beta ORT < cput_old PM CM alpha beta t) as Hs.
  { intros Hne. assert (w <> 1) as Hw1. { intros E. apply Hne. unfold w in E. apply Rmult_eq_reg_r with (/ ORT); [|apply Rinv_neq_0_compat; lra]. rewrite Rinv_r by lra. exact E. }
    pose proof (bernoulli_strict w beta Hw Hb Hw1) as HB.
    unfold cput_old. rewrite EO, ET.
    assert (t = w * ORT) as Et by (unfold w; field; lra). rewrite Et.
    apply Rmult_lt_reg_r with (w * ORT * (beta - 1) * / CM).
    { pose proof (Rinv_0_lt_compat CM HC). apply Rmult_lt_0_compat; [apply Rmult_lt_0_compat; [apply Rmult_lt_0_compat|]|]; lra. }
    replace ((PM * (CM / (PM * (beta - 1))) + CM) / ORT * (w * ORT * (beta - 1) * / CM)) with (beta * w) by (field; lra).
    replace ((PM * (Rpower w beta * (CM / (PM * (beta - 1)))) + CM) / (w * ORT) * (w * ORT * (beta - 1) * / CM))
      with (Rpower w beta + beta - 1) by (field; lra).
    exact HB. }
  split; [|exact Hs]. destruct (Req_EM_T t ORT) as [->|Hne]; [apply Rle_refl|left; auto].
Qed.

Lemma argmin_from_spec l : forall pre best besti, nth_error pre besti = Some best ->
  (forall x, In x pre -> best <= x) ->
  let i := argmin_from best besti (length pre) l in
  (i < length (pre ++ l))%nat /\ forall x, In x (pre ++ l) -> nth i (pre ++ l) 0 <= x.
Proof.
  induction l as [|y l IH]; intros pre best besti Hn Hmin; cbn [argmin_from].
  - cbv zeta. rewrite app_nil_r. assert (besti < length pre)%nat as L by (apply nth_error_Some; congruence).
    split; [exact L|]. rewrite (nth_error_nth _ _ 0 Hn). exact Hmin.
  - assert (length (pre ++ [y]) = S (length pre)) as EL by (rewrite app_length; simpl; lia).
    replace (pre ++ y :: l) with ((pre ++ [y]) ++ l) by now rewrite <- app_assoc.
    rewrite <- EL. destruct (Rlt_dec y best).
    + apply IH.
      * rewrite nth_error_app2 by lia. now rewrite Nat.sub_diag.
      * intros x Hx. apply in_app_or in Hx as [Hx|[<-|[]]]; [|lra]. specialize (Hmin x Hx). lra.
    + apply IH.
      * rewrite nth_error_app1; [assumption|]. apply nth_error_Some. congruence.
      * intros x Hx. apply in_app_or in Hx as [Hx|[<-|[]]]; [auto|lra].
Qed.

Lemma argmin_spec l i : argmin l = Ok i -> (i < length l)%nat /\ forall x, In x l -> nth i l 0 <= x.
Proof.
  destruct l as [|x l]; [discriminate|]. simpl. intros H. injection H as <-.
  apply (argmin_from_spec l [x] x 0); [reflexivity|]. intros y [<-|[]]. lra.
Qed.

Lemma ort_new_optimal PM CM alpha beta ORT cost :
  optimal_replacement_time PM CM alpha beta 0 = Ok (ORT, cost) ->
  let grid := linspace 1 (alpha * 3) (N.to_nat 10000) in
  In ORT grid /\ cost = cput_new PM CM alpha beta ORT /\
  forall t, In t grid -> cput_new PM CM alpha beta ORT <= cput_new PM CM alpha beta t.
Proof.
  unfold optimal_replacement_time. destruct (Rltb CM PM); [discriminate|].
  set (grid := linspace 1 (alpha * 3) (N.to_nat 10000)).
  set (f := cput_new PM CM alpha beta). clearbody grid f.
  destruct (argmin (map f grid)) as [i|] eqn:E; cbn [bind]; [|discriminate].
  intros H. injection H as <- <-. apply argmin_spec in E as [L Hm]. rewrite map_length in L.
  assert (nth i (map f grid) 0 = f (nth i grid 0)) as EN.
  { rewrite (nth_indep _ 0 (f 0)) by now rewrite map_length. apply map_nth. }
  split; [now apply nth_In|]. split; [exact EN|].
  intros t Ht. rewrite <- EN. apply Hm. now apply in_map.
Qed.

(** * ROCOF *)
Lemma cumsum_length l : forall a, length (cumsum a l) = length l.
Proof. induction l; intros; simpl; auto. Qed.

Lemma cumsum_scale c l : forall a, cumsum (c * a) (map (Rmult c) l) = map (Rmult c) (cumsum a l).
Proof.
  induction l as [|x l IH]; intros a; [reflexivity|]. cbn [map cumsum].
  replace (c * a + c * x) with (c * (a + x)) by ring. now rewrite IH.
Qed.

Lemma cumsum_shift l : forall a, rsum (cumsum a l) = INR (length l) * a + rsum (cumsum 0 l).
Proof.
  induction l as [|x l IH]; intros a; [simpl; ring|]. cbn [cumsum length].
  rewrite !rsum_cons, (IH (a + x)), (IH (0 + x)), S_INR. ring.
Qed.

Definition W (l : list R) : R := rsum (cumsum 0 l).

Lemma W_cons x l : W (x :: l) = x * (1 + INR (length l)) + W l.
Proof. unfold W. cbn [cumsum]. rewrite rsum_cons, cumsum_shift. ring. Qed.

Lemma cumsum_app l m : forall a, cumsum a (l ++ m) = cumsum a l ++ cumsum (a + rsum l) m.
Proof.
  induction l as [|x l IH]; intros a; cbn [app cumsum].
  - simpl. now rewrite Rplus_0_r.
  - rewrite IH, rsum_cons. now rewrite Rplus_assoc.
Qed.

Lemma W_snoc l x : W (l ++ [x]) = W l + rsum l + x.
Proof. unfold W. rewrite cumsum_app, rsum_app. cbn. ring. Qed.

Lemma W_rev l : W l + W (rev l) = (INR (length l) + 1) * rsum l.
Proof.
  induction l as [|x l IH]; [unfold W; simpl; ring|].
  cbn [rev length]. rewrite W_cons, W_snoc, rsum_rev, rsum_cons, S_INR.
  transitivity (x * (1 + INR (length l)) + (W l + W (rev l)) + rsum l + x); [ring|]. rewrite IH. ring.
Qed.

Lemma W_sorted l : StronglySorted Rle l -> W l <= (INR (length l) + 1) / 2 * rsum l.
Proof.
  induction 1 as [|x l HS IH HF]; [unfold W; simpl; lra|].
  rewrite W_cons, rsum_cons. cbn [length]. rewrite S_INR.
  assert (INR (length l) * x <= rsum l) as Hx.
  { clear -HF. induction HF as [|y l Hy HF IH]; [simpl; lra|]. cbn [length]. rewrite S_INR, rsum_cons. lra. }
  nra.
Qed.

Lemma W_removelast g : g <> [] -> W (removelast g) = W g - rsum g.
Proof.
  intros H. destruct (exists_last H) as (l & x & ->). rewrite removelast_last, W_snoc, rsum_app. simpl. ring.
Qed.

(** The statistic in terms of the gaps. *)
Definition laplace (g : list R) : R :=
  let n := INR (length g - 1) in
  ((W g - rsum g) / n - rsum g / 2) / (rsum g * sqrt (1 / (12 * n))).

Lemma firstn_removelast {A} (l : list A) : firstn (length l - 1) l = removelast l.
Proof. rewrite removelast_firstn_len. f_equal. lia. Qed.

Definition te_ok (ti : list R) (te : option R) : Prop :=
  match te with None => True | Some e => rsum ti <= e end.

Lemma rocof_inv ti CI te r : rocof ti CI te = Ok r ->
  0 < CI < 1 /\ te_ok ti te /\ (2 <= length (gaps ti te))%nat /\
  r_U r = laplace (gaps ti te) /\ r_z_crit r = norm_ppf ((1 - CI) / 2) /\
  (r_trend r = Improving <-> r_U r < r_z_crit r) /\
  (r_trend r = Worsening <-> - r_z_crit r < r_U r) /\
  (r_trend r = Constant <-> r_z_crit r <= r_U r <= - r_z_crit r) /\
  (r_trend r = Constant ->
     r_ROCOF r = Some (INR (length (gaps ti te)) / rsum ti)).
Proof.
  unfold rocof.
  destruct (Rleb CI 0) eqn:E1; [discriminate|]. destruct (Rleb 1 CI) eqn:E2; [discriminate|]. cbn [orb].
  assert (0 < CI < 1) as HCI.
  { unfold Rleb in *. destruct (Rle_dec CI 0); [discriminate|]. destruct (Rle_dec 1 CI); [discriminate|]. lra. }
  assert (norm_ppf ((1 - CI) / 2) < 0) as Hz by (apply norm_ppf_neg; lra).
  destruct (match te with None => false | Some e => Rltb e (rsum ti) end) eqn:E3; [discriminate|].
  assert (te_ok ti te) as Hte. { destruct te; simpl; [|trivial]. now apply Rltb_false in E3. }
  set (n := match te with None => (length ti - 1)%nat | Some _ => length ti end).
  destruct (Nat.eqb_spec n 0) as [E4|E4]; [discriminate|].
  set (tn := match te with None => rsum ti | Some e => e end).
  assert (gaps ti te <> [] /\ (length (gaps ti te) - 1)%nat = n /\ rsum (gaps ti te) = tn /\
          firstn n ti = removelast (gaps ti te)) as (Hg & HL & HS & HFi).
  { unfold gaps, tn, n in *. destruct te as [e|].
    - rewrite app_length, rsum_app, removelast_last, firstn_all. simpl. repeat split; try lra; try lia.
      destruct ti; discriminate.
    - rewrite firstn_removelast. repeat split. intros ->. now apply E4. }
  rewrite HFi. fold (W (removelast (gaps ti te))). rewrite W_removelast by assumption. rewrite HS.
  assert (laplace (gaps ti te) = ((W (gaps ti te) - tn) / INR n - tn / 2) / (tn * sqrt (1 / (12 * INR n)))) as EU.
  { unfold laplace. now rewrite HL, HS. }
  rewrite <- EU. set (U := laplace (gaps ti te)). set (z := norm_ppf ((1 - CI) / 2)) in *.
  assert (2 <= length (gaps ti te))%nat as H2 by lia.
  intros H. split; [assumption|]. split; [assumption|]. split; [assumption|].
  destruct (Rlt_dec U z) as [L|L]; [|destruct (Rlt_dec (- z) U) as [L2|L2]];
    injection H as <-; cbn [r_U r_z_crit r_trend r_ROCOF];
    (split; [reflexivity|]); (split; [reflexivity|]);
    (split; [split; [try discriminate; try (intros _; assumption)|try lra; try reflexivity]|]);
    (split; [split; [try discriminate; try (intros _; assumption)|try lra; try reflexivity]|]);
    (split; [split; [try discriminate; try (intros _; lra)|try lra; try reflexivity]|]); try discriminate.
  intros _. f_equal. f_equal. rewrite <- S_INR. f_equal. lia.
Qed.

Lemma laplace_rev g : (2 <= length g)%nat -> rsum g <> 0 -> laplace (rev g) = - laplace g.
Proof.
  intros HL HS. unfold laplace. rewrite rev_length, rsum_rev. cbv zeta.
  set (n := INR (length g - 1)).
  assert (0 < n) as Hn by (unfold n; apply lt_0_INR; lia).
  assert (INR (length g) = n + 1) as EL.
  { unfold n. rewrite <- S_INR. f_equal. lia. }
  pose proof (W_rev g) as HW. rewrite EL in HW.
  assert (W (rev g) = (n + 1 + 1) * rsum g - W g) as -> by lra.
  assert (0 < sqrt (1 / (12 * n))) as Hq. { apply sqrt_lt_R0. apply Rdiv_lt_0_compat; lra. }
  field. repeat split; lra.
Qed.

Lemma laplace_sorted g : (2 <= length g)%nat -> 0 < rsum g -> StronglySorted Rle g -> laplace g <= 0.
Proof.
  intros HL HS HSt. unfold laplace. cbv zeta. set (n := INR (length g - 1)).
  assert (0 < n) as Hn by (unfold n; apply lt_0_INR; lia).
  assert (INR (length g) = n + 1) as EL.
  { unfold n. rewrite <- S_INR. f_equal. lia. }
  pose proof (W_sorted g HSt) as HW. rewrite EL in HW.
  assert (0 < sqrt (1 / (12 * n))) as Hq. { apply sqrt_lt_R0. apply Rdiv_lt_0_compat; lra. }
  assert ((W g - rsum g) / n - rsum g / 2 <= 0) as Hnum.
  { apply Rmult_le_reg_r with n; [assumption|].
    replace (((W g - rsum g) / n - rsum g / 2) * n) with (W g - rsum g - n * rsum g / 2) by (field; lra). nra. }
  assert (0 < / (rsum g * sqrt (1 / (12 * n)))) as Hi.
  { apply Rinv_0_lt_compat. now apply Rmult_lt_0_compat. }
  unfold Rdiv at 1. nra.
Qed.

Lemma existsb_length_eq {A B} (l : list A) (m : list B) : length l = length m -> (length l =? 0)%nat = (length m =? 0)%nat.
Proof. now intros ->. Qed.

Lemma cumsum_last_pos l : forall a, Forall (fun t => 0 < t) (cumsum a l) -> l <> [] -> 0 < a + rsum l.
Proof.
  induction l as [|x l IH]; intros a HF Hne; [congruence|]. inversion HF as [|? ? H1 H2]; subst.
  destruct l as [|y l].
  - simpl. lra.
  - specialize (IH (a + x) H2 ltac:(discriminate)). rewrite rsum_cons. lra.
Qed.

Lemma cumsum_pos l : forall a, 0 <= a -> Forall (fun t => 0 < t) l -> Forall (fun t => 0 < t) (cumsum a l).
Proof. induction l as [|x l IH]; intros a Ha H; constructor; inversion H; subst; [lra|]. apply IH; [lra|assumption]. Qed.

Lemma cumsum_firstn l : forall n a, cumsum a (firstn n l) = firstn n (cumsum a l).
Proof. induction l as [|x l IH]; intros [|n] a; simpl; auto. now rewrite IH. Qed.

Lemma Forall_firstn' {A} (P : A -> Prop) l n : Forall P l -> Forall P (firstn n l).
Proof. intros H. revert n. induction H; intros [|n]; simpl; auto. Qed.

Lemma rocof_scale ti CI te c : Forall (fun t => 0 < t) (cumsum 0 ti) -> 0 < c ->
  match rocof ti CI te, rocof (map (Rmult c) ti) CI (option_map (Rmult c) te) with
  | Ok a, Ok b => r_U b = r_U a /\ r_trend b = r_trend a /\ r_Beta b = r_Beta a /\
                  r_ROCOF b = option_map (fun x => x / c) (r_ROCOF a)
  | Err e1, Err e2 => e1 = e2
  | _, _ => False
  end.
Proof.
  intros HF Hc. unfold rocof.
  destruct (Rleb CI 0 || Rleb 1 CI); [reflexivity|].
  rewrite rsum_map_scal, map_length.
  assert (match option_map (Rmult c) te with None => false | Some e => Rltb e (c * rsum ti) end
          = match te with None => false | Some e => Rltb e (rsum ti) end) as ->.
  { destruct te as [e|]; simpl; [|reflexivity].
    destruct (Rltb e (rsum ti)) eqn:E.
    - apply Rltb_true in E. apply Rltb_true. now apply Rmult_lt_compat_l.
    - apply Rltb_false in E. apply Rltb_false. apply Rmult_le_compat_l; lra. }
  destruct (match te with None => false | Some e => Rltb e (rsum ti) end) eqn:E3; [reflexivity|].
  assert (match option_map (Rmult c) te with None => (length ti - 1)%nat | Some _ => length ti end
          = match te with None => (length ti - 1)%nat | Some _ => length ti end) as -> by now destruct te.
  set (n := match te with None => (length ti - 1)%nat | Some _ => length ti end).
  destruct (Nat.eqb_spec n 0) as [E4|E4]; [reflexivity|].
  assert (match option_map (Rmult c) te with None => c * rsum ti | Some e => e end
          = c * match te with None => rsum ti | Some e => e end) as -> by now destruct te.
  set (tn := match te with None => rsum ti | Some e => e end).
  assert (0 < rsum ti) as Hsum.
  { rewrite <- (Rplus_0_l (rsum ti)). apply cumsum_last_pos; [assumption|]. intros ->. apply E4. unfold n. now destruct te. }
  assert (0 < tn) as Htn. { unfold tn. destruct te; [apply Rltb_false in E3; lra|assumption]. }
  rewrite firstn_map.
  replace (cumsum 0 (map (Rmult c) (firstn n ti))) with (map (Rmult c) (cumsum 0 (firstn n ti))).
  2:{ rewrite <- cumsum_scale. f_equal. ring. }
  rewrite rsum_map_scal, map_map.
  set (S := rsum (cumsum 0 (firstn n ti))).
  assert (0 < INR n) as Hn by (apply lt_0_INR; lia).
  assert (0 < sqrt (1 / (12 * INR n))) as Hq. { apply sqrt_lt_R0. apply Rdiv_lt_0_compat; lra. }
  assert ((c * S / INR n - c * tn / 2) / (c * tn * sqrt (1 / (12 * INR n))) =
          (S / INR n - tn / 2) / (tn * sqrt (1 / (12 * INR n)))) as ->.
  { field. repeat split; lra. }
  assert (rsum (map (fun x => ln (c * tn / (c * x))) (cumsum 0 (firstn n ti))) =
          rsum (map (fun t => ln (tn / t)) (cumsum 0 (firstn n ti)))) as ->.
  { apply rsum_ext. intros x Hx. f_equal.
    assert (0 < x) as Hxp.
    { rewrite cumsum_firstn in Hx. pose proof (Forall_firstn' _ _ n HF) as HF'. rewrite Forall_forall in HF'. now apply HF'. }
    field. lra. }
  destruct (Rlt_dec _ _); [|destruct (Rlt_dec _ _)]; cbn [r_U r_trend r_Beta r_ROCOF option_map];
    repeat split; try reflexivity.
  f_equal. field. lra.
Qed.
