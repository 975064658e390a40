(** The second, third and fourth moments of the Gumbel distribution. *)
From Coquelicot Require Import Coquelicot.
From Coq Require Import List Arith Reals Lra Lia.
From Verif Require Import Base RealFacts Gauss Improper Ext DistModel DistSpec DistIntegrals DistProofs PoFProofs2 DistProofs2 FitProofs2 DistProofs4 DistProofs5 ExpectSpec Expect MomentModel MomentSpec MomentProofs MomentProofs2 MomentProofs3 GumbelMean Zeta.
Import ListNotations.
Open Scope R_scope.

(** ** Integrals over (0, 1] of functions continuous except at 0 *)
Definition to1 (h : R -> R) (v : R) : Prop :=
  forall eps, 0 < eps -> exists a0, 0 < a0 <= 1 /\ forall a, 0 < a -> a <= a0 -> exists I, is_RInt h a 1 I /\ Rabs (I - v) < eps.
Lemma to1_plus h k v w : to1 h v -> to1 k w -> to1 (fun x => h x + k x) (v + w).
Proof.
  intros H K eps He. destruct (H (eps / 2) ltac:(lra)) as (a & Ia & F). destruct (K (eps / 2) ltac:(lra)) as (a' & Ia' & F').
  pose proof (Rmin_l a a'). pose proof (Rmin_r a a'). exists (Rmin a a'). split; [split; [apply Rmin_glb_lt; lra|lra]|].
  intros u Pu Lu. destruct (F u Pu ltac:(lra)) as (I1 & R1 & E1). destruct (F' u Pu ltac:(lra)) as (I2 & R2 & E2).
  exists (I1 + I2). split; [exact (is_RInt_plus h k u 1 I1 I2 R1 R2)|]. apply Rabs_def2 in E1, E2. apply Rabs_def1; lra.
Qed.
Lemma to1_scal c h v : to1 h v -> to1 (fun x => c * h x) (c * v).
Proof.
  intros H eps He. destruct (H (eps / (Rabs c + 1))) as (a & Ia & F).
  { apply Rdiv_lt_0_compat; [assumption|]. pose proof (Rabs_pos c). lra. }
  exists a. split; [assumption|]. intros u Pu Lu. destruct (F u Pu Lu) as (I & R & E).
  exists (c * I). split; [exact (is_RInt_scal h u 1 c I R)|]. replace (c * I - c * v) with (c * (I - v)) by ring. rewrite Rabs_mult.
  pose proof (Rabs_pos c) as P. pose proof (Rabs_pos (I - v)). assert (Rabs c * Rabs (I - v) <= Rabs c * (eps / (Rabs c + 1))) by (apply Rmult_le_compat_l; lra).
  assert (Rabs c * (eps / (Rabs c + 1)) < eps); [|lra]. apply (Rmult_lt_reg_r (Rabs c + 1)); [lra|]. field_simplify; [|lra]. nra.
Qed.
Lemma to1_ext h k v : (forall x, 0 < x <= 1 -> h x = k x) -> to1 h v -> to1 k v.
Proof.
  intros E H eps He. destruct (H eps He) as (a0 & Ia & F). exists a0. split; [assumption|].
  intros a Ha La. destruct (F a Ha La) as (I & R & D). exists I. split; [|assumption].
  apply (is_RInt_ext h); [|assumption]. intros x Hx. apply E. rewrite Rmin_left, Rmax_right in Hx by lra. lra.
Qed.
Lemma to1_antider h H : (forall x, 0 < x -> is_derive H x (h x)) -> (forall x, 0 < x -> continuous h x) ->
  H 1 = 0 -> (exists c, forall a, 0 < a <= 1 -> Rabs (H a) <= c * sqrt a) -> to1 h 0.
Proof.
  intros D C H1 (c & B) eps He. pose proof (Rabs_pos c) as Pc. set (r := eps / (Rabs c + 1)).
  assert (0 < r) as Hr by (apply Rdiv_lt_0_compat; lra). pose proof (Rmin_l 1 (r * r / 4)). pose proof (Rmin_r 1 (r * r / 4)).
  exists (Rmin 1 (r * r / 4)). split; [split; [apply Rmin_glb_lt; nra|assumption]|].
  intros a Ha La. exists (0 - H a). split.
  - rewrite <- H1. apply (is_RInt_derive H h); rewrite Rmin_left, Rmax_right by lra; intros x Hx; [apply D|apply C]; lra.
  - replace (0 - H a - 0) with (- H a) by ring. rewrite Rabs_Ropp. apply Rle_lt_trans with (1 := B a ltac:(lra)).
    assert (sqrt a <= r / 2) as S by (rewrite <- (sqrt_square (r / 2)) by lra; apply sqrt_le_1_alt; lra).
    pose proof (sqrt_pos a). pose proof (Rle_abs c). apply Rle_lt_trans with (Rabs c * (r / 2)); [apply Rle_trans with (Rabs c * sqrt a); [apply Rmult_le_compat_r; lra|apply Rmult_le_compat_l; lra]|].
    assert ((Rabs c + 1) * r = eps) as ER by (unfold r; field; lra). nra.
Qed.

(** ** ∫ (1 - w)^n (- ln w)^k over (0, 1] *)
Lemma log_small k w : (k <= 4)%nat -> 0 < w <= 1 -> 0 <= w * (- ln w) ^ k <= 4096 * sqrt w.
Proof.
  intros Hk Hw. assert (ln w <= 0) as L by (rewrite <- ln_1; apply ln_le; lra). set (x := - ln w). assert (0 <= x) as Hx by (unfold x; lra).
  assert (w = exp (- x)) as Ew by (unfold x; rewrite Ropp_involutive, exp_ln; lra).
  split; [apply Rmult_le_pos; [lra|now apply pow_le]|].
  assert (sqrt w = exp (- x / 2)) as Es.
  { apply sqrt_lem_1; [lra|left; apply exp_pos|]. rewrite <- exp_plus, Ew. f_equal. field. }
  rewrite Es, Ew. assert (x ^ k <= 4096 * exp (x / 2)) as K.
  { apply Rle_trans with ((8 * exp (x / 8)) ^ k).
    - apply pow_incr. split; [assumption|]. pose proof (exp_ge_1_plus (x / 8)). lra.
    - apply Rle_trans with ((8 * exp (x / 8)) ^ 4).
      + apply Rle_pow; [|assumption]. pose proof (exp_ge_1_plus (x / 8)). lra.
      + rewrite Rpow_mult_distr, pow_exp. replace (INR 4 * (x / 8)) with (x / 2) by (simpl; field). pose proof (exp_pos (x / 2)). simpl. lra. }
  apply Rle_trans with (exp (- x) * (4096 * exp (x / 2))); [apply Rmult_le_compat_l; [left; apply exp_pos|assumption]|].
  right. replace (exp (- x / 2)) with (exp (- x) * exp (x / 2)) by (rewrite <- exp_plus; f_equal; field). ring.
Qed.

Definition lk (n k : nat) (w : R) : R := (1 - w) ^ n * (- ln w) ^ k.
Lemma sum_to1 k m : (forall j, to1 (lk j k) (m j)) -> forall n, to1 (fun w => sum_f_R0 (fun j => lk j k w) n) (sum_f_R0 m n).
Proof.
  intros H. induction n as [|n IH]; [exact (H O)|]. rewrite tech5. apply (to1_ext (fun w => sum_f_R0 (fun j => lk j k w) n + lk (S n) k w)); [intros; now rewrite tech5|].
  apply to1_plus; [exact IH|apply H].
Qed.
Lemma lk_step k m : (k < 4)%nat -> (forall j, to1 (lk j k) (m j)) -> forall n, to1 (lk n (S k)) (INR (S k) * sum_f_R0 m n / INR (S n)).
Proof.
  intros Hk H n. assert (0 < INR (S n)) as Hn by (apply lt_0_INR; lia).
  set (F := fun w => (1 - (1 - w) ^ S n) * (- ln w) ^ S k).
  assert (to1 (fun w => INR (S n) * lk n (S k) w - INR (S k) * sum_f_R0 (fun j => lk j k w) n) 0) as T.
  { assert (forall w j, 0 < w -> continuous (lk j k) w /\ continuous (lk j (S k)) w) as CL.
    { intros w j Hw. split; [apply (ex_derive_continuous (lk j k))|apply (ex_derive_continuous (lk j (S k)))]; unfold lk; auto_derive; assumption. }
    apply (to1_antider _ F).
    - intros w Hw. unfold F. assert (sum_f_R0 (fun j => lk j k w) n = (1 - (1 - w) ^ S n) / w * (- ln w) ^ k) as ->.
      { unfold lk. rewrite <- scal_sum. pose proof (geometric n (1 - w)) as G. replace (1 - (1 - w)) with w in G by ring. rewrite <- G. change (fun k0 : nat => (1 - w) ^ k0) with (pow (1 - w)). field. lra. }
      auto_derive; [assumption|]. cbn [pred].
      change (match n with O => 1 | S _ => INR n + 1 end) with (INR (S n)). change (match k with O => 1 | S _ => INR k + 1 end) with (INR (S k)).
      change (1 + - w) with (1 - w). unfold lk. rewrite <- !tech_pow_Rmult. set (p := (1 - w) ^ n). set (l := (- ln w) ^ k). field. lra.
    - intros w Hw. apply (continuous_minus (fun w => INR (S n) * lk n (S k) w) (fun w => INR (S k) * sum_f_R0 (fun j => lk j k w) n)).
      + apply (continuous_scal_r (INR (S n)) (lk n (S k))), CL, Hw.
      + apply (continuous_scal_r (INR (S k)) (fun w => sum_f_R0 (fun j => lk j k w) n)). clear - CL Hw. induction n as [|n IH]; [apply (CL w O Hw)|].
        apply (continuous_ext (fun w => sum_f_R0 (fun j => lk j k w) n + lk (S n) k w)); [intros; now rewrite tech5|].
        apply (continuous_plus (fun w => sum_f_R0 (fun j => lk j k w) n) (lk (S n) k)); [exact IH|apply CL, Hw].
    - unfold F. rewrite ln_1, Ropp_0, pow_i by lia. as_R. ring.
    - exists (INR (S n) * 4096). intros a Ha. unfold F. pose proof (log_small (S k) a ltac:(lia) Ha) as [L1 L2].
      assert (0 <= 1 - (1 - a) ^ S n <= INR (S n) * a) as B.
      { assert ((1 - a) ^ S n <= 1) by (apply Rle_trans with (1 ^ S n); [apply pow_incr; lra|rewrite pow1; lra]). pose proof (bernoulli (- a) (S n) ltac:(lra)) as B. replace (1 + - a) with (1 - a) in B by ring. lra. }
      assert (0 <= (- ln a) ^ S k) as P by (apply pow_le; assert (ln a <= 0) by (rewrite <- ln_1; apply ln_le; lra); lra).
      rewrite Rabs_right by (apply Rle_ge, Rmult_le_pos; lra). apply Rle_trans with (INR (S n) * a * (- ln a) ^ S k); [apply Rmult_le_compat_r; lra|].
      replace (INR (S n) * 4096 * sqrt a) with (INR (S n) * (4096 * sqrt a)) by ring. rewrite Rmult_assoc. apply Rmult_le_compat_l; lra. }
  pose proof (to1_scal (INR (S k)) _ _ (sum_to1 k m H n)) as T2. pose proof (to1_scal (/ INR (S n)) _ _ (to1_plus _ _ _ _ T T2)) as T3.
  replace (INR (S k) * sum_f_R0 m n / INR (S n)) with (/ INR (S n) * (0 + INR (S k) * sum_f_R0 m n)) by (field; lra).
  revert T3. apply to1_ext. intros w _. field. lra.
Qed.

(** The values, from the power sums of 1/j. *)
Definition gv (k n : nat) : R :=
  let H := hp 1 n in
  match k with
  | O => 1
  | 1%nat => H
  | 2%nat => H ^ 2 + hp 2 n
  | 3%nat => H ^ 3 + 3 * H * hp 2 n + 2 * hp 3 n
  | _ => H ^ 4 + 6 * H ^ 2 * hp 2 n + 8 * H * hp 3 n + 3 * hp 2 n ^ 2 + 6 * hp 4 n
  end.
Lemma gv_sum k n : (k < 4)%nat -> INR (S k) * sum_f_R0 (fun j => gv k j / INR (S j)) n = gv (S k) n.
Proof.
  intros Hk. induction n as [|n IH].
  - unfold gv. cbn [sum_f_R0]. rewrite !hp_0. destruct k as [|[|[|[|k]]]]; try lia; simpl; field.
  - rewrite tech5, Rmult_plus_distr_l, IH. assert (INR (S (S n)) <> 0) as NZ by (apply not_0_INR; lia). unfold gv. rewrite !hp_S. set (q := INR (S (S n))) in *.
    destruct k as [|[|[|[|k]]]]; try lia; simpl (INR (S _)); field; exact NZ.
Qed.
Lemma lk_0 n : to1 (lk n 0) (gv 0 n / INR (S n)).
Proof.
  assert (0 < INR (S n)) as Hn by (apply lt_0_INR; lia). intros eps He. set (e := Rmin 1 (eps / 2)). pose proof (Rmin_l 1 (eps / 2)) as E1. pose proof (Rmin_r 1 (eps / 2)) as E2. fold e in E1, E2.
  assert (0 < e) as Pe by (apply Rmin_glb_lt; lra). exists e. split; [lra|]. intros a Ha La. exists ((1 - a) ^ S n / INR (S n)). split.
  - replace ((1 - a) ^ S n / INR (S n)) with (@minus R_AbelianGroup (- (1 - 1) ^ S n / INR (S n)) (- (1 - a) ^ S n / INR (S n))).
    + apply (is_RInt_derive (fun w => - (1 - w) ^ S n / INR (S n)) (lk n 0)); intros w _.
      * unfold lk. auto_derive; [exact I|]. cbn [pred]. change (match n with O => 1 | S _ => INR n + 1 end) with (INR (S n)). change (1 + - w) with (1 - w). rewrite pow_O. set (q := INR (S n)) in *. field. lra.
      * unfold lk. apply (continuous_ext (fun w => (1 - w) ^ n)); [intros; now rewrite pow_O, Rmult_1_r|]. apply (ex_derive_continuous (fun w => (1 - w) ^ n)). auto_derive. exact I.
    + unfold minus, plus, opp; simpl. replace (1 - 1) with 0 by ring. field. simpl in Hn. lra.
  - unfold gv. assert ((1 - a) ^ S n <= 1) by (apply Rle_trans with (1 ^ S n); [apply pow_incr; lra|rewrite pow1; lra]). pose proof (bernoulli (- a) (S n) ltac:(lra)) as B. replace (1 + - a) with (1 - a) in B by ring.
    replace ((1 - a) ^ S n / INR (S n) - 1 / INR (S n)) with (- ((1 - (1 - a) ^ S n) / INR (S n))) by (field; lra). rewrite Rabs_Ropp, Rabs_right by (apply Rle_ge, Rdiv_le_0_compat; lra).
    apply Rle_lt_trans with a; [|lra]. apply (Rmult_le_reg_r (INR (S n))); [assumption|]. replace ((1 - (1 - a) ^ S n) / INR (S n) * INR (S n)) with (1 - (1 - a) ^ S n) by (field; lra). lra.
Qed.
Lemma lk_int k : (k <= 4)%nat -> forall n, to1 (lk n k) (gv k n / INR (S n)).
Proof.
  induction k as [|k IH]; intros Hk n; [apply lk_0|]. rewrite <- gv_sum by lia. apply lk_step; [lia|]. apply IH. lia.
Qed.

(** ** ∫ (1 - u/n)^n (ln u)^k over (0, n] *)
Definition ev (n : nat) : R := hp 1 n - ln (INR n).
Definition cv (k n : nat) : R :=
  let e := ev n in
  match k with
  | O => 1
  | 1%nat => - e
  | 2%nat => e ^ 2 + hp 2 n
  | 3%nat => - (e ^ 3 + 3 * e * hp 2 n + 2 * hp 3 n)
  | _ => e ^ 4 + 6 * e ^ 2 * hp 2 n + 8 * e * hp 3 n + 3 * hp 2 n ^ 2 + 6 * hp 4 n
  end.
Lemma log_int k n : (k <= 4)%nat -> to1 (fun w => INR n * ((1 - w) ^ n * (ln (INR n) + ln w) ^ k)) (INR n / INR (S n) * cv k n).
Proof.
  intros Hk. assert (0 < INR (S n)) as Hn by (apply lt_0_INR; lia). set (c := ln (INR n)).
  pose proof (lk_int 0 ltac:(lia) n) as T0. pose proof (lk_int 1 ltac:(lia) n) as T1. pose proof (lk_int 2 ltac:(lia) n) as T2. pose proof (lk_int 3 ltac:(lia) n) as T3. pose proof (lk_int 4 ltac:(lia) n) as T4.
  assert (forall k0 k1 k2 k3 k4, to1 (fun w => k0 * lk n 0 w + (k1 * lk n 1 w + (k2 * lk n 2 w + (k3 * lk n 3 w + k4 * lk n 4 w))))
    (k0 * (gv 0 n / INR (S n)) + (k1 * (gv 1 n / INR (S n)) + (k2 * (gv 2 n / INR (S n)) + (k3 * (gv 3 n / INR (S n)) + k4 * (gv 4 n / INR (S n))))))) as T.
  { intros. do 4 (apply to1_plus; [apply to1_scal; assumption|]). apply to1_scal; assumption. }
  assert (forall k0 k1 k2 k3 k4, (forall x, (c + x) ^ k = k0 + k1 * - x + k2 * (- x) ^ 2 + k3 * (- x) ^ 3 + k4 * (- x) ^ 4) ->
    k0 * gv 0 n + k1 * gv 1 n + k2 * gv 2 n + k3 * gv 3 n + k4 * gv 4 n = cv k n ->
    to1 (fun w => INR n * ((1 - w) ^ n * (c + ln w) ^ k)) (INR n / INR (S n) * cv k n)) as M.
  { intros k0 k1 k2 k3 k4 E1 E2. pose proof (to1_scal (INR n) _ _ (T k0 k1 k2 k3 k4)) as Q. rewrite <- E2.
    match type of Q with to1 _ ?v => match goal with |- to1 _ ?r => replace r with v by (field; lra) end end.
    revert Q. apply to1_ext. intros w _. rewrite E1. unfold lk. ring. }
  assert (hp 1 n = c + ev n) as EH by (unfold ev; fold c; ring).
  destruct k as [|[|[|[|[|k]]]]]; try lia.
  - apply (M 1 0 0 0 0); [intros; ring|unfold gv, cv; ring].
  - apply (M c (-1) 0 0 0); [intros; ring|unfold gv, cv; rewrite EH; ring].
  - apply (M (c ^ 2) (- 2 * c) 1 0 0); [intros; ring|unfold gv, cv; rewrite EH; ring].
  - apply (M (c ^ 3) (- 3 * c ^ 2) (3 * c) (-1) 0); [intros; ring|unfold gv, cv; rewrite EH; ring].
  - apply (M (c ^ 4) (- 4 * c ^ 3) (6 * c ^ 2) (- 4 * c) 1); [intros; ring|unfold gv, cv; rewrite EH; ring].
Qed.

Lemma cut_int k n : (k <= 4)%nat -> (0 < n)%nat -> forall eps, 0 < eps -> exists a0, 0 < a0 <= INR n /\ forall a b, 0 < a -> a <= a0 -> INR n <= b ->
  exists I : R, is_RInt (fun u => cut n u * ln u ^ k) a b I /\ Rabs (I - INR n / INR (S n) * cv k n) < eps.
Proof.
  intros Hk Hn eps He. assert (0 < INR n) as N by now apply lt_0_INR. set (N' := INR n) in *. destruct (log_int k n Hk eps He) as (w0 & W0 & F). fold N' in F. exists (N' * w0). split; [nra|].
  intros a b Ha La Lb. assert (0 < a / N') as P by (apply Rdiv_lt_0_compat; lra). assert (a / N' <= w0) as L by (apply (Rmult_le_reg_l N'); [lra|]; replace (N' * (a / N')) with a by (field; lra); lra).
  destruct (F (a / N') P L) as (I & RI & D). exists I. split; [|assumption].
  replace I with (@plus R_AbelianGroup I 0) by (unfold plus; simpl; ring). apply (is_RInt_Chasles (fun u => cut n u * ln u ^ k) a N' b).
  - apply (is_RInt_ext (fun u => (1 - u / N') ^ n * ln u ^ k)).
    { assert (a <= N') by nra. rewrite Rmin_left, Rmax_right by assumption. intros x Hx. unfold cut. fold N'. destruct Rle_dec; [reflexivity|lra]. }
    assert (is_RInt (fun u => scal (/ N') ((fun w => N' * ((1 - w) ^ n * (ln N' + ln w) ^ k)) (/ N' * u + 0))) a N' I) as Q.
    { apply (is_RInt_comp_lin (fun w => N' * ((1 - w) ^ n * (ln N' + ln w) ^ k)) (/ N') 0 a N' I).
      replace (/ N' * a + 0) with (a / N') by (field; lra). replace (/ N' * N' + 0) with 1 by (field; lra). exact RI. }
    revert Q. apply is_RInt_ext. assert (a <= N') by nra. rewrite Rmin_left, Rmax_right by assumption. intros x Hx. unfold scal; simpl. unfold mult; simpl.
    replace (/ N' * x + 0) with (x / N') by (field; lra). rewrite (ln_div x N') by lra. replace (ln N' + (ln x - ln N')) with (ln x) by ring. field. lra.
  - apply (is_RInt_ext (fun _ => 0)).
    + rewrite Rmin_left, Rmax_right by lra. intros x Hx. unfold cut. fold N'. destruct Rle_dec; [lra|]. symmetry. apply Rmult_0_l.
    + pose proof (is_RInt_const (V := R_NormedModule) N' b 0) as K. unfold scal in K; simpl in K. unfold mult in K; simpl in K. now rewrite Rmult_0_r in K.
Qed.

(** ** The limit *)
Definition dm (u : R) : R := (u ^ 2 + 16 * (1 + u) ^ 4) * exp (- u).
Lemma ln_pow k u : (k <= 4)%nat -> 0 < u -> u ^ 2 * Rabs (ln u ^ k) <= u ^ 2 + 16 * (1 + u) ^ 4.
Proof.
  intros Hk Hu. assert (0 < sqrt u) as S by now apply sqrt_lt_R0. pose proof (sqrt_sqrt u ltac:(lra)) as E.
  assert (Rabs (ln u) <= 2 * (1 / sqrt u + sqrt u)) as L.
  { pose proof (ln_abs (sqrt u) S) as K. replace (ln u) with (2 * ln (sqrt u)) by (rewrite <- E at 2; rewrite ln_mult by assumption; ring). rewrite Rabs_mult, (Rabs_right 2) by lra. lra. }
  assert (Rabs (ln u) ^ k <= 1 + Rabs (ln u) ^ 4) as K.
  { pose proof (Rabs_pos (ln u)) as P. destruct (Rle_lt_dec 1 (Rabs (ln u))).
    - apply Rle_trans with (Rabs (ln u) ^ 4); [now apply Rle_pow|lra].
    - assert (Rabs (ln u) ^ k <= 1) by (apply Rle_trans with (1 ^ k); [apply pow_incr; lra|rewrite pow1; lra]). pose proof (pow_le _ 4 P). lra. }
  assert (Rabs (ln u) ^ 4 <= (2 * (1 / sqrt u + sqrt u)) ^ 4) as K4 by (apply pow_incr; split; [apply Rabs_pos|assumption]).
  rewrite <- RPow_abs. apply Rle_trans with (u ^ 2 * (1 + (2 * (1 / sqrt u + sqrt u)) ^ 4)); [apply Rmult_le_compat_l; [apply pow2_ge_0|lra]|].
  right. rewrite <- E. set (s := sqrt u) in *. rewrite sqrt_square by lra. field. lra.
Qed.
Lemma dm_int a b : 0 < a -> a <= b -> RInt dm a b <= 1042 /\ ex_RInt dm a b.
Proof.
  intros Ha L. set (Q := fun u => - (u ^ 2 + 2 * u + 2 + 16 * ((1 + u) ^ 4 + 4 * (1 + u) ^ 3 + 12 * (1 + u) ^ 2 + 24 * (1 + u) + 24)) * exp (- u)).
  assert (forall x, continuous dm x) as C by (intros x; apply (ex_derive_continuous dm); unfold dm; auto_derive; exact I).
  assert (forall x, is_derive Q x (dm x)) as D by (intros x; unfold Q, dm; auto_derive; [exact I|]; ring).
  assert (forall a b, ex_RInt dm a b) as EX by (intros; apply (ex_RInt_continuous (V := R_CompleteNormedModule)); intros; apply C).
  split; [|apply EX]. assert (is_RInt dm 0 b (Q b - Q 0)) as R0 by exact (is_RInt_derive Q dm 0 b (fun x _ => D x) (fun x _ => C x)).
  assert (Q 0 = - 1042) as Q0 by (unfold Q; rewrite Ropp_0, exp_0; ring).
  assert (Q b <= 0) as Qb.
  { unfold Q. pose proof (exp_pos (- b)). assert (0 <= b ^ 2 + 2 * b + 2 + 16 * ((1 + b) ^ 4 + 4 * (1 + b) ^ 3 + 12 * (1 + b) ^ 2 + 24 * (1 + b) + 24)); [|nra].
    assert (0 <= (1 + b) ^ 4 /\ 0 <= (1 + b) ^ 3 /\ 0 <= (1 + b) ^ 2 /\ 0 <= b ^ 2) by (repeat split; apply pow_le; lra). lra. }
  pose proof (RInt_Chasles dm 0 a b (EX 0 a) (EX a b)) as CH. rewrite (is_RInt_unique _ _ _ _ R0) in CH. unfold plus in CH; simpl in CH.
  assert (0 <= RInt dm 0 a); [|lra]. apply RInt_ge_0; [lra|apply EX|]. intros x Hx. unfold dm. apply Rmult_le_pos; [|left; apply exp_pos]. assert (0 <= (1 + x) ^ 4) by (apply pow_le; lra). pose proof (pow2_ge_0 x). lra.
Qed.
Lemma cut_near_k k n u : (k <= 4)%nat -> (0 < n)%nat -> 0 < u -> Rabs ((exp (- u) - cut n u) * ln u ^ k) <= / INR n * dm u.
Proof.
  intros Hk Hn Hu. assert (1 <= INR n) as N by (apply (le_INR 1); lia). rewrite Rabs_mult. pose proof (exp_pos (- u)) as E.
  assert (Rabs (exp (- u) - cut n u) <= u * u / INR n * exp (- u)) as K.
  { unfold cut. destruct Rle_dec as [L|L].
    - pose proof (exp_near n u Hn ltac:(lra)). rewrite Rabs_right; lra.
    - rewrite Rminus_0_r, Rabs_right by lra. rewrite <- (Rmult_1_l (exp (- u))) at 1. apply Rmult_le_compat_r; [lra|].
      apply (Rmult_le_reg_r (INR n)); [lra|]. replace (u * u / INR n * INR n) with (u * u) by (field; lra). nra. }
  pose proof (ln_pow k u Hk Hu) as K2. apply Rle_trans with (u * u / INR n * exp (- u) * Rabs (ln u ^ k)); [apply Rmult_le_compat_r; [apply Rabs_pos|assumption]|].
  unfold dm. replace (u * u / INR n * exp (- u) * Rabs (ln u ^ k)) with (/ INR n * (u ^ 2 * Rabs (ln u ^ k) * exp (- u))) by (field; lra).
  apply Rmult_le_compat_l; [left; apply Rinv_0_lt_compat; lra|]. apply Rmult_le_compat_r; lra.
Qed.

Lemma log_gamma_k k (v : R) : (k <= 4)%nat -> is_lim_seq (fun n => INR n / INR (S n) * cv k n) v -> integral_over (fun u => ln u ^ k * exp (- u)) 0 p_infty v.
Proof.
  intros Hk PL eps He. apply is_lim_seq_spec in PL. destruct (PL (mkposreal (eps / 3) ltac:(lra))) as [m0 Hm0]. cbn [pos] in Hm0.
  destruct (archimed_cor1 (eps / 3126) ltac:(lra)) as (m1 & Hm1 & Pm1). set (n := max m0 m1). specialize (Hm0 n ltac:(lia)).
  assert (0 < n)%nat as Hn by (unfold n; lia). assert (0 < INR n) as HN by now apply lt_0_INR.
  assert (/ INR n * 1042 < eps / 3) as B7.
  { assert (0 < INR m1) by now apply lt_0_INR. assert (/ INR n <= / INR m1) by (apply Rinv_le_contravar; [assumption|]; apply le_INR; unfold n; lia). lra. }
  destruct (cut_int k n Hk Hn (eps / 3) ltac:(lra)) as (a0 & A0 & FA).
  exists a0, (INR n). split; [apply (proj2 (between_pos _)); lra|]. split; [apply (proj2 (between_pos _)); lra|]. split; [lra|].
  intros a b Ha Hb La Lb. apply (proj1 (between_pos _)) in Ha. apply (proj1 (between_pos _)) in Hb.
  assert (ex_RInt (fun u => ln u ^ k * exp (- u)) a b) as E1.
  { apply (ex_RInt_continuous (V := R_CompleteNormedModule)). rewrite Rmin_left, Rmax_right by lra. intros z Hz. apply (ex_derive_continuous (fun u => ln u ^ k * exp (- u))). auto_derive. lra. }
  destruct E1 as [J0 RJ0]. assert (exists J : R, is_RInt (fun u => ln u ^ k * exp (- u)) a b J) as (J & RJ) by (exists J0; exact RJ0). exists J. split; [exact RJ|].
  destruct (FA a b Ha La Lb) as (I & RI & D).
  assert (is_RInt (fun u => (exp (- u) - cut n u) * ln u ^ k) a b (J - I)) as E3.
  { pose proof (is_RInt_minus _ _ a b _ _ RJ RI) as K. revert K. apply is_RInt_ext. intros x _. unfold minus, plus, opp; simpl. ring. }
  destruct (dm_int a b Ha ltac:(lra)) as [DB ED].
  assert (Rabs (J - I) <= / INR n * 1042) as K.
  { assert (is_RInt (fun u => / INR n * dm u) a b (/ INR n * RInt dm a b)) as RD.
    { exact (is_RInt_scal dm a b (/ INR n) _ (@RInt_correct R_CompleteNormedModule _ _ _ ED)). }
    apply Rle_trans with (/ INR n * RInt dm a b).
    - apply (norm_RInt_le (V := R_NormedModule) (fun u => (exp (- u) - cut n u) * ln u ^ k) (fun u => / INR n * dm u) a b); [lra| |exact E3|exact RD].
      intros x Hx. apply cut_near_k; [assumption|assumption|lra].
    - apply Rmult_le_compat_l; [left; now apply Rinv_0_lt_compat|assumption]. }
  apply Rabs_def2 in D, Hm0. assert (Rabs (J - I) < eps / 3) as K' by (apply Rle_lt_trans with (1 := K); exact B7). apply Rabs_def2 in K'.
  apply Rabs_def1; lra.
Qed.

Lemma ev_lim : is_lim_seq ev euler_gamma.
Proof.
  apply is_lim_seq_incr_1. pose proof P0_lim as PL.
  assert (is_lim_seq (fun n => (INR (S n) + 1) / INR (S n) * P0 (S n)) (1 * euler_gamma)) as Q.
  { apply is_lim_seq_mult'; [|exact PL]. apply (is_lim_seq_ext (fun n => 1 + 1 * / INR (S n))); [intros n; assert (INR (S n) <> 0) by (apply not_0_INR; lia); as_R; field; assumption|].
    replace (Finite 1) with (Finite (1 + 0)) by (f_equal; ring). apply is_lim_seq_plus'; [apply is_lim_seq_const|apply inv_lim]. }
  rewrite Rmult_1_l in Q. revert Q. apply is_lim_seq_ext. intros n. unfold P0, ev, harm, hp. assert (0 < INR (S n)) by (apply lt_0_INR; lia).
  rewrite (sum_eq (fun k => 1 / INR (S k) ^ 1) (fun k => 1 / INR (S k))) by (intros; now rewrite pow_1). set (q := INR (S n)) in *. as_R. field. lra.
Qed.
Lemma zeta3_lim : is_lim_seq (hp 3) zeta3.
Proof.
  assert (ex_series (fun k => 1 / INR (S k) ^ 3)) as E.
  { apply (ex_series_le (fun k => 1 / INR (S k) ^ 3) (fun k => 1 / INR (S k) ^ 2)).
    - intros k. assert (1 <= INR (S k)) as N by (apply (le_INR 1); lia). set (q := INR (S k)) in *. unfold norm; simpl. unfold abs; simpl. rewrite Rabs_right.
      + apply Rmult_le_compat_l; [lra|]. apply Rinv_le_contravar; nra.
      + apply Rle_ge, Rdiv_le_0_compat; [lra|]. repeat apply Rmult_lt_0_compat; lra.
    - exists (PI * PI / 6). apply is_series_Reals. apply is_lim_seq_Reals. exact zeta2. }
  apply Series_correct in E. apply is_series_Reals, is_lim_seq_Reals in E. exact E.
Qed.
Lemma ratio_lim (v : R) c : is_lim_seq c v -> is_lim_seq (fun n => INR n / INR (S n) * c n) v.
Proof.
  intros H. replace (Finite v) with (Finite (1 * v)) by (f_equal; ring). apply is_lim_seq_mult'; [|exact H].
  apply (is_lim_seq_ext (fun n => 1 - 1 * / INR (S n))); [intros n; rewrite S_INR; pose proof (pos_INR n); as_R; field; lra|].
  replace (Finite 1) with (Finite (1 - 0)) by (f_equal; ring). apply is_lim_seq_minus'; [apply is_lim_seq_const|apply inv_lim].
Qed.
Lemma lim_pow u l k : is_lim_seq u (Finite l) -> is_lim_seq (fun n => u n ^ k) (Finite (l ^ k)).
Proof. intros H. induction k as [|k IH]; [apply is_lim_seq_const|]. simpl. now apply is_lim_seq_mult'. Qed.
Lemma cv_lim k m s : (k <= 4)%nat -> is_lim_seq (cv k) (raw (Gumbel m s) k).
Proof.
  intros Hk. pose proof ev_lim as E. pose proof zeta2 as Z2. pose proof zeta3_lim as Z3. pose proof zeta4 as Z4.
  assert (forall c u l, is_lim_seq u (Finite l) -> is_lim_seq (fun n => c * u n) (Finite (c * l))) as SC by (intros; apply (is_lim_seq_mult' (fun _ => c)); [apply is_lim_seq_const|assumption]).
  destruct k as [|[|[|[|[|k]]]]]; try lia; unfold cv; cbn [raw].
  - apply is_lim_seq_const.
  - apply (is_lim_seq_opp ev (Finite euler_gamma)). exact E.
  - apply is_lim_seq_plus'; [now apply lim_pow|assumption].
  - apply (is_lim_seq_opp (fun n => ev n ^ 3 + 3 * ev n * hp 2 n + 2 * hp 3 n) (Finite (euler_gamma ^ 3 + 3 * euler_gamma * (PI * PI / 6) + 2 * zeta3))).
    apply is_lim_seq_plus'; [apply is_lim_seq_plus'; [now apply lim_pow|]|now apply SC]. apply is_lim_seq_mult'; [now apply SC|assumption].
  - apply is_lim_seq_plus'; [apply is_lim_seq_plus'; [apply is_lim_seq_plus'; [apply is_lim_seq_plus'|]|]|].
    + now apply lim_pow.
    + apply is_lim_seq_mult'; [apply SC; now apply lim_pow|assumption].
    + apply is_lim_seq_mult'; [now apply SC|assumption].
    + apply (SC 3 (fun n => hp 2 n ^ 2)). now apply lim_pow.
    + now apply SC.
Qed.

Lemma gumbel_raw m s n : (n <= 4)%nat -> integral_over (fun y => y ^ n * std_density (Gumbel m s) y) m_infty p_infty (raw (Gumbel m s) n).
Proof.
  intros Hn. cbn [std_density]. apply (io_ext _ _ (fun y => exp y * (ln (exp y) ^ n * exp (- exp y)))).
  { intros y _. rewrite ln_exp. unfold Rminus. rewrite exp_plus. ring. }
  apply (io_subst m_infty p_infty 0 p_infty exp exp ln (fun x _ => proj2 (between_pos _) (exp_pos x))) with (g := fun u => ln u ^ n * exp (- u)).
  - intros y Hy. split; [apply between_all|]. apply exp_ln. exact (proj1 (between_pos _) Hy).
  - intros x y _ _ L. now apply exp_le.
  - intros x _. apply is_derive_exp.
  - intros x _. apply (ex_derive_continuous exp). eexists. apply is_derive_exp.
  - intros y Hy. apply (proj1 (between_pos _)) in Hy. apply (ex_derive_continuous (fun u => ln u ^ n * exp (- u))). auto_derive. assumption.
  - apply log_gamma_k; [assumption|]. now apply ratio_lim, cv_lim.
Qed.
Lemma gumbel_right m s : std_right (Gumbel m s).
Proof.
  pose proof PI_RGT_0 as P. split; intros _; cbn [scipy_std s_mu s_mu2 s_g1 s_g2 raw].
  - reflexivity.
  - ring.
  - replace (euler_gamma ^ 2 + PI * PI / 6 - - euler_gamma * - euler_gamma) with (PI * PI / 6) by ring.
    assert (0 < sqrt 6) as S6 by (apply sqrt_lt_R0; lra). pose proof (sqrt_sqrt 6 ltac:(lra)) as E6.
    assert (sqrt (PI * PI / 6) = PI / sqrt 6) as ->.
    { apply sqrt_lem_1; [nra|left; now apply Rdiv_lt_0_compat|]. rewrite <- E6 at 3. field. lra. }
    replace (- 12 * sqrt 6 / PI ^ 3 * zeta3 * (PI / sqrt 6) ^ 3) with (- 12 * zeta3 / (sqrt 6 * sqrt 6)) by (field; lra). rewrite E6. field.
  - field.
Qed.

(** Every distribution. *)
Lemma all_moments d : valid d -> moments_there d.
Proof.
  intros V. destruct d as [a b g|mu sg|mu sg g|l g|a b g|a b|a b g|mu sg] eqn:E; try (apply moments_of; [assumption|exact I]).
  intros n Hn _. now apply gumbel_raw.
Qed.
Lemma all_right d : valid d -> std_right d.
Proof. intros V. destruct d; try (apply scipy_right; [assumption|exact I]). apply gumbel_right. Qed.
