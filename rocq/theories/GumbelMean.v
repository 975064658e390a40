(** The mean of the Gumbel distribution: Euler's constant as an integral. *)
From Coquelicot Require Import Coquelicot.
From Coq Require Import List Arith Reals Lra Lia.
From Verif Require Import Base RealFacts Gauss Improper Ext DistModel DistSpec DistIntegrals DistProofs PoFProofs2 DistProofs2 FitProofs2 DistProofs4 DistProofs5 ExpectSpec Expect MomentModel MomentSpec MomentProofs MomentProofs2 MomentProofs3.
Import ListNotations.
Open Scope R_scope.

(** ** Euler's constant *)
Definition harm (n : nat) : R := sum_f_R0 (fun k => 1 / INR (S k)) n.
Definition eu (n : nat) : R := harm n - ln (INR (S n)).
Lemma ln_step m : 0 < m -> 1 / (m + 1) <= ln (m + 1) - ln m <= 1 / m.
Proof.
  intros Hm. rewrite <- ln_div by lra. split.
  - assert (0 < (m + 1) / m) by (apply Rdiv_lt_0_compat; lra). rewrite <- (Ropp_involutive (ln ((m + 1) / m))), <- ln_Rinv by assumption.
    assert (0 < / ((m + 1) / m)) as P by now apply Rinv_0_lt_compat. pose proof (ln_le_minus_1 _ P) as K.
    replace (/ ((m + 1) / m)) with (1 - 1 / (m + 1)) in * by (field; lra). lra.
  - assert (0 < (m + 1) / m) as P by (apply Rdiv_lt_0_compat; lra). pose proof (ln_le_minus_1 _ P) as K. replace ((m + 1) / m) with (1 + 1 / m) in * by (field; lra). lra.
Qed.
Lemma eu_decr n : eu (S n) <= eu n.
Proof.
  unfold eu, harm. rewrite tech5. pose proof (ln_step (INR (S n))) as K. assert (0 < INR (S n)) as P by (apply lt_0_INR; lia). specialize (K P).
  rewrite <- (S_INR (S n)) in K. lra.
Qed.
Lemma eu_pos n : 0 <= eu n.
Proof.
  assert (forall n, ln (INR (S n)) + 1 / INR (S n) <= harm n) as K; [|specialize (K n); assert (0 < 1 / INR (S n)) by (apply Rdiv_lt_0_compat; [lra|apply lt_0_INR; lia]); unfold eu; lra].
  induction n0 as [|m IH].
  - unfold harm. simpl. rewrite ln_1. lra.
  - unfold harm in *. rewrite tech5. assert (0 < INR (S m)) as P by (apply lt_0_INR; lia). pose proof (ln_step (INR (S m)) P) as K. rewrite <- (S_INR (S m)) in K. lra.
Qed.
Lemma eu_lim : is_lim_seq eu euler_gamma.
Proof.
  assert (ex_finite_lim_seq eu) as E.
  { apply (ex_finite_lim_seq_decr eu 0); [exact eu_decr|exact eu_pos]. }
  apply Lim_seq_correct' in E. exact E.
Qed.

(** ** (1 - u/n)^n and exp(-u) *)
Lemma bernoulli x n : - 1 <= x -> 1 + INR n * x <= (1 + x) ^ n.
Proof.
  intros Hx. induction n as [|n IH]; [simpl; lra|]. rewrite S_INR, <- tech_pow_Rmult.
  apply Rle_trans with ((1 + x) * (1 + INR n * x)); [|apply Rmult_le_compat_l; lra]. pose proof (pos_INR n). nra.
Qed.
Lemma exp_pow x n : (0 < n)%nat -> exp (x / INR n) ^ n = exp x.
Proof. intros Hn. rewrite pow_exp. f_equal. field. apply not_0_INR. lia. Qed.
Lemma exp_near n u : (0 < n)%nat -> 0 <= u <= INR n -> 0 <= exp (- u) - (1 - u / INR n) ^ n <= u * u / INR n * exp (- u).
Proof.
  intros Hn Hu. assert (0 < INR n) as N by (apply lt_0_INR; lia). set (N' := INR n) in *.
  assert (0 <= u / N' <= 1) as Q by (split; [apply Rdiv_le_0_compat; lra|apply (Rmult_le_reg_r N'); [lra|]; field_simplify; lra]).
  split.
  - assert ((1 - u / N') ^ n <= exp (- u)); [|lra]. rewrite <- (exp_pow (- u) n Hn). apply pow_incr. split; [lra|].
    pose proof (exp_ge_1_plus (- u / N')). unfold N' in *. replace (- u / INR n) with (- (u / INR n)) in * by (field; lra). lra.
  - assert (1 - u * u / N' <= exp u * (1 - u / N') ^ n) as K.
    { apply Rle_trans with ((1 + u / N') ^ n * (1 - u / N') ^ n).
      - rewrite <- Rpow_mult_distr. replace ((1 + u / N') * (1 - u / N')) with (1 + - (u / N' * (u / N'))) by ring.
        pose proof (bernoulli (- (u / N' * (u / N'))) n ltac:(nra)) as B. fold N' in B. replace (1 - u * u / N') with (1 + N' * - (u / N' * (u / N'))) by (field; lra). exact B.
      - apply Rmult_le_compat_r; [apply pow_le; lra|]. rewrite <- (exp_pow u n Hn). apply pow_incr. split; [lra|]. apply exp_ge_1_plus. }
    assert (exp (- u) * (1 - u * u / N') <= exp (- u) * (exp u * (1 - u / N') ^ n)) as K2 by (apply Rmult_le_compat_l; [left; apply exp_pos|assumption]).
    rewrite <- Rmult_assoc, <- exp_plus in K2. replace (- u + u) with 0 in K2 by ring. rewrite exp_0 in K2. lra.
Qed.

(** ** The antiderivative of (1 - u/n)^n ln u *)
Section Anti.
  Variable n : nat.
  Hypothesis Hn : (0 < n)%nat.
  Let N := INR n.
  Lemma N_pos : 0 < N.
  Proof. apply lt_0_INR; lia. Qed.
  Definition vs (v : R) : R := sum_f_R0 (fun k => v ^ S k / INR (S k)) n.
  Lemma vs_derive : forall m v, is_derive (fun v => sum_f_R0 (fun k => v ^ S k / INR (S k)) m) v (sum_f_R0 (fun k => v ^ k) m).
  Proof.
    induction m as [|m IH]; intros v.
    - simpl sum_f_R0. apply (is_derive_ext (fun v => v)); [intros t; simpl; unfold Rdiv; rewrite Rmult_1_r, Rinv_1, Rmult_1_r; reflexivity|]. exact (is_derive_id v).
    - apply (is_derive_ext (fun v => sum_f_R0 (fun k => v ^ S k / INR (S k)) m + v ^ S (S m) / INR (S (S m)))); [intros t; rewrite tech5; reflexivity|].
      rewrite tech5. apply (is_derive_plus (fun v => sum_f_R0 (fun k => v ^ S k / INR (S k)) m) (fun v => v ^ S (S m) / INR (S (S m)))); [apply IH|].
      assert (INR (S (S m)) <> 0) as NZ by (apply not_0_INR; lia). auto_derive; [exact I|]. change (pred (S (S m))) with (S m).
      change (match m with O => 1 | S _ => INR m + 1 end) with (INR (S m)). rewrite <- (S_INR (S m)). set (q := INR (S (S m))) in *. cbn [pow pred]. field. exact NZ.
  Qed.
  Lemma geometric m v : (1 - v) * sum_f_R0 (fun k => v ^ k) m = 1 - v ^ S m.
  Proof. induction m as [|m IH]; [simpl; ring|]. rewrite tech5, Rmult_plus_distr_l, IH. simpl. ring. Qed.
  Definition P (u : R) : R :=
    let v := 1 - u / N in
    - N * (ln N * (v ^ S n / (N + 1)) + (v ^ S n - 1) / (N + 1) * ln (u / N) - vs v / (N + 1)).
  Lemma P_derive u : 0 < u -> is_derive P u ((1 - u / N) ^ n * ln u).
  Proof.
    intros Hu. pose proof N_pos as HN.
    assert (is_derive (fun u => 1 - u / N) u (- / N)) as Dv by (auto_derive; [lra|field; lra]).
    pose proof (is_derive_comp vs (fun u => 1 - u / N) u _ _ (vs_derive n (1 - u / N)) Dv) as D1.
    unfold scal in D1; simpl in D1; unfold mult in D1; simpl in D1. set (Sv := sum_f_R0 (fun k => (1 - u / N) ^ k) n) in *.
    assert (is_derive (fun u => ln N * ((1 - u / N) ^ S n / (N + 1)) + ((1 - u / N) ^ S n - 1) / (N + 1) * ln (u / N)) u
      (- / N * (1 - u / N) ^ n * ln N + (- / N * (1 - u / N) ^ n * ln (u / N) + ((1 - u / N) ^ S n - 1) / (N + 1) * (1 / u)))) as D2.
    { assert (0 < u / N) by (apply Rdiv_lt_0_compat; lra). auto_derive; [repeat split; try lra; try exact I|].
      rewrite <- (S_INR n). change (match n with O => 1 | S _ => INR n + 1 end) with (INR (S n)). rewrite (S_INR n). fold N. cbn [pred]. change (u * / N) with (u / N). change (1 + - (u / N)) with (1 - u / N). rewrite <- tech_pow_Rmult. set (w := (1 - u / N) ^ n).
      replace (match n with O => 1 | S _ => N + 1 end) with (N + 1) by (unfold N; destruct n; simpl; ring). field. lra. }
    pose proof (is_derive_minus _ (fun u => vs (1 - u / N) / (N + 1)) u _ (- / N * Sv / (N + 1)) D2) as D3.
    assert (is_derive (fun u => vs (1 - u / N) / (N + 1)) u (- / N * Sv / (N + 1))) as D4.
    { pose proof (is_derive_scal (fun u => vs (1 - u / N)) u (/ (N + 1)) _ D1) as K. replace (- / N * Sv / (N + 1)) with (/ (N + 1) * (- / N * Sv)) by (field; lra).
      revert K. apply is_derive_ext. intros t. as_R. field. lra. }
    specialize (D3 D4). pose proof (is_derive_scal _ u (- N) _ D3) as D5. unfold P.
    match type of D5 with is_derive _ _ ?l => replace ((1 - u / N) ^ n * ln u) with l; [exact D5|] end.
    unfold minus, plus, opp; simpl. pose proof (geometric n (1 - u / N)) as Gm. fold Sv in Gm. replace (1 - (1 - u / N)) with (u / N) in Gm by ring.
    assert (Sv = (1 - (1 - u / N) ^ S n) * N / u) as -> by (apply (Rmult_eq_reg_l (u / N)); [rewrite Gm; field; lra|apply Rgt_not_eq, Rdiv_lt_0_compat; lra]).
    rewrite (ln_div u N) by lra. simpl. field. lra.
  Qed.
  Lemma P_end : P N = 0.
  Proof.
    pose proof N_pos. unfold P, vs. replace (N / N) with 1 by (field; lra). rewrite ln_1. replace (1 - 1) with 0 by ring.
    replace (sum_f_R0 (fun k => 0 ^ S k / INR (S k)) n) with 0; [simpl; field; lra|]. symmetry. rewrite (sum_eq _ (fun _ => 0)); [now rewrite sum_cte, Rmult_0_l|].
    intros i _. simpl. rewrite Rmult_0_l. unfold Rdiv. apply Rmult_0_l.
  Qed.
  Definition P0 : R := N / (N + 1) * (harm n - ln N).
  Definition Q (u : R) : R := - N * (ln N * ((1 - u / N) ^ S n / (N + 1)) - vs (1 - u / N) / (N + 1)).
  Lemma Q_0 : Q 0 = P0.
  Proof.
    pose proof N_pos. unfold Q, P0, vs, harm. replace (1 - 0 / N) with 1 by (field; lra). rewrite pow1.
    rewrite (sum_eq (fun k => 1 ^ S k / INR (S k)) (fun k => 1 / INR (S k))) by (intros; now rewrite pow1). field. lra.
  Qed.
  Lemma Q_cont u : continuous Q u.
  Proof.
    pose proof N_pos. apply (ex_derive_continuous Q u).
    assert (ex_derive (fun u => vs (1 - u / N)) u) as D1.
    { assert (is_derive (fun u => 1 - u / N) u (- / N)) as Dv by (auto_derive; [lra|field; lra]).
      eexists. exact (is_derive_comp vs (fun u => 1 - u / N) u _ _ (vs_derive n (1 - u / N)) Dv). }
    unfold Q. apply (ex_derive_scal (fun u => ln N * ((1 - u / N) ^ S n / (N + 1)) - vs (1 - u / N) / (N + 1)) (- N)).
    apply (ex_derive_minus (fun u => ln N * ((1 - u / N) ^ S n / (N + 1))) (fun u => vs (1 - u / N) / (N + 1))).
    - auto_derive. lra.
    - apply (ex_derive_ext (fun u => / (N + 1) * vs (1 - u / N))); [intros t; as_R; field; lra|]. apply (ex_derive_scal (fun u => vs (1 - u / N)) (/ (N + 1))). exact D1.
  Qed.
  Lemma w_ln w : 0 < w <= 1 -> 0 <= - (w * ln w) <= 2 * sqrt w.
  Proof.
    intros Hw. assert (0 < sqrt w) as P' by (apply sqrt_lt_R0; lra). pose proof (sqrt_sqrt w ltac:(lra)) as E.
    assert (ln w <= 0) by (rewrite <- ln_1; apply ln_le; lra). split; [nra|].
    assert (0 < / sqrt w) as P2 by now apply Rinv_0_lt_compat. pose proof (ln_le_minus_1 _ P2) as K. rewrite ln_Rinv in K by assumption.
    assert (ln w = 2 * ln (sqrt w)) as L by (rewrite <- E at 1; rewrite ln_mult by assumption; ring).
    assert (w * / sqrt w = sqrt w) as W by (rewrite <- E at 1; field; lra).
    assert (w * - ln (sqrt w) <= w * / sqrt w) by (apply Rmult_le_compat_l; lra). rewrite L. lra.
  Qed.
  Lemma P_Q u : 0 < u <= N -> Rabs (P u - Q u) <= 2 * N * sqrt (u / N).
  Proof.
    intros Hu. pose proof N_pos as HN. assert (0 < u / N <= 1) as W by (split; [apply Rdiv_lt_0_compat; lra|apply (Rmult_le_reg_r N); [lra|]; field_simplify; lra]).
    pose proof (w_ln (u / N) W) as K. unfold P, Q. set (w := u / N) in *.
    replace (- N * (ln N * ((1 - w) ^ S n / (N + 1)) + ((1 - w) ^ S n - 1) / (N + 1) * ln w - vs (1 - w) / (N + 1)) - - N * (ln N * ((1 - w) ^ S n / (N + 1)) - vs (1 - w) / (N + 1)))
      with (N * ((1 - (1 - w) ^ S n) / (N + 1)) * ln w) by (field; lra).
    assert (0 <= (1 - (1 - w) ^ S n) / (N + 1) <= w) as B.
    { assert ((1 - w) ^ S n <= 1) by (apply Rle_trans with (1 ^ S n); [apply pow_incr; lra|rewrite pow1; lra]). pose proof (bernoulli (- w) (S n) ltac:(lra)) as B. rewrite S_INR in B. fold N in B. replace (1 + - w) with (1 - w) in B by ring.
      split; [apply Rdiv_le_0_compat; lra|]. apply (Rmult_le_reg_r (N + 1)); [lra|]. replace ((1 - (1 - w) ^ S n) / (N + 1) * (N + 1)) with (1 - (1 - w) ^ S n) by (field; lra). lra. }
    assert (ln w <= 0) by (rewrite <- ln_1; apply ln_le; lra). set (q := (1 - (1 - w) ^ S n) / (N + 1)) in *.
    assert (0 <= q * - ln w) by (apply Rmult_le_pos; lra). assert (q * - ln w <= w * - ln w) by (apply Rmult_le_compat_r; lra).
    replace (N * q * ln w) with (- (N * (q * - ln w))) by ring. rewrite Rabs_Ropp, Rabs_right by (apply Rle_ge, Rmult_le_pos; lra).
    replace (2 * N * sqrt w) with (N * (2 * sqrt w)) by ring. apply Rmult_le_compat_l; lra.
  Qed.
  Lemma P_start eps : 0 < eps -> exists a0, 0 < a0 <= N /\ forall a, 0 < a -> a <= a0 -> Rabs (P a - P0) < eps.
  Proof.
    intros He. pose proof N_pos as HN. pose proof (Q_cont 0) as C. destruct (proj1 (filterlim_locally (F := locally 0) Q (Q 0)) C (mkposreal (eps / 2) ltac:(lra))) as [[dl Hd] HC].
    set (r := eps / (8 * N)). assert (0 < r) as Hr by (apply Rdiv_lt_0_compat; lra).
    exists (Rmin N (Rmin (dl / 2) (N * (r * r)))). pose proof (Rmin_l N (Rmin (dl / 2) (N * (r * r)))) as X1. pose proof (Rmin_r N (Rmin (dl / 2) (N * (r * r)))) as X2.
    pose proof (Rmin_l (dl / 2) (N * (r * r))). pose proof (Rmin_r (dl / 2) (N * (r * r))). assert (0 < N * (r * r)) by (apply Rmult_lt_0_compat; [assumption|nra]).
    split; [split; [repeat apply Rmin_glb_lt; lra|assumption]|]. intros a Ha La.
    assert (Rabs (Q a - Q 0) < eps / 2) as K1.
    { specialize (HC a). simpl in HC. apply HC. unfold ball; simpl. unfold AbsRing_ball, abs, minus, plus, opp; simpl. rewrite Ropp_0, Rplus_0_r, Rabs_right; lra. }
    pose proof (P_Q a ltac:(lra)) as K2. rewrite Q_0 in K1.
    assert (sqrt (a / N) <= r) as K3.
    { rewrite <- (sqrt_square r) by lra. apply sqrt_le_1_alt. apply (Rmult_le_reg_l N); [assumption|]. replace (N * (a / N)) with a by (field; lra). lra. }
    assert (2 * N * sqrt (a / N) <= 2 * N * r) as K4 by (apply Rmult_le_compat_l; lra). replace (2 * N * r) with (eps / 4) in K4 by (unfold r; field; lra).
    replace (P a - P0) with (P a - Q a + (Q a - P0)) by ring. apply Rle_lt_trans with (1 := Rabs_triang _ _). lra.
  Qed.
  Lemma head_int a : 0 < a -> a <= N -> is_RInt (fun u => (1 - u / N) ^ n * ln u) a N (- P a).
  Proof.
    intros Ha L. replace (- P a) with (minus (P N) (P a)) by (rewrite P_end; unfold minus, plus, opp; simpl; ring).
    apply (is_RInt_derive P (fun u => (1 - u / N) ^ n * ln u)); rewrite Rmin_left, Rmax_right by lra; intros x Hx.
    - apply P_derive. lra.
    - apply (ex_derive_continuous (fun u => (1 - u / N) ^ n * ln u)). pose proof N_pos. auto_derive. lra.
  Qed.
End Anti.

Lemma P0_lim : is_lim_seq (fun n => P0 (S n)) euler_gamma.
Proof.
  apply (is_lim_seq_ext (fun n => (1 - / (INR n + 2)) * (eu (S n) + (ln (INR (S (S n))) - ln (INR (S n)))))).
  { intros n. unfold P0, eu. pose proof (pos_INR n). rewrite !S_INR. as_R. field. lra. }
  assert (is_lim_seq (fun n => / (INR n + 2)) 0) as I0.
  { apply is_lim_seq_spec. intros eps. destruct (archimed_cor1 eps (cond_pos eps)) as (m & Hm & Pm). exists m. intros n Hn. apply le_INR in Hn. assert (0 < INR m) by now apply lt_0_INR.
    rewrite Rminus_0_r, Rabs_right by (left; apply Rinv_0_lt_compat; lra). apply Rle_lt_trans with (/ INR m); [apply Rinv_le_contravar; lra|assumption]. }
  replace (Finite euler_gamma) with (Finite ((1 - 0) * (euler_gamma + 0))) by (f_equal; ring).
  apply (is_lim_seq_mult' (fun n => 1 - / (INR n + 2)) (fun n => eu (S n) + (ln (INR (S (S n))) - ln (INR (S n))))).
  - apply (is_lim_seq_minus' (fun _ => 1) (fun n => / (INR n + 2))); [apply is_lim_seq_const|exact I0].
  - apply (is_lim_seq_plus' (fun n => eu (S n)) (fun n => ln (INR (S (S n))) - ln (INR (S n)))); [apply (is_lim_seq_incr_1 eu), eu_lim|].
    apply (is_lim_seq_le_le (fun _ => 0) _ (fun n => 2 * / (INR n + 2))); [|apply is_lim_seq_const|replace (Finite 0) with (Finite (2 * 0)) by (f_equal; ring); apply (is_lim_seq_mult' (fun _ => 2)); [apply is_lim_seq_const|exact I0]].
    intros n. pose proof (pos_INR n). assert (0 < INR (S n)) as PS by (apply lt_0_INR; lia). pose proof (ln_step (INR (S n)) PS) as K. rewrite <- (S_INR (S n)) in K.
    assert (0 < 1 / (INR (S n) + 1)) by (apply Rdiv_lt_0_compat; lra). rewrite <- (S_INR (S n)) in *. split; [lra|]. apply Rle_trans with (1 := proj2 K).
    rewrite S_INR. apply (Rmult_le_reg_r ((INR n + 1) * (INR n + 2))); [nra|]. field_simplify; lra.
Qed.

(** ** The integral of ln u exp(-u) *)
Lemma ln_abs u : 0 < u -> Rabs (ln u) <= 1 / u + u.
Proof.
  intros Hu. assert (0 < / u) as Pi by now apply Rinv_0_lt_compat. pose proof (ln_le_minus_1 u Hu). pose proof (ln_le_minus_1 _ Pi) as K. rewrite ln_Rinv in K by assumption.
  unfold Rdiv. rewrite Rmult_1_l. apply Rabs_le. lra.
Qed.
Definition dom (u : R) : R := gamma_kernel 2 u + gamma_kernel 4 u.
Lemma dom_eq u : 0 < u -> dom u = (u + u ^ 3) * exp (- u).
Proof.
  intros Hu. unfold dom, gamma_kernel. replace (2 - 1) with (INR 1) by (simpl; ring). replace (4 - 1) with (INR 3) by (simpl; ring). rewrite !Rpower_pow by assumption. simpl. ring.
Qed.
Lemma dom_int a b : 0 < a -> a <= b -> RInt dom a b <= 7.
Proof.
  intros Ha L. assert (gamma_fun 2 = 1 /\ gamma_fun 4 = 6) as [G2 G4].
  { destruct (gamma_raws 1 ltac:(lra)) as (E1 & _ & E3 & _). rewrite gamma_fun_1 in *. simpl in E1, E3. replace (1 + 1) with 2 in E1 by ring. replace (1 + (1 + 1 + 1)) with 4 in E3 by ring. rewrite E1, E3. lra. }
  assert (forall k x, between 0 p_infty x -> continuous (gamma_kernel k) x) as C by (intros k x Hx; apply gk_cont; [exact (proj1 (between_pos _) Hx)|exact I]).
  assert (forall k, ex_RInt (gamma_kernel k) a b) as EX.
  { intros k. apply (ex_RInt_continuous (V := R_CompleteNormedModule)). rewrite Rmin_left, Rmax_right by lra. intros z Hz. apply C, (proj2 (between_pos _)). lra. }
  assert (forall k, 0 < k -> RInt (gamma_kernel k) a b <= gamma_fun k) as B.
  { intros k Hk. apply (io_nonneg_bound 0 p_infty); [| |apply gamma_io; assumption|apply (proj2 (between_pos _)); lra|apply (proj2 (between_pos _)); lra|assumption].
    - intros x Hx. left. apply gk_pos; [exact (proj1 (between_pos _) Hx)|exact I].
    - apply C. }
  assert (RInt dom a b = RInt (gamma_kernel 2) a b + RInt (gamma_kernel 4) a b) as E.
  { exact (RInt_plus (V := R_CompleteNormedModule) (gamma_kernel 2) (gamma_kernel 4) a b (EX 2) (EX 4)). }
  rewrite E.
  pose proof (B 2 ltac:(lra)). pose proof (B 4 ltac:(lra)). lra.
Qed.

Definition cut (n : nat) (u : R) : R := if Rle_dec u (INR n) then (1 - u / INR n) ^ n else 0.
Lemma cut_near n u : (0 < n)%nat -> 0 < u -> Rabs ((exp (- u) - cut n u) * ln u) <= / INR n * dom u.
Proof.
  intros Hn Hu. assert (1 <= INR n) as N by (apply (le_INR 1); lia). rewrite Rabs_mult, dom_eq by assumption. pose proof (exp_pos (- u)) as E.
  assert (Rabs (exp (- u) - cut n u) <= u * u / INR n * exp (- u)) as K.
  { unfold cut. destruct Rle_dec as [L|L].
    - pose proof (exp_near n u Hn ltac:(lra)). rewrite Rabs_right; lra.
    - rewrite Rminus_0_r, Rabs_right by lra. rewrite <- (Rmult_1_l (exp (- u))) at 1. apply Rmult_le_compat_r; [lra|].
      apply (Rmult_le_reg_r (INR n)); [lra|]. replace (u * u / INR n * INR n) with (u * u) by (field; lra). nra. }
  pose proof (ln_abs u Hu) as K2. pose proof (Rabs_pos (ln u)). pose proof (Rabs_pos (exp (- u) - cut n u)).
  apply Rle_trans with (u * u / INR n * exp (- u) * (1 / u + u)); [apply Rmult_le_compat; assumption|]. right. field. lra.
Qed.

Lemma log_gamma : integral_over (fun u => ln u * exp (- u)) 0 p_infty (- euler_gamma).
Proof.
  intros eps He. pose proof P0_lim as PL. apply is_lim_seq_spec in PL. destruct (PL (mkposreal (eps / 3) ltac:(lra))) as [m0 Hm0]. simpl in Hm0.
  destruct (archimed_cor1 (eps / 21) ltac:(lra)) as (m1 & Hm1 & Pm1). set (n := S (max m0 m1)). specialize (Hm0 (max m0 m1) ltac:(lia)). fold n in Hm0.
  assert (0 < n)%nat as Hn by (unfold n; lia). assert (0 < INR n) as HN by now apply lt_0_INR.
  assert (/ INR n * 7 < eps / 3) as B7.
  { assert (0 < INR m1) by now apply lt_0_INR. assert (/ INR n <= / INR m1) by (apply Rinv_le_contravar; [assumption|]; apply le_INR; unfold n; lia). lra. }
  destruct (P_start n Hn (eps / 3) ltac:(lra)) as (a0 & A0 & FA).
  exists a0, (INR n). split; [apply (proj2 (between_pos _)); lra|]. split; [apply (proj2 (between_pos _)); lra|]. split; [lra|].
  intros a b Ha Hb La Lb. apply (proj1 (between_pos _)) in Ha. apply (proj1 (between_pos _)) in Hb.
  assert (forall z, 0 < z -> continuous (fun u => ln u * exp (- u)) z) as C1.
  { intros z Hz. apply (ex_derive_continuous (fun u => ln u * exp (- u))). auto_derive. assumption. }
  assert (ex_RInt (fun u => ln u * exp (- u)) a b) as E1.
  { apply (ex_RInt_continuous (V := R_CompleteNormedModule)). rewrite Rmin_left, Rmax_right by lra. intros z Hz. apply C1. lra. }
  exists (RInt (fun u => ln u * exp (- u)) a b). split; [now apply (@RInt_correct R_CompleteNormedModule)|].
  assert (is_RInt (fun u => cut n u * ln u) a b (- P n a)) as E2.
  { replace (- P n a) with (plus (- P n a) 0) by (unfold plus; simpl; ring). apply (is_RInt_Chasles (fun u => cut n u * ln u) a (INR n) b).
    - apply (is_RInt_ext (fun u => (1 - u / INR n) ^ n * ln u)); [|apply head_int; [assumption|assumption|lra]].
      rewrite Rmin_left, Rmax_right by lra. intros x Hx. unfold cut. destruct Rle_dec; [reflexivity|lra].
    - apply (is_RInt_ext (fun _ => 0)).
      + rewrite Rmin_left, Rmax_right by lra. intros x Hx. unfold cut. destruct Rle_dec; [lra|]. symmetry. apply Rmult_0_l.
      + pose proof (is_RInt_const (V := R_NormedModule) (INR n) b 0) as K. unfold scal in K; simpl in K. unfold mult in K; simpl in K. now rewrite Rmult_0_r in K. }
  assert (is_RInt (fun u => (exp (- u) - cut n u) * ln u) a b (RInt (fun u => ln u * exp (- u)) a b - - P n a)) as E3.
  { pose proof (is_RInt_minus _ _ a b _ _ (@RInt_correct R_CompleteNormedModule _ _ _ E1) E2) as K. revert K. apply is_RInt_ext. intros x _. unfold minus, plus, opp; simpl. ring. }
  assert (forall z, 0 < z -> continuous dom z) as CD.
  { intros z Hz. unfold dom. apply (continuous_plus (gamma_kernel 2) (gamma_kernel 4)); apply gk_cont; try assumption; exact I. }
  assert (ex_RInt dom a b) as ED by (apply (ex_RInt_continuous (V := R_CompleteNormedModule)); rewrite Rmin_left, Rmax_right by lra; intros z Hz; apply CD; lra).
  assert (Rabs (RInt (fun u => ln u * exp (- u)) a b - - P n a) <= / INR n * 7) as K.
  { assert (is_RInt (fun u => / INR n * dom u) a b (/ INR n * RInt dom a b)) as RD.
    { exact (is_RInt_scal dom a b (/ INR n) _ (@RInt_correct R_CompleteNormedModule _ _ _ ED)). }
    apply Rle_trans with (/ INR n * RInt dom a b).
    - apply (norm_RInt_le (V := R_NormedModule) (fun u => (exp (- u) - cut n u) * ln u) (fun u => / INR n * dom u) a b); [lra| |exact E3|exact RD].
      intros x Hx. apply cut_near; [assumption|lra].
    - apply Rmult_le_compat_l; [left; now apply Rinv_0_lt_compat|]. apply dom_int; lra. }
  specialize (FA a Ha La). apply Rabs_def2 in FA, Hm0. set (J := RInt _ a b) in *. clearbody J.
  assert (Rabs (J - - P n a) < eps / 3) as K' by lra. apply Rabs_def2 in K'. apply Rabs_def1; lra.
Qed.

Lemma gumbel_first : integral_over (fun y => y * exp (y - exp y)) m_infty p_infty (- euler_gamma).
Proof.
  apply (io_ext _ _ (fun y => exp y * (ln (exp y) * exp (- exp y)))).
  { intros y _. rewrite ln_exp. unfold Rminus. rewrite exp_plus. ring. }
  apply (io_subst m_infty p_infty 0 p_infty exp exp ln (fun x _ => proj2 (between_pos _) (exp_pos x))) with (g := fun u => ln u * exp (- u)).
  - intros y Hy. split; [apply between_all|]. apply exp_ln. exact (proj1 (between_pos _) Hy).
  - intros x y _ _ L. now apply exp_le.
  - intros x _. apply is_derive_exp.
  - intros x _. apply (ex_derive_continuous exp). eexists. apply is_derive_exp.
  - intros y Hy. apply (proj1 (between_pos _)) in Hy. apply (ex_derive_continuous (fun u => ln u * exp (- u))). auto_derive. assumption.
  - exact log_gamma.
Qed.
Lemma gumbel_zeroth : integral_over (fun y => exp (y - exp y)) m_infty p_infty 1.
Proof.
  apply (io_ext _ _ (fun y => exp y * gamma_kernel 1 (exp y))).
  { intros y _. unfold gamma_kernel. replace (1 - 1) with 0 by ring. rewrite Rpower_O by apply exp_pos. unfold Rminus. rewrite exp_plus. ring. }
  enough (integral_over (fun y => exp y * gamma_kernel 1 (exp y)) m_infty p_infty (gamma_fun 1)) as K by (rewrite gamma_fun_1 in K; exact K).
  apply (io_subst m_infty p_infty 0 p_infty exp exp ln (fun x _ => proj2 (between_pos _) (exp_pos x))).
  - intros y Hy. split; [apply between_all|]. apply exp_ln. exact (proj1 (between_pos _) Hy).
  - intros x y _ _ L. now apply exp_le.
  - intros x _. apply is_derive_exp.
  - intros x _. apply (ex_derive_continuous exp). eexists. apply is_derive_exp.
  - intros y Hy. apply gk_cont; [exact (proj1 (between_pos _) Hy)|exact I].
  - apply gamma_io. lra.
Qed.
Lemma gumbel_mean m s : 0 < s -> expectation (Gumbel m s) (fun x => x) (s * - euler_gamma + m).
Proof.
  intros Hs. apply expectation_std; [exact Hs|]. cbn [loc_arg scale_arg std_lo std_hi std_density].
  replace (s * - euler_gamma + m) with (m * 1 + s * - euler_gamma) by ring.
  apply (io_ext _ _ (fun y => m * exp (y - exp y) + s * (y * exp (y - exp y)))); [intros; ring|].
  apply io_plus; apply io_scal; [exact gumbel_zeroth|exact gumbel_first].
Qed.
