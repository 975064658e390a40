(** Facts about sums, the binomial and the Poisson distribution. *)
From Coquelicot Require Import Coquelicot.
From Coq Require Import List Arith Reals Bool Lra Lia.
From Verif Require Import Base RealFacts RList.
Import ListNotations.
Open Scope R_scope.

(** * Sums over a range of naturals *)
Definition bsum (f : nat -> R) (a n : nat) : R := rsum (map f (seq a n)).

Lemma bsum_0 f a : bsum f a 0 = 0.
Proof. reflexivity. Qed.
Lemma bsum_S_l f a n : bsum f a (S n) = f a + bsum f (S a) n.
Proof. reflexivity. Qed.
Lemma bsum_split f a n m : bsum f a (n + m) = bsum f a n + bsum f (a + n) m.
Proof. unfold bsum. now rewrite seq_app, map_app, rsum_app. Qed.
Lemma bsum_S_r f a n : bsum f a (S n) = bsum f a n + f (a + n)%nat.
Proof. rewrite <- Nat.add_1_r, bsum_split. unfold bsum at 2. cbn. ring. Qed.
Lemma bsum_ext f g a n : (forall k, (a <= k < a + n)%nat -> f k = g k) -> bsum f a n = bsum g a n.
Proof. intros H. apply rsum_ext. intros k Hk. apply in_seq in Hk. now apply H. Qed.
Lemma bsum_le f g a n : (forall k, (a <= k < a + n)%nat -> f k <= g k) -> bsum f a n <= bsum g a n.
Proof. intros H. apply rsum_le. intros k Hk. apply in_seq in Hk. now apply H. Qed.
Lemma bsum_nonneg f a n : (forall k, (a <= k < a + n)%nat -> 0 <= f k) -> 0 <= bsum f a n.
Proof.
  intros H. apply rsum_nonneg, Forall_map, Forall_forall. intros k Hk. apply in_seq in Hk. now apply H.
Qed.
Lemma bsum_plus f g a n : bsum (fun k => f k + g k) a n = bsum f a n + bsum g a n.
Proof. apply rsum_plus. Qed.
Lemma bsum_minus f g a n : bsum (fun k => f k - g k) a n = bsum f a n - bsum g a n.
Proof. apply rsum_minus. Qed.
Lemma bsum_scal c f a n : bsum (fun k => c * f k) a n = c * bsum f a n.
Proof. apply rsum_scal. Qed.
Lemma bsum_zero f a n : (forall k, (a <= k < a + n)%nat -> f k = 0) -> bsum f a n = 0.
Proof.
  intros H. rewrite (bsum_ext f (fun _ => 0) a n H). unfold bsum. rewrite rsum_const. ring.
Qed.
Lemma bsum_shift f a b n : bsum f (a + b) n = bsum (fun i => f (a + i)%nat) b n.
Proof.
  revert b. induction n as [|n IH]; intros b; [reflexivity|]. rewrite !bsum_S_l, <- IH. f_equal. f_equal. lia.
Qed.
Lemma bsum_rev f m : bsum f 0 m = bsum (fun i => f (m - 1 - i)%nat) 0 m.
Proof.
  revert f. induction m as [|m IH]; intros f; [reflexivity|].
  rewrite bsum_S_r, bsum_S_l, Rplus_comm. f_equal; [f_equal; lia|].
  rewrite IH. rewrite (bsum_shift _ 1 0).
  apply bsum_ext. intros k Hk. f_equal. lia.
Qed.
Lemma bsum_around f m j : (j <= m)%nat ->
  bsum f (m - j) (2 * j + 1) = f m + bsum (fun i => f (m + i)%nat + f (m - i)%nat) 1 j.
Proof.
  induction j as [|j IH]; intros H.
  - rewrite Nat.sub_0_r. unfold bsum. cbn. ring.
  - rewrite bsum_S_r. replace (2 * S j + 1)%nat with (S (S (2 * j + 1))) by lia.
    rewrite bsum_S_l, bsum_S_r. replace (S (m - S j)) with (m - j)%nat by lia. rewrite IH by lia.
    replace (m - j + (2 * j + 1))%nat with (m + (1 + j))%nat by lia.
    replace (1 + j)%nat with (S j) by lia. ring.
Qed.
Lemma bsum_sum_f f n : sum_f_R0 f n = bsum f 0 (S n).
Proof.
  induction n as [|n IH]; [unfold bsum; cbn; ring|]. rewrite bsum_S_r, <- IH. reflexivity.
Qed.

(** * The binomial distribution *)
Definition bpmf (n : nat) (p : R) (k : nat) : R := C n k * p ^ k * (1 - p) ^ (n - k).
(** P(X >= k) and P(X <= k). *)
Definition bge (n : nat) (p : R) (k : nat) : R := bsum (bpmf n p) k (S n - k).
Definition ble (n : nat) (p : R) (k : nat) : R := bsum (bpmf n p) 0 (S k).

Lemma C_pos n k : 0 < C n k.
Proof.
  unfold C. apply Rdiv_lt_0_compat; [apply INR_fact_lt_0|].
  apply Rmult_lt_0_compat; apply INR_fact_lt_0.
Qed.

Lemma C_step n k : (k < n)%nat -> INR (S k) * C n (S k) = (INR n - INR k) * C n k.
Proof.
  intros H. unfold C. replace (n - k)%nat with (S (n - S k)) by lia.
  rewrite !fact_simpl, !mult_INR.
  replace (INR n - INR k) with (INR (S (n - S k))).
  - field. repeat split; try apply INR_fact_neq_0; apply not_0_INR; lia.
  - rewrite <- minus_INR by lia. f_equal. lia.
Qed.

Lemma bpmf_nonneg n p k : 0 <= p <= 1 -> 0 <= bpmf n p k.
Proof.
  intros H. unfold bpmf. apply Rmult_le_pos; [apply Rmult_le_pos|].
  - left. apply C_pos.
  - apply pow_le. lra.
  - apply pow_le. lra.
Qed.

Lemma bge_0 n p : bge n p 0 = 1.
Proof.
  unfold bge. rewrite Nat.sub_0_r, <- bsum_sum_f.
  pose proof (binomial p (1 - p) n) as H. replace (p + (1 - p)) with 1 in H by ring.
  rewrite pow1 in H. rewrite H. apply sum_eq. intros i Hi. reflexivity.
Qed.
Lemma bge_S n p k : (k <= n)%nat -> bge n p k = bpmf n p k + bge n p (S k).
Proof.
  intros H. unfold bge. replace (S n - k)%nat with (S (S n - S k)) by lia. apply bsum_S_l.
Qed.
Lemma bge_over n p : bge n p (S n) = 0.
Proof. unfold bge. now rewrite Nat.sub_diag. Qed.

Lemma ble_bge n p k : (k <= n)%nat -> ble n p k + bge n p (S k) = 1.
Proof.
  intros H. rewrite <- (bge_0 n p). unfold ble, bge. rewrite Nat.sub_0_r.
  replace (S n) with (S k + (S n - S k))%nat at 2 by lia. now rewrite bsum_split.
Qed.

Lemma C_sym n k : (k <= n)%nat -> C n k = C n (n - k).
Proof. intros H. apply pascal_step1. assumption. Qed.

Lemma bpmf_sym n p k : (k <= n)%nat -> bpmf n (1 - p) (n - k) = bpmf n p k.
Proof.
  intros H. unfold bpmf. rewrite <- C_sym by assumption.
  replace (n - (n - k))%nat with k by lia. replace (1 - (1 - p)) with p by ring. ring.
Qed.

Lemma ble_sym n p k : (k <= n)%nat -> ble n p k = bge n (1 - p) (n - k).
Proof.
  intros H. unfold ble, bge. replace (S n - (n - k))%nat with (S k) by lia.
  rewrite bsum_rev. replace (n - k)%nat with ((n - k) + 0)%nat by lia. rewrite bsum_shift.
  apply bsum_ext. intros i Hi. rewrite <- bpmf_sym by lia. f_equal. lia.
Qed.

Lemma bge_derive n p j : (j < n)%nat ->
  is_derive (fun p => bge n p (n - j)) p (INR (n - j) * C n (n - j) * p ^ (n - j - 1) * (1 - p) ^ j).
Proof.
  induction j as [|j IH]; intros H.
  - rewrite Nat.sub_0_r.
    apply (is_derive_ext (fun p => bpmf n p n)).
    { intros t. rewrite bge_S by lia. rewrite bge_over. as_R. ring. }
    unfold bpmf. rewrite Nat.sub_diag. auto_derive; [trivial|].
    replace (Init.Nat.pred n) with (n - 1)%nat by lia. simpl. ring.
  - apply (is_derive_ext (fun p => bpmf n p (n - S j) + bge n p (n - j))).
    { intros t. rewrite (bge_S n t (n - S j)) by lia. now replace (S (n - S j)) with (n - j)%nat by lia. }
    specialize (IH ltac:(lia)).
    set (k := (n - S j)%nat) in *.
    replace (INR k * C n k * p ^ (k - 1) * (1 - p) ^ S j) with
      (C n k * (INR k * p ^ (k - 1) * (1 - p) ^ S j - p ^ k * (INR (S j) * (1 - p) ^ j))
       + INR (n - j) * C n (n - j) * p ^ (n - j - 1) * (1 - p) ^ j).
    + apply (@is_derive_plus R_AbsRing R_NormedModule); [|exact IH].
      unfold bpmf. replace (n - k)%nat with (S j) by lia.
      auto_derive; [trivial|]. replace (Init.Nat.pred k) with (k - 1)%nat by lia. 
      change (match j with 0%nat => 1 | S _ => INR j + 1 end) with (INR (S j)). cbn [Init.Nat.pred]. cbn [pow]. unfold Rminus. ring.
    + replace (n - j)%nat with (S k) by lia. rewrite C_step by lia.
      replace (S k - 1)%nat with k by lia.
      replace (INR n - INR k) with (INR (S j)); [ring|].
      rewrite <- minus_INR by lia. f_equal. lia.
Qed.

Lemma bge_increasing n k p q : (1 <= k <= n)%nat -> 0 <= p -> p < q -> q <= 1 -> bge n p k < bge n q k.
Proof.
  intros Hk Hp Hpq Hq. replace k with (n - (n - k))%nat by lia.
  apply (incr_of_derive_pos (fun p => bge n p (n - (n - k)))
    (fun p => INR (n - (n - k)) * C n (n - (n - k)) * p ^ (n - (n - k) - 1) * (1 - p) ^ (n - k))); [assumption| |].
  - intros x _. apply bge_derive. lia.
  - intros x Hx. replace (n - (n - k))%nat with k by lia.
    apply Rmult_lt_0_compat; [apply Rmult_lt_0_compat; [apply Rmult_lt_0_compat|]|].
    + apply lt_0_INR. lia.
    + apply C_pos.
    + apply pow_lt. lra.
    + apply pow_lt. lra.
Qed.

Lemma bge_continuity n k : (1 <= k <= n)%nat -> continuity (fun p => bge n p k).
Proof.
  intros H. replace k with (n - (n - k))%nat by lia.
  eapply is_derive_continuity. intros x. apply bge_derive. lia.
Qed.

Lemma bge_at_0 n k : (1 <= k <= n)%nat -> bge n 0 k = 0.
Proof.
  intros H. apply bsum_zero. intros i Hi. unfold bpmf. rewrite pow_i by lia. ring.
Qed.
Lemma bge_at_1 n k : (k <= n)%nat -> bge n 1 k = 1.
Proof.
  intros H. unfold bge. replace (S n - k)%nat with (S (n - k)) by lia. rewrite bsum_S_r.
  rewrite bsum_zero.
  - replace (k + (n - k))%nat with n by lia. unfold bpmf. rewrite Nat.sub_diag, pow1.
    unfold C. rewrite Nat.sub_diag. simpl fact. replace (INR 1) with 1 by reflexivity. field. apply INR_fact_neq_0.
  - intros i Hi. unfold bpmf. replace (1 - 1) with 0 by ring. rewrite (pow_i (n - i)) by lia. ring.
Qed.

(** The quantile: for 1 <= k <= n and 0 < a < 1 there is exactly one p with P(X >= k) = a. *)
Lemma bge_solve n k a : (1 <= k <= n)%nat -> 0 < a < 1 -> exists p, 0 < p < 1 /\ bge n p k = a.
Proof.
  intros Hk Ha. destruct (IVT_gen (fun p => bge n p k) 0 1 a (bge_continuity n k Hk)) as (p & Hp & E).
  - rewrite bge_at_0, bge_at_1 by lia. rewrite Rmin_left, Rmax_right by lra. lra.
  - rewrite Rmin_left, Rmax_right in Hp by lra. exists p. split; [|exact E].
    split.
    + destruct (Req_EM_T p 0) as [->|]; [rewrite bge_at_0 in E by lia; lra|lra].
    + destruct (Req_EM_T p 1) as [->|]; [rewrite bge_at_1 in E by lia; lra|lra].
Qed.

Lemma frac_eq x' x u v : v <> 0 -> v * x' = u * x -> x' = x * (u / v).
Proof. intros Hv H. apply (Rmult_eq_reg_l v); [|assumption]. rewrite H. field. assumption. Qed.

(** ** When the mean is an integer it is a median *)
Section Median.
  Variables (n m : nat).
  Hypothesis Hm : (1 <= m <= n)%nat.
  Let M := (n - m)%nat.
  Let p := INR m / INR n.
  Let b (k : nat) : R := if (k <=? n)%nat then bpmf n p k else 0.

  Local Lemma n_pos : 0 < INR n.
  Proof. apply lt_0_INR. lia. Qed.
  Local Lemma mM : INR m + INR M = INR n.
  Proof. rewrite <- plus_INR. f_equal. unfold M. lia. Qed.
  Local Lemma p_range : 0 <= p <= 1.
  Proof.
    pose proof n_pos. pose proof mM. pose proof (pos_INR m). pose proof (pos_INR M). unfold p. split.
    - apply Rmult_le_pos; [assumption|]. left. now apply Rinv_0_lt_compat.
    - apply Rmult_le_reg_r with (INR n); [assumption|]. unfold Rdiv. rewrite Rmult_assoc, Rinv_l by lra. lra.
  Qed.
  Local Lemma q_eq : 1 - p = INR M / INR n.
  Proof. pose proof n_pos. pose proof mM. unfold p. field_simplify; try lra. f_equal. lra. Qed.

  Local Lemma b_nonneg k : 0 <= b k.
  Proof. unfold b. destruct (k <=? n)%nat; [apply bpmf_nonneg, p_range|lra]. Qed.

  Local Lemma b_step k : INR (S k) * INR M * b (S k) = (INR n - INR k) * INR m * b k.
  Proof.
    unfold b. destruct (Nat.leb_spec (S k) n) as [L|L].
    - destruct (Nat.leb_spec k n) as [L'|L']; [|lia].
      unfold bpmf. replace (n - k)%nat with (S (n - S k)) by lia. cbn [pow].
      pose proof (C_step n k ltac:(lia)) as E. rewrite q_eq. unfold p at 1 2. pose proof n_pos.
      transitivity (INR (S k) * C n (S k) * (INR m * INR M / INR n) * ((INR m / INR n) ^ k * (INR M / INR n) ^ (n - S k))).
      + unfold p. unfold Rdiv. ring.
      + rewrite E. unfold p, Rdiv. ring.
    - destruct (Nat.leb_spec k n) as [L'|L']; [|ring]. replace k with n by lia. ring.
  Qed.

  Local Lemma mean_partial N : INR n * bsum (fun k => (INR k - INR m) * b k) 0 N = - (INR N * INR M * b N).
  Proof.
    induction N as [|N IH]; [unfold bsum; simpl; ring|].
    rewrite bsum_S_r, Rmult_plus_distr_l, IH. cbn [Nat.add]. rewrite b_step.
    pose proof mM. replace (INR M) with (INR n - INR m) by lra. ring.
  Qed.

  (** the case m <= n - m: pairwise domination *)
  Local Lemma dom_step i : (m <= M)%nat -> (S i < m)%nat ->
    b (m - 1 - i) <= b (m + i) -> b (m - 1 - S i) <= b (m + S i).
  Proof.
    intros HmM Hi IH.
    pose proof (b_step (m + i)) as E1. pose proof (b_step (m - 1 - S i)) as E2.
    replace (S (m + i)) with (m + S i)%nat in E1 by lia.
    replace (S (m - 1 - S i)) with (m - 1 - i)%nat in E2 by lia.
    rewrite (plus_INR m (S i)), (plus_INR m i) in E1. rewrite !S_INR in E1.
    rewrite (minus_INR (m - 1) (S i)), (minus_INR (m - 1) i), (minus_INR m 1) in E2 by lia.
    rewrite !S_INR in E2. change (INR 0) with 0 in E2. rewrite ?Rplus_0_l in E2.
    pose proof mM as Esum.
    set (x := b (m - 1 - i)) in *. set (y := b (m + i)) in *.
    set (x' := b (m - 1 - S i)) in *. set (y' := b (m + S i)) in *.
    assert (0 <= x) as Hx by apply b_nonneg. assert (0 <= y) as Hy by apply b_nonneg.
    assert (INR m <= INR M) as HmM' by now apply le_INR.
    assert (1 <= INR m) as Hm1 by (apply (le_INR 1); lia).
    assert (INR i + 2 <= INR m) as Hi'. { replace (INR i + 2) with (INR (S (S i))) by (rewrite !S_INR; ring). apply le_INR. lia. }
    pose proof (pos_INR i) as Hi0.
    replace (INR n - (INR m + INR i)) with (INR M - INR i) in E1 by lra.
    replace (INR n - (INR m - 1 - (INR i + 1))) with (INR M + INR i + 2) in E2 by lra.
    set (a := INR m) in *. set (A := INR M) in *. set (t := INR i) in *.
    clearbody a A t x y x' y'.
    (* x' = x (a-1-t) A / ((A+t+2) a);  y' = y (A-t) a / ((a+t+1) A) *)
    assert (x' = x * ((a - 1 - t) * A / ((A + t + 2) * a))) as Ex.
    { apply (frac_eq x' x ((a - 1 - t) * A) ((A + t + 2) * a)); [|lra]. apply Rmult_integral_contrapositive_currified; lra. }
    assert (y' = y * ((A - t) * a / ((a + (t + 1)) * A))) as Ey.
    { apply (frac_eq y' y ((A - t) * a) ((a + (t + 1)) * A)); [|lra]. apply Rmult_integral_contrapositive_currified; lra. }
    rewrite Ex, Ey. apply Rmult_le_compat; [assumption| |assumption|].
    - apply Rmult_le_pos; [apply Rmult_le_pos; lra|]. left. apply Rinv_0_lt_compat. apply Rmult_lt_0_compat; lra.
    - assert (0 < (A + t + 2) * a) as P1 by (apply Rmult_lt_0_compat; lra).
      assert (0 < (a + (t + 1)) * A) as P2 by (apply Rmult_lt_0_compat; lra).
      apply Rmult_le_reg_r with ((A + t + 2) * a); [assumption|].
      unfold Rdiv at 1. rewrite Rmult_assoc, Rinv_l, Rmult_1_r by lra.
      apply Rmult_le_reg_r with ((a + (t + 1)) * A); [assumption|].
      replace ((A - t) * a / ((a + (t + 1)) * A) * ((A + t + 2) * a) * ((a + (t + 1)) * A))
        with ((A - t) * (A + t + 2) * (a * a)) by (field; lra).
      replace ((a - 1 - t) * A * ((a + (t + 1)) * A)) with ((a * a - (t + 1) * (t + 1)) * (A * A)) by ring.
      replace ((A - t) * (A + t + 2)) with ((A + 1) * (A + 1) - (t + 1) * (t + 1)) by ring.
      assert (0 <= (t + 1) * (t + 1) * (A * A - a * a)).
      { apply Rmult_le_pos; [apply Rle_0_sqr|]. nra. }
      assert (0 <= (2 * A + 1) * (a * a)) by (apply Rmult_le_pos; nra).
      nra.
  Qed.

  Local Lemma dom i : (m <= M)%nat -> (i < m)%nat -> b (m - 1 - i) <= b (m + i).
  Proof.
    intros HmM. induction i as [|i IH]; intros Hi.
    - pose proof (b_step (m - 1)) as E. replace (S (m - 1)) with m in E by lia.
      replace (m - 1 - 0)%nat with (m - 1)%nat by lia. rewrite Nat.add_0_r.
      rewrite minus_INR in E by lia. change (INR 1) with 1 in E. pose proof mM.
      replace (INR n - (INR m - 1)) with (INR M + 1) in E by lra.
      assert (0 <= b (m - 1)) by apply b_nonneg.
      assert (INR m <= INR M) by now apply le_INR. assert (1 <= INR m) by (apply (le_INR 1); lia).
      apply Rmult_le_reg_l with (INR m * INR M); [apply Rmult_lt_0_compat; lra|]. rewrite E. nra.
    - apply dom_step; auto. apply IH. lia.
  Qed.

  (** the case n - m <= m: one change of sign *)
  Local Lemma cross_step i : (M <= m)%nat -> (i < m)%nat -> (i <= M)%nat -> (0 < M)%nat ->
    exists P Q, 0 < Q /\ b (m + S i) = P / Q * b (m + i) /\ 0 <= P /\
    exists P' Q', 0 < Q' /\ b (m - S i) = P' / Q' * b (m - i) /\ 0 <= P' /\
    (INR i * (INR i + 1) * INR n <= INR m * INR M -> P' / Q' <= P / Q) /\
    (INR m * INR M <= INR i * (INR i + 1) * INR n -> P / Q <= P' / Q').
  Proof.
    intros HmM Him HiM HM0.
    pose proof (b_step (m + i)) as E1. pose proof (b_step (m - S i)) as E2.
    replace (S (m + i)) with (m + S i)%nat in E1 by lia.
    replace (S (m - S i)) with (m - i)%nat in E2 by lia.
    rewrite (plus_INR m (S i)), (plus_INR m i) in E1. rewrite !S_INR in E1.
    rewrite (minus_INR m (S i)), (minus_INR m i) in E2 by lia. rewrite !S_INR in E2.
    pose proof mM as Esum.
    assert (INR M <= INR m) as HmM' by now apply le_INR.
    assert (1 <= INR M) as HM1 by (apply (le_INR 1); lia).
    assert (INR i + 1 <= INR m) as Hi'. { rewrite <- S_INR. apply le_INR. lia. }
    assert (INR i <= INR M) as Hi2 by now apply le_INR.
    pose proof (pos_INR i) as Hi0.
    replace (INR n - (INR m + INR i)) with (INR M - INR i) in E1 by lra.
    replace (INR n - (INR m - (INR i + 1))) with (INR M + INR i + 1) in E2 by lra.
    rewrite <- Esum.
    set (a := INR m) in *. set (A := INR M) in *. set (t := INR i) in *.
    exists ((A - t) * a), ((a + (t + 1)) * A). split; [apply Rmult_lt_0_compat; lra|]. split.
    { rewrite Rmult_comm. apply frac_eq; [apply Rmult_integral_contrapositive_currified; lra|lra]. }
    split; [apply Rmult_le_pos; lra|].
    exists ((a - t) * A), ((A + t + 1) * a). split; [apply Rmult_lt_0_compat; lra|]. split.
    { rewrite Rmult_comm. apply frac_eq; [apply Rmult_integral_contrapositive_currified; lra|lra]. }
    split; [apply Rmult_le_pos; lra|].
    clear E1 E2. clearbody a A t.
    assert (0 < (a + (t + 1)) * A) as P1 by (apply Rmult_lt_0_compat; lra).
    assert (0 < (A + t + 1) * a) as P2 by (apply Rmult_lt_0_compat; lra).
    assert (forall u v x y, 0 < v -> 0 < y -> u * y <= x * v -> u / v <= x / y) as Hfr.
    { intros u v x y Hv Hy H. apply Rmult_le_reg_r with v; [assumption|]. unfold Rdiv at 1. rewrite Rmult_assoc, Rinv_l, Rmult_1_r by lra.
      apply Rmult_le_reg_r with y; [assumption|]. replace (x / y * v * y) with (x * v) by (field; lra). assumption. }
    assert (((A - t) * a) * ((A + t + 1) * a) - ((a - t) * A) * ((a + (t + 1)) * A) = (a - A) * (a * A - t * (t + 1) * (a + A))) as Ekey by ring.
    split; intros H; apply Hfr; try assumption.
    - assert (0 <= (a - A) * (a * A - t * (t + 1) * (a + A))) by (apply Rmult_le_pos; lra). lra.
    - assert (0 <= (a - A) * - (a * A - t * (t + 1) * (a + A))) by (apply Rmult_le_pos; lra). lra.
  Qed.

  Local Lemma cross_up i : (M <= m)%nat -> (i < m)%nat -> (0 < M)%nat ->
    INR i * (INR i + 1) * INR n <= INR m * INR M ->
    b (m - i) <= b (m + i) -> b (m - S i) <= b (m + S i).
  Proof.
    intros HmM Him HM0 Hc H.
    assert (i <= M)%nat as HiM.
    { destruct (Nat.le_gt_cases i M) as [L|L]; [assumption|exfalso].
      assert (INR M + 1 <= INR i) by (rewrite <- S_INR; apply le_INR; lia).
      pose proof mM. assert (1 <= INR M) by (apply (le_INR 1); lia).
      assert (INR M <= INR m) by now apply le_INR.
      assert (INR M * INR m < INR i * (INR i + 1) * INR n); [|lra]. nra. }
    destruct (cross_step i HmM Him HiM HM0) as (P & Q & HQ & -> & HP & P' & Q' & HQ' & -> & HP' & K & _).
    apply Rmult_le_compat; [|apply b_nonneg|auto|assumption].
    apply Rmult_le_pos; [assumption|left; now apply Rinv_0_lt_compat].
  Qed.

  Local Lemma cross_down i : (M <= m)%nat -> (i < m)%nat -> (0 < M)%nat ->
    INR m * INR M <= INR i * (INR i + 1) * INR n ->
    b (m + i) <= b (m - i) -> b (m + S i) <= b (m - S i).
  Proof.
    intros HmM Him HM0 Hc H. destruct (Nat.le_gt_cases i M) as [HiM|L].
    - destruct (cross_step i HmM Him HiM HM0) as (P & Q & HQ & -> & HP & P' & Q' & HQ' & -> & HP' & _ & K).
      apply Rmult_le_compat; [|apply b_nonneg|auto|assumption].
      apply Rmult_le_pos; [assumption|left; now apply Rinv_0_lt_compat].
    - unfold b at 1. destruct (Nat.leb_spec (m + S i) n); [unfold M in *; lia|]. apply b_nonneg.
  Qed.

  Local Lemma bge_b : bge n p m = bsum b m (S M).
  Proof.
    unfold bge. replace (S n - m)%nat with (S M) by (unfold M; lia). apply bsum_ext. intros k Hk.
    unfold b. destruct (Nat.leb_spec k n); [reflexivity|unfold M in *; lia].
  Qed.
  Local Lemma blt_b : 1 - bge n p m = bsum b 0 m.
  Proof.
    rewrite <- (bge_0 n p). unfold bge. rewrite Nat.sub_0_r.
    replace (S n) with (m + (S n - m))%nat at 1 by lia. rewrite bsum_split. cbn [Nat.add].
    transitivity (bsum (bpmf n p) 0 m); [ring|]. apply bsum_ext. intros k Hk.
    unfold b. destruct (Nat.leb_spec k n); [reflexivity|lia].
  Qed.

  Local Lemma first_negative (d : nat -> R) N :
    (forall i, (1 <= i <= N)%nat -> 0 <= d i) \/
    (exists T, (1 <= T <= N)%nat /\ d T < 0 /\ forall i, (1 <= i < T)%nat -> 0 <= d i).
  Proof.
    induction N as [|N IH]; [left; intros; lia|]. destruct IH as [IH|(T & HT & H)].
    - destruct (Rlt_or_le (d (S N)) 0) as [L|L].
      + right. exists (S N). split; [lia|]. split; [exact L|]. intros i Hi. apply IH. lia.
      + left. intros i Hi. destruct (Nat.eq_dec i (S N)) as [->|]; [exact L|apply IH; lia].
    - right. exists T. split; [lia|exact H].
  Qed.

  Lemma binomial_median : 1 / 2 <= bge n p m.
  Proof.
    enough (bsum b 0 m <= bge n p m) by (pose proof blt_b; lra).
    rewrite bge_b. destruct (Nat.le_gt_cases m M) as [L|L].
    - rewrite bsum_rev. replace (S M) with (m + (S M - m))%nat by lia. rewrite bsum_split.
      assert (0 <= bsum b (m + m) (S M - m)) by (apply bsum_nonneg; intros; apply b_nonneg).
      assert (bsum (fun i => b (m - 1 - i)%nat) 0 m <= bsum b m m); [|lra].
      assert (bsum b m m = bsum (fun i => b (m + i)%nat) 0 m) as -> by (rewrite <- bsum_shift, Nat.add_0_r; reflexivity). apply bsum_le. intros k Hk. apply dom; lia.
    - set (d := fun i => b (m + i) - b (m - i)).
      assert (bsum (fun i => INR i * d i) 1 m = 0) as Hmean.
      { pose proof (mean_partial (2 * m + 1)) as E. unfold b at 2 in E.
        destruct (Nat.leb_spec (2 * m + 1) n) as [?|_]; [unfold M in *; lia|].
        pose proof (bsum_around (fun k => (INR k - INR m) * b k) m m (le_n m)) as E2.
        rewrite Nat.sub_diag in E2. rewrite E2 in E. pose proof n_pos.
        rewrite (bsum_ext (fun i => INR i * d i) (fun i => (INR (m + i) - INR m) * b (m + i) + (INR (m - i) - INR m) * b (m - i))).
        - apply Rmult_eq_reg_l with (INR n); [|lra]. rewrite Rmult_0_r.
          transitivity (INR n * ((INR m - INR m) * b m + bsum (fun i => (INR (m + i) - INR m) * b (m + i) + (INR (m - i) - INR m) * b (m - i)) 1 m)).
          + ring.
          + rewrite E. ring.
        - intros k Hk. unfold d. rewrite plus_INR, minus_INR by lia. ring. }
      assert (0 <= bsum d 1 m) as Hd.
      { destruct (first_negative d m) as [Hall|(T & HT & HneT & Hpos)].
        - apply bsum_nonneg. intros k Hk. apply Hall. lia.
        - assert (0 < M)%nat as HM0.
          { destruct (Nat.eq_0_gt_0_cases M) as [E0|]; [|assumption]. exfalso.
            (* M = 0: all mass at n = m *)
            assert (b (m - T) = 0) as Eb.
            { unfold b. destruct (Nat.leb_spec (m - T) n); [|reflexivity]. unfold bpmf. rewrite q_eq, E0. simpl INR.
              unfold Rdiv. rewrite Rmult_0_l, (pow_i (n - (m - T))) by lia. ring. }
            unfold d in HneT. rewrite Eb in HneT. pose proof (b_nonneg (m + T)). lra. }
          assert (forall i, (i < T)%nat -> b (m - i) <= b (m + i)) as Hbelow.
          { intros i Hi. destruct i; [rewrite Nat.sub_0_r, Nat.add_0_r; lra|]. specialize (Hpos (S i) ltac:(lia)). unfold d in Hpos. lra. }
          assert (INR m * INR M < INR (T - 1) * (INR (T - 1) + 1) * INR n) as HT2.
          { destruct (Rle_or_lt (INR (T - 1) * (INR (T - 1) + 1) * INR n) (INR m * INR M)) as [Hc|Hc]; [exfalso|exact Hc].
            pose proof (cross_up (T - 1) ltac:(lia) ltac:(lia) HM0 Hc (Hbelow (T - 1)%nat ltac:(lia))) as Hu.
            replace (S (T - 1)) with T in Hu by lia. unfold d in HneT. lra. }
          assert (forall j, (T + j <= m)%nat -> b (m + (T + j)) <= b (m - (T + j))) as Habove.
          { induction j as [|j IH]; intros Hj.
            - rewrite Nat.add_0_r. unfold d in HneT. lra.
            - replace (T + S j)%nat with (S (T + j)) by lia. apply cross_down; try lia; [|apply IH; lia].
              assert (INR (T - 1) <= INR (T + j)) by (apply le_INR; lia). pose proof (pos_INR (T - 1)). pose proof n_pos.
              assert (INR (T - 1) * (INR (T - 1) + 1) <= INR (T + j) * (INR (T + j) + 1)) by nra. nra. }
          assert (0 <= bsum (fun i => (INR T - INR i) * d i) 1 m) as Hs.
          { apply bsum_nonneg. intros k Hk. destruct (Nat.lt_ge_cases k T) as [Hlt|Hge].
            - apply Rmult_le_pos; [|apply Hpos; lia]. assert (INR k <= INR T) by (apply le_INR; lia). lra.
            - pose proof (Habove (k - T)%nat ltac:(lia)) as Ha. replace (T + (k - T))%nat with k in Ha by lia.
              assert (INR T <= INR k) by (apply le_INR; lia). unfold d. nra. }
          rewrite (bsum_ext _ (fun i => INR T * d i - INR i * d i)) in Hs by (intros; ring).
          rewrite bsum_minus, bsum_scal, Hmean in Hs.
          assert (1 <= INR T) by (apply (le_INR 1); lia). nra. }
      rewrite bsum_S_l.
      assert (bsum (fun i => b (m + i)) 1 m = bsum b (S m) M) as E1.
      { transitivity (bsum (fun i => b (m + i)%nat) 1 (M + (m - M))); [f_equal; lia|]. rewrite bsum_split.
        rewrite (bsum_zero _ (1 + M)).
        - rewrite Rplus_0_r. rewrite <- (bsum_shift b m 1). f_equal. lia.
        - intros k Hk. unfold b. destruct (Nat.leb_spec (m + k) n); [unfold M in *; lia|reflexivity]. }
      assert (bsum (fun i => b (m - i)) 1 m = bsum b 0 m) as E2.
      { rewrite bsum_rev. rewrite (bsum_shift _ 1 0). apply bsum_ext.
        intros k Hk. f_equal. lia. }
      unfold d in Hd. rewrite bsum_minus, E1, E2 in Hd. pose proof (b_nonneg m). lra.
  Qed.
End Median.

(** * The Poisson distribution *)
(** P(N < k) for mean m. *)
Definition pois (k : nat) (m : R) : R := exp (- m) * bsum (fun j => m ^ j / INR (fact j)) 0 k.

Lemma pois_S k m : pois (S k) m = pois k m + exp (- m) * (m ^ k / INR (fact k)).
Proof. unfold pois. rewrite bsum_S_r. cbn [Nat.add]. ring. Qed.

Lemma pois_derive k m : is_derive (pois (S k)) m (- (exp (- m) * (m ^ k / INR (fact k)))).
Proof.
  induction k as [|k IH].
  - apply (is_derive_ext (fun m => exp (- m))).
    { intros t. unfold pois, bsum. cbn. as_R. field. }
    auto_derive; [trivial|]. simpl. field.
  - apply (is_derive_ext (fun m => pois (S k) m + exp (- m) * (m ^ S k / INR (fact (S k))))).
    { intros t. now rewrite (pois_S (S k)). }
    replace (- (exp (- m) * (m ^ S k / INR (fact (S k)))))
      with (- (exp (- m) * (m ^ k / INR (fact k))) + (exp (- m) * (m ^ k / INR (fact k)) - exp (- m) * (m ^ S k / INR (fact (S k))))) by ring.
    apply (@is_derive_plus R_AbsRing R_NormedModule); [exact IH|].
    auto_derive; [trivial|]. cbn [Init.Nat.pred]. rewrite fact_simpl, mult_INR.
    assert (INR (S k) <> 0) by (apply not_0_INR; lia). pose proof (INR_fact_neq_0 k).
    change (match k with 0%nat => 1 | S _ => INR k + 1 end) with (INR (S k)).
    change (fact k + k * fact k)%nat with (S k * fact k)%nat. rewrite mult_INR. cbn [pow].
    field. split; assumption.
Qed.

Lemma pois_at_0 k : pois (S k) 0 = 1.
Proof.
  unfold pois. rewrite bsum_S_l, bsum_zero.
  - rewrite Ropp_0, exp_0. simpl. field.
  - intros i Hi. rewrite pow_i by lia. unfold Rdiv. ring.
Qed.

Lemma pois_term_nonneg k m : 0 <= m -> 0 <= exp (- m) * (m ^ k / INR (fact k)).
Proof.
  intros H. apply Rmult_le_pos; [left; apply exp_pos|].
  apply Rmult_le_pos; [now apply pow_le|left; apply Rinv_0_lt_compat, INR_fact_lt_0].
Qed.

Lemma pois_decreasing k m m' : 0 <= m -> m < m' -> pois (S k) m' < pois (S k) m.
Proof.
  intros H0 H.
  assert (- pois (S k) m < - pois (S k) m'); [|lra].
  apply (incr_of_derive_pos (fun m => - pois (S k) m) (fun m => exp (- m) * (m ^ k / INR (fact k)))); [assumption| |].
  - intros x _. replace (exp (- x) * (x ^ k / INR (fact k))) with (- - (exp (- x) * (x ^ k / INR (fact k)))) by ring.
    apply (@is_derive_opp R_AbsRing R_NormedModule (pois (S k))). apply pois_derive.
  - intros x Hx. apply Rmult_lt_0_compat; [apply exp_pos|]. apply Rdiv_lt_0_compat; [apply pow_lt; lra|apply INR_fact_lt_0].
Qed.

Lemma pois_le_1 k m : 0 <= m -> pois k m <= 1.
Proof.
  intros [H| <-].
  - destruct k as [|k]; [unfold pois, bsum; simpl; lra|].
    rewrite <- (pois_at_0 k). left. apply pois_decreasing; lra.
  - destruct k as [|k]; [unfold pois, bsum; simpl; lra|]. rewrite pois_at_0. lra.
Qed.
Lemma pois_nonneg k m : 0 <= m -> 0 <= pois k m.
Proof.
  intros H. induction k as [|k IH]; [unfold pois, bsum; simpl; lra|]. rewrite pois_S.
  pose proof (pois_term_nonneg k m H). lra.
Qed.
Lemma pois_mono k m : 0 <= m -> pois k m <= pois (S k) m.
Proof. intros H. rewrite pois_S. pose proof (pois_term_nonneg k m H). lra. Qed.
Lemma pois_mono_lt k m : 0 < m -> pois k m < pois (S k) m.
Proof.
  intros H. rewrite pois_S. assert (0 < exp (- m) * (m ^ k / INR (fact k))); [|lra].
  apply Rmult_lt_0_compat; [apply exp_pos|]. apply Rdiv_lt_0_compat; [now apply pow_lt|apply INR_fact_lt_0].
Qed.
Lemma pois_mono_le j k m : 0 <= m -> (j <= k)%nat -> pois j m <= pois k m.
Proof.
  intros Hm H. induction H as [|k H IH]; [lra|]. pose proof (pois_mono k m Hm). lra.
Qed.

Lemma pois_term_bound k m : 0 < m -> exp (- m) * (m ^ k / INR (fact k)) <= INR (S k) / m.
Proof.
  intros H. pose proof (pois_le_1 (S (S k)) m ltac:(lra)) as H1. rewrite pois_S in H1.
  pose proof (pois_nonneg (S k) m ltac:(lra)) as H2.
  assert (exp (- m) * (m ^ S k / INR (fact (S k))) <= 1) as H3 by lra.
  rewrite fact_simpl, mult_INR in H3. pose proof (lt_0_INR (S k) ltac:(lia)) as HS. pose proof (INR_fact_lt_0 k) as HF.
  apply Rmult_le_reg_r with (m / INR (S k)); [now apply Rdiv_lt_0_compat|].
  replace (INR (S k) / m * (m / INR (S k))) with 1 by (field; lra).
  replace (exp (- m) * (m ^ k / INR (fact k)) * (m / INR (S k))) with (exp (- m) * (m ^ S k / (INR (S k) * INR (fact k)))); [exact H3|].
  cbn [pow]. field. lra.
Qed.

Lemma pois_small k c : 0 < c -> exists m, 0 < m /\ pois k m < c.
Proof.
  intros Hc. enough (forall m, 0 < m -> pois k m <= INR k * INR k / m) as HB.
  { exists (INR k * INR k / c + 1). pose proof (pos_INR k) as Hk.
    assert (0 <= INR k * INR k / c) as H0. { apply Rmult_le_pos; [nra|]. left. now apply Rinv_0_lt_compat. }
    split; [lra|]. eapply Rle_lt_trans; [apply HB; lra|].
    apply Rmult_lt_reg_r with (INR k * INR k / c + 1); [lra|]. unfold Rdiv at 1. rewrite Rmult_assoc, Rinv_l, Rmult_1_r by lra.
    rewrite Rmult_plus_distr_l. replace (c * (INR k * INR k / c)) with (INR k * INR k) by (field; lra). lra. }
  intros m Hm. induction k as [|k IH]; [unfold pois, bsum; simpl; lra|].
  rewrite pois_S. pose proof (pois_term_bound k m Hm) as H1.
  assert (INR k * INR k / m + INR (S k) / m <= INR (S k) * INR (S k) / m); [|lra].
  unfold Rdiv. rewrite <- Rmult_plus_distr_r. apply Rmult_le_compat_r; [left; now apply Rinv_0_lt_compat|].
  rewrite S_INR. pose proof (pos_INR k). nra.
Qed.

Lemma pois_large m c : 0 <= m -> c < 1 -> exists k, c < pois k m.
Proof.
  intros Hm Hc. unfold exp. pose proof (proj2_sig (exist_exp m)) as Hs.
  assert (exp_in m (exp m)) as He. { exact Hs. }
  unfold exp_in, infinite_sum in He.
  destruct (He ((1 - c) * exp m)) as [N HN]. { apply Rmult_lt_0_compat; [lra|apply exp_pos]. }
  specialize (HN N (le_n N)). exists (S N). rewrite bsum_sum_f in HN.
  rewrite (bsum_ext _ (fun j => m ^ j / INR (fact j))) in HN by (intros; unfold Rdiv; ring).
  unfold pois. fold (exp (- m)). set (s := bsum _ _ _) in *. rewrite exp_Ropp. pose proof (exp_pos m) as Hp.
  unfold R_dist in HN. apply Rabs_def2 in HN as [_ HN].
  apply Rmult_lt_reg_l with (exp m); [assumption|]. rewrite <- Rmult_assoc, Rinv_r, Rmult_1_l by lra. lra.
Qed.

Lemma pois_continuity k : continuity (pois (S k)).
Proof. eapply is_derive_continuity. intros x. apply pois_derive. Qed.

Lemma pois_solve k c : 0 < c < 1 -> exists m, 0 < m /\ pois (S k) m = c.
Proof.
  intros Hc. destruct (pois_small (S k) c ltac:(lra)) as (b & Hb & Hlt).
  destruct (IVT_gen (pois (S k)) 0 b c (pois_continuity k)) as (m & Hm & E).
  - rewrite pois_at_0, Rmin_right, Rmax_left by lra. lra.
  - rewrite Rmin_left in Hm by lra. exists m. split; [|exact E].
    destruct (Req_EM_T m 0) as [->|]; [rewrite pois_at_0 in E; lra|lra].
Qed.
