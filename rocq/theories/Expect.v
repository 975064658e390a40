(** Rules for improper integrals: linearity, antiderivatives, substitution, suprema. *)
From Coquelicot Require Import Coquelicot.
From Coq Require Import List Arith Reals Lra Lia.
From Verif Require Import RealFacts Improper ExpectSpec.
Import ListNotations.
Open Scope R_scope.

Section Interval.
  Variables lo hi : Rbar.
  Notation inn := (between lo hi).

  Lemma between_mid u v x : inn u -> inn v -> u <= x <= v -> inn x.
  Proof.
    intros [U1 U2] [V1 V2] Hx. split.
    - apply Rbar_lt_le_trans with u; [exact U1|exact (proj1 Hx)].
    - apply Rbar_le_lt_trans with v; [exact (proj2 Hx)|exact V2].
  Qed.
  Lemma between_min u v : inn u -> inn v -> inn (Rmin u v).
  Proof. intros U V. unfold Rmin. destruct (Rle_dec u v); assumption. Qed.
  Lemma between_max u v : inn u -> inn v -> inn (Rmax u v).
  Proof. intros U V. unfold Rmax. destruct (Rle_dec u v); assumption. Qed.

  Lemma io_unique h v w : integral_over h lo hi v -> integral_over h lo hi w -> v = w.
  Proof.
    intros H K. apply Rle_antisym; apply Rnot_lt_le; intros L.
    - set (e := (v - w) / 2). assert (0 < e) as He by (unfold e; lra).
      destruct (H e He) as (a & b & Ia & Ib & _ & F). destruct (K e He) as (a' & b' & Ia' & Ib' & _ & F').
      destruct (F (Rmin a a') (Rmax b b')) as (I1 & R1 & E1); [now apply between_min|now apply between_max|apply Rmin_l|apply Rmax_l|].
      destruct (F' (Rmin a a') (Rmax b b')) as (I2 & R2 & E2); [now apply between_min|now apply between_max|apply Rmin_r|apply Rmax_r|].
      assert (I1 = I2) by (rewrite <- (is_RInt_unique _ _ _ _ R1); now apply is_RInt_unique). subst I2.
      apply Rabs_def2 in E1, E2. unfold e in *. lra.
    - set (e := (w - v) / 2). assert (0 < e) as He by (unfold e; lra).
      destruct (H e He) as (a & b & Ia & Ib & _ & F). destruct (K e He) as (a' & b' & Ia' & Ib' & _ & F').
      destruct (F (Rmin a a') (Rmax b b')) as (I1 & R1 & E1); [now apply between_min|now apply between_max|apply Rmin_l|apply Rmax_l|].
      destruct (F' (Rmin a a') (Rmax b b')) as (I2 & R2 & E2); [now apply between_min|now apply between_max|apply Rmin_r|apply Rmax_r|].
      assert (I1 = I2) by (rewrite <- (is_RInt_unique _ _ _ _ R1); now apply is_RInt_unique). subst I2.
      apply Rabs_def2 in E1, E2. unfold e in *. lra.
  Qed.

  Lemma io_ext h k v : (forall x, inn x -> h x = k x) -> integral_over h lo hi v -> integral_over k lo hi v.
  Proof.
    intros E H eps He. destruct (H eps He) as (a0 & b0 & Ia & Ib & L & F). exists a0, b0. repeat (split; [assumption|]).
    intros a b Ha Hb La Lb. destruct (F a b Ha Hb La Lb) as (I & R & D). exists I. split; [|assumption].
    apply (is_RInt_ext h); [|assumption]. intros x Hx. apply E. rewrite Rmin_left, Rmax_right in Hx by lra. apply (between_mid a b); [assumption|assumption|lra].
  Qed.

  Lemma io_plus h k v w : integral_over h lo hi v -> integral_over k lo hi w -> integral_over (fun x => h x + k x) lo hi (v + w).
  Proof.
    intros H K eps He. destruct (H (eps / 2) ltac:(lra)) as (a & b & Ia & Ib & L & F). destruct (K (eps / 2) ltac:(lra)) as (a' & b' & Ia' & Ib' & L' & F').
    exists (Rmin a a'), (Rmax b b'). split; [now apply between_min|]. split; [now apply between_max|].
    pose proof (Rmin_l a a'). pose proof (Rmin_r a a'). pose proof (Rmax_l b b'). pose proof (Rmax_r b b'). split; [lra|].
    intros u z Hu Hz Lu Lz. destruct (F u z) as (I1 & R1 & E1); try assumption; try lra. destruct (F' u z) as (I2 & R2 & E2); try assumption; try lra.
    exists (I1 + I2). split; [exact (is_RInt_plus h k u z I1 I2 R1 R2)|]. apply Rabs_def2 in E1, E2. apply Rabs_def1; lra.
  Qed.
  Lemma io_scal c h v : integral_over h lo hi v -> integral_over (fun x => c * h x) lo hi (c * v).
  Proof.
    intros H eps He. destruct (H (eps / (Rabs c + 1))) as (a & b & Ia & Ib & L & F).
    { apply Rdiv_lt_0_compat; [assumption|]. pose proof (Rabs_pos c). lra. }
    exists a, b. repeat (split; [assumption|]). intros u z Hu Hz Lu Lz. destruct (F u z Hu Hz Lu Lz) as (I & R & E).
    exists (c * I). split; [exact (is_RInt_scal h u z c I R)|]. replace (c * I - c * v) with (c * (I - v)) by ring. rewrite Rabs_mult.
    pose proof (Rabs_pos c) as P. pose proof (Rabs_pos (I - v)). assert (Rabs c * Rabs (I - v) <= Rabs c * (eps / (Rabs c + 1))) by (apply Rmult_le_compat_l; lra).
    assert (Rabs c * (eps / (Rabs c + 1)) < eps); [|lra]. apply (Rmult_lt_reg_r (Rabs c + 1)); [lra|]. field_simplify; [|lra]. nra.
  Qed.
  Lemma io_0 : (exists x, inn x) -> integral_over (fun _ => 0) lo hi 0.
  Proof.
    intros (x & Hx) eps He. exists x, x. repeat (split; [assumption|]). split; [lra|]. intros a b _ _ _ _. exists 0. split.
    - pose proof (is_RInt_const (V := R_NormedModule) a b 0) as K. unfold scal in K; simpl in K. unfold mult in K; simpl in K. now rewrite Rmult_0_r in K.
    - rewrite Rminus_0_r, Rabs_R0. assumption.
  Qed.
  Lemma io_inhabited h v : integral_over h lo hi v -> exists x, inn x.
  Proof. intros H. destruct (H 1 ltac:(lra)) as (a & b & Ia & _). eauto. Qed.

  (** Antiderivatives. *)
  Lemma io_antider h H A B : (forall x, inn x -> is_derive H x (h x)) -> (forall x, inn x -> continuous h x) ->
    limit_lo H lo hi A -> limit_hi H lo hi B -> integral_over h lo hi (B - A).
  Proof.
    intros D C LA LB eps He. destruct (LA (eps / 2) ltac:(lra)) as (a0 & Ia & FA). destruct (LB (eps / 2) ltac:(lra)) as (b0 & Ib & FB).
    exists (Rmin a0 b0), (Rmax a0 b0). split; [now apply between_min|]. split; [now apply between_max|].
    pose proof (Rmin_l a0 b0). pose proof (Rmin_r a0 b0). pose proof (Rmax_l a0 b0). pose proof (Rmax_r a0 b0). split; [lra|].
    intros a b Ha Hb La Lb. exists (H b - H a). split.
    - apply (is_RInt_derive H h); rewrite Rmin_left, Rmax_right by lra; intros x Hx.
      + apply D. now apply (between_mid a b).
      + apply C. now apply (between_mid a b).
    - specialize (FA a Ha ltac:(lra)). specialize (FB b Hb ltac:(lra)). apply Rabs_def2 in FA, FB. apply Rabs_def1; lra.
  Qed.

  (** Non-negative integrands: the supremum is the integral. *)
  Lemma io_of_sup h v : (exists x, inn x) -> (forall x, inn x -> 0 <= h x) -> (forall x, inn x -> continuous h x) ->
    (forall a b, inn a -> inn b -> a <= b -> RInt h a b <= v) ->
    (forall c, (forall a b, inn a -> inn b -> a <= b -> RInt h a b <= c) -> v <= c) -> integral_over h lo hi v.
  Proof.
    intros (x0 & X0) P C U S eps He.
    assert (forall a b, inn a -> inn b -> a <= b -> ex_RInt h a b) as EX.
    { intros a b Ha Hb L. apply (ex_RInt_continuous (V := R_CompleteNormedModule)). rewrite Rmin_left, Rmax_right by lra. intros z Hz. apply C. now apply (between_mid a b). }
    assert (exists a b, inn a /\ inn b /\ a <= b /\ v - eps < RInt h a b) as (a0 & b0 & Ia & Ib & L & G).
    { destruct (Classical_Prop.classic (exists a b, inn a /\ inn b /\ a <= b /\ v - eps < RInt h a b)) as [K|K]; [exact K|exfalso].
      assert (v <= v - eps); [|lra]. apply S. intros a b Ha Hb Lab. apply Rnot_lt_le. intros M. apply K. exists a, b. auto. }
    exists a0, b0. repeat (split; [assumption|]). intros a b Ha Hb La Lb. exists (RInt h a b).
    split; [apply (@RInt_correct R_CompleteNormedModule), EX; try assumption; lra|].
    assert (RInt h a b = RInt h a a0 + RInt h a0 b0 + RInt h b0 b) as E.
    { rewrite <- (RInt_Chasles h a b0 b) by (apply EX; try assumption; lra). rewrite <- (RInt_Chasles h a a0 b0) by (apply EX; try assumption; lra). reflexivity. }
    assert (forall u z, inn u -> inn z -> u <= z -> 0 <= RInt h u z) as NN.
    { intros u z Hu Hz Luz. apply RInt_ge_0; [assumption|now apply EX|]. intros x Hx. apply P, (between_mid u z); [assumption|assumption|lra]. }
    pose proof (NN a a0 Ha Ia La). pose proof (NN b0 b Ib Hb Lb). pose proof (U a b Ha Hb ltac:(lra)). apply Rabs_def1; lra.
  Qed.
  Lemma io_nonneg_bound h v : (forall x, inn x -> 0 <= h x) -> (forall x, inn x -> continuous h x) -> integral_over h lo hi v ->
    forall a b, inn a -> inn b -> a <= b -> RInt h a b <= v.
  Proof.
    intros P C H a b Ha Hb L. apply Rnot_lt_le. intros G. set (e := RInt h a b - v). destruct (H e ltac:(unfold e; lra)) as (a0 & b0 & Ia & Ib & L0 & F).
    assert (forall a b, inn a -> inn b -> a <= b -> ex_RInt h a b) as EX.
    { intros u z Hu Hz Lz. apply (ex_RInt_continuous (V := R_CompleteNormedModule)). rewrite Rmin_left, Rmax_right by lra. intros y Hy. apply C. now apply (between_mid u z). }
    assert (forall u z, inn u -> inn z -> u <= z -> 0 <= RInt h u z) as NN.
    { intros u z Hu Hz Luz. apply RInt_ge_0; [assumption|now apply EX|]. intros x Hx. apply P, (between_mid u z); [assumption|assumption|lra]. }
    pose proof (Rmin_l a a0). pose proof (Rmin_r a a0). pose proof (Rmax_l b b0). pose proof (Rmax_r b b0).
    assert (inn (Rmin a a0)) as I1 by now apply between_min. assert (inn (Rmax b b0)) as I2 by now apply between_max.
    destruct (F (Rmin a a0) (Rmax b b0)) as (I & RI & E); try assumption. pose proof (is_RInt_unique _ _ _ _ RI) as RU.
    assert (RInt h (Rmin a a0) (Rmax b b0) = RInt h (Rmin a a0) a + RInt h a b + RInt h b (Rmax b b0)) as Q.
    { rewrite <- (RInt_Chasles h (Rmin a a0) b (Rmax b b0)) by (apply EX; try assumption; lra).
      rewrite <- (RInt_Chasles h (Rmin a a0) a b) by (apply EX; try assumption; lra). reflexivity. }
    pose proof (NN _ _ I1 Ha H0). pose proof (NN _ _ Hb I2 H2). apply Rabs_def2 in E. unfold e in E. lra.
  Qed.
End Interval.

(** Substitution by an increasing bijection. *)
Section Subst.
  Variables lo hi lo' hi' : Rbar.
  Variables (p dp q : R -> R).
  Hypothesis Hp : forall x, between lo hi x -> between lo' hi' (p x).
  Hypothesis Hq : forall y, between lo' hi' y -> between lo hi (q y) /\ p (q y) = y.
  Hypothesis Hmono : forall x y, between lo hi x -> between lo hi y -> x <= y -> p x <= p y.
  Hypothesis Hd : forall x, between lo hi x -> is_derive p x (dp x).
  Hypothesis Hc : forall x, between lo hi x -> continuous dp x.

  Lemma io_subst g v : (forall y, between lo' hi' y -> continuous g y) -> integral_over g lo' hi' v -> integral_over (fun x => dp x * g (p x)) lo hi v.
  Proof.
    intros Cg H eps He. destruct (H eps He) as (a0 & b0 & Ia & Ib & L & F). destruct (Hq a0 Ia) as [Qa Ea], (Hq b0 Ib) as [Qb Eb].
    exists (Rmin (q a0) (q b0)), (Rmax (q a0) (q b0)). split; [now apply between_min|]. split; [now apply between_max|].
    pose proof (Rmin_l (q a0) (q b0)). pose proof (Rmin_r (q a0) (q b0)). pose proof (Rmax_l (q a0) (q b0)). pose proof (Rmax_r (q a0) (q b0)). split; [lra|].
    intros a b Ha Hb La Lb.
    assert (p a <= a0) by (rewrite <- Ea; apply Hmono; try assumption; lra). assert (b0 <= p b) by (rewrite <- Eb; apply Hmono; try assumption; lra).
    destruct (F (p a) (p b)) as (I & R & E); try assumption; try (now apply Hp).
    exists I. split; [|assumption].
    assert (is_RInt (fun x => scal (dp x) (g (p x))) a b (RInt g (p a) (p b))) as K.
    { apply (is_RInt_comp (V := R_CompleteNormedModule) g p dp a b); rewrite Rmin_left, Rmax_right by lra; intros x Hx.
      - apply Cg, Hp. now apply (between_mid lo hi a b).
      - split; [apply Hd|apply Hc]; now apply (between_mid lo hi a b). }
    rewrite (is_RInt_unique _ _ _ _ R) in K. exact K.
  Qed.
End Subst.

(** Location and scale. *)
Definition image (L S : R) (e : Rbar) : Rbar := match e with Finite x => Finite (L + S * x) | p_infty => p_infty | m_infty => m_infty end.
Lemma image_between L S lo hi x : 0 < S -> between (image L S lo) (image L S hi) x <-> between lo hi ((x - L) / S).
Proof.
  intros HS. assert (forall u, u < (x - L) / S <-> L + S * u < x) as A.
  { intros u. split; intros H.
    - apply (Rmult_lt_compat_l S) in H; [|assumption]. replace (S * ((x - L) / S)) with (x - L) in H by (field; lra). lra.
    - apply (Rmult_lt_reg_l S); [assumption|]. replace (S * ((x - L) / S)) with (x - L) by (field; lra). lra. }
  assert (forall u, (x - L) / S < u <-> x < L + S * u) as B.
  { intros u. split; intros H.
    - apply (Rmult_lt_compat_l S) in H; [|assumption]. replace (S * ((x - L) / S)) with (x - L) in H by (field; lra). lra.
    - apply (Rmult_lt_reg_l S); [assumption|]. replace (S * ((x - L) / S)) with (x - L) by (field; lra). lra. }
  unfold between. destruct lo, hi; simpl; rewrite ?A, ?B; tauto.
Qed.
Lemma io_affine L S lo hi g v : 0 < S -> integral_over g lo hi v -> integral_over (fun x => g ((x - L) / S) / S) (image L S lo) (image L S hi) v.
Proof.
  intros HS H eps He. destruct (H eps He) as (a0 & b0 & Ia & Ib & Lab & F).
  assert (forall y, (L + S * y - L) / S = y) as E by (intros; field; lra).
  exists (L + S * a0), (L + S * b0). split; [apply image_between; [assumption|now rewrite E]|]. split; [apply image_between; [assumption|now rewrite E]|].
  split; [apply Rplus_le_compat_l, Rmult_le_compat_l; lra|]. intros a b Ha Hb La Lb. apply image_between in Ha, Hb; try assumption.
  assert (forall x y, x <= L + S * y -> (x - L) / S <= y) as A1.
  { intros x y Hxy. apply (Rmult_le_reg_l S); [assumption|]. replace (S * ((x - L) / S)) with (x - L) by (field; lra). lra. }
  assert (forall x y, L + S * y <= x -> y <= (x - L) / S) as A2.
  { intros x y Hxy. apply (Rmult_le_reg_l S); [assumption|]. replace (S * ((x - L) / S)) with (x - L) by (field; lra). lra. }
  destruct (F _ _ Ha Hb (A1 _ _ La) (A2 _ _ Lb)) as (I & RI & D). exists I. split; [|assumption].
  pose proof (is_RInt_comp_lin (V := R_NormedModule) g (/ S) (- L / S) a b I) as K.
  replace (/ S * a + - L / S) with ((a - L) / S) in K by (field; lra). replace (/ S * b + - L / S) with ((b - L) / S) in K by (field; lra).
  specialize (K RI). revert K. apply is_RInt_ext. intros x _. unfold scal; simpl. unfold mult; simpl.
  replace (/ S * x + - L / S) with ((x - L) / S) by (field; lra). as_R. field. lra.
Qed.

(** Polynomials against a density. *)
Fixpoint peval (ks : list R) (y : R) : R := match ks with [] => 0 | k :: ks => k + y * peval ks y end.
Fixpoint pdot (ks : list R) (M : nat -> R) : R := match ks with [] => 0 | k :: ks => k * M 0%nat + pdot ks (fun i => M (S i)) end.
Lemma io_poly lo hi : forall ks h M, (exists x, between lo hi x) -> (forall i, (i < length ks)%nat -> integral_over (fun y => y ^ i * h y) lo hi (M i)) ->
  integral_over (fun y => peval ks y * h y) lo hi (pdot ks M).
Proof.
  induction ks as [|k ks IH]; intros h M X H.
  - apply (io_ext _ _ (fun _ => 0)); [intros; simpl; ring|]. now apply io_0.
  - cbn [peval pdot]. apply (io_ext _ _ (fun y => k * (y ^ 0 * h y) + peval ks y * (y * h y))); [intros; simpl; ring|].
    apply io_plus; [apply io_scal, (H 0%nat); simpl; lia|]. apply (IH (fun y => y * h y) (fun i => M (S i))); [assumption|].
    intros i Hi. apply (io_ext _ _ (fun y => y ^ S i * h y)); [intros; simpl; ring|]. apply H. simpl. lia.
Qed.
