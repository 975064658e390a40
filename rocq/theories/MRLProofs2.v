(** Consequences for the mean residual life: existence, new units, ageing, special families. *)
From Coquelicot Require Import Coquelicot.
From Coq Require Import List Arith Reals Lra Lia.
From Verif Require Import Base RealFacts Gauss Improper Ext DistModel DistSpec DistIntegrals DistProofs PoFProofs2 DistProofs2 FitProofs2 DistProofs4 DistProofs5 ExpectSpec Expect MomentModel MomentSpec MomentProofs MomentProofs2 MomentProofs3 MomentProofs4 GumbelMean MRLProofs.
Import ListNotations.
Open Scope R_scope.

Lemma io_restrict h lo hi (v t : R) : between lo hi t -> (forall x, between lo hi x -> continuous h x) -> (forall x, t < x -> Rbar_lt x hi -> 0 < h x) ->
  integral_over h lo hi v -> exists w, integral_over h t hi w.
Proof.
  intros Bt C P K. destruct (K 1 ltac:(lra)) as (a0 & b0 & Ia & Ib & L & F). set (a := Rmin a0 t). assert (between lo hi a) as Ba by now apply between_min.
  pose proof (Rmin_l a0 t) as M1. pose proof (Rmin_r a0 t) as M2. fold a in M1, M2.
  assert (forall u w, between lo hi u -> between lo hi w -> u <= w -> ex_RInt h u w) as EX.
  { intros u w Hu Hw Luw. apply (ex_RInt_continuous (V := R_CompleteNormedModule)). rewrite Rmin_left, Rmax_right by lra. intros z Hz. apply C. now apply (between_mid lo hi u w). }
  assert (forall u w, t <= u -> u <= w -> Rbar_lt w hi -> between lo hi u /\ between lo hi w) as BB.
  { intros u w U1 U2 U3. assert (between lo hi w) as Bw by (split; [apply Rbar_lt_le_trans with t; [apply Bt|simpl; lra]|exact U3]). split; [|exact Bw]. apply (between_mid lo hi t w); [exact Bt|exact Bw|lra]. }
  assert (forall u w, t <= u -> u <= w -> Rbar_lt w hi -> 0 <= RInt h u w) as NN.
  { intros u w U1 U2 U3. destruct (BB u w U1 U2 U3) as [Bu Bw]. apply RInt_ge_0; [assumption|now apply EX|]. intros x Hx. left. apply P; [lra|]. apply Rbar_le_lt_trans with w; [simpl; lra|exact U3]. }
  assert (forall x y z, between lo hi x -> between lo hi y -> between lo hi z -> x <= y -> y <= z -> RInt h x z = RInt h x y + RInt h y z) as CH.
  { intros x y z Bx By Bz L1 L2. symmetry. apply (RInt_Chasles h x y z); apply EX; assumption. }
  exists (int_over h t hi). apply (io_of_int_over h t hi (v + 1 - RInt h a t)); [exact P| | |exact (proj2 Bt)].
  - intros x X1 X2. apply C. apply (BB x x); [lra|lra|assumption].
  - intros u w U1 U2 U3. destruct (BB u w ltac:(lra) U2 U3) as [Bu Bw].
    set (w' := Rmax w b0). assert (between lo hi w') as Bw' by now apply between_max. pose proof (Rmax_l w b0) as M3. pose proof (Rmax_r w b0) as M4. fold w' in M3, M4.
    destruct (F a w' Ba Bw' M1 M4) as (J & RJ & D). pose proof (is_RInt_unique _ _ _ _ RJ) as EJ. apply Rabs_def2 in D.
    rewrite (CH a t w'), (CH t u w'), (CH u w w') in EJ by (assumption || lra).
    pose proof (NN t u ltac:(lra) ltac:(lra) (proj2 Bu)). pose proof (NN w w' ltac:(lra) M3 (proj2 Bw')). lra.
Qed.

Lemma total_mass d : valid d -> integral_over (density d) (supp_lo d) (supp_hi d) 1.
Proof.
  intros V. replace 1 with (1 - 0) by ring. apply (io_antider _ _ _ (cdf d)).
  - intros x Hx. apply (pdf_real_spec d V x Hx).
  - intros x Hx. now apply density_facts.
  - intros eps He. destruct (cdf_close d eps V He) as (a & _ & Ha & _ & _ & La & _). exists a. split; [exact Ha|]. intros x _ Lx. pose proof (cdf_incr d V x a Lx). pose proof (cdf_range d V x). apply Rabs_def1; lra.
  - intros eps He. destruct (cdf_close d eps V He) as (_ & b & _ & Hb & _ & _ & Lb). exists b. split; [exact Hb|]. intros x _ Lx. pose proof (cdf_incr d V b x Lx). pose proof (cdf_range d V x). apply Rabs_def1; lra.
Qed.
Lemma shifted_mean d m t : valid d -> expectation d (fun x => x) m -> integral_over (fun x => (x - t) * density d x) (supp_lo d) (supp_hi d) (m - t).
Proof.
  intros V E. apply (io_ext _ _ (fun x => x * density d x + - t * density d x)); [intros; ring|]. replace (m - t) with (m + - t * 1) by ring.
  apply io_plus; [exact E|]. apply io_scal. now apply total_mass.
Qed.
Lemma remaining_exists d (m t : R) : valid d -> Rbar_lt t (supp_hi d) -> expectation d (fun x => x) m -> exists v, remaining d t v.
Proof.
  intros V Ht E. pose proof (shifted_mean d m t V E) as K. unfold remaining, from_time. destruct Rbar_lt_dec as [A|A]; [|eauto].
  apply (io_restrict _ (supp_lo d) _ (m - t)); [now split| | |exact K].
  - intros x Hx. apply (continuous_mult (fun x => x - t) (density d)); [|now apply density_facts]. apply (ex_derive_continuous (fun x => x - t)). auto_derive. exact I.
  - intros x X1 X2. assert (inside d x) as Hi by (split; [apply Rbar_lt_trans with t; assumption|assumption]). destruct (density_facts d x V Hi). apply Rmult_lt_0_compat; lra.
Qed.
Lemma remaining_new d (m t : R) : valid d -> Rbar_le t (supp_lo d) -> expectation d (fun x => x) m -> remaining d t (m - t).
Proof.
  intros V L E. unfold remaining, from_time. destruct Rbar_lt_dec as [A|A]; [exfalso; exact (Rbar_lt_not_le _ _ A L)|]. now apply shifted_mean.
Qed.
Lemma remaining_pos d (t v : R) : valid d -> Rbar_lt t (supp_hi d) -> remaining d t v -> 0 < v.
Proof.
  intros V Ht K. apply (io_positive _ _ _ _ t) with (5 := K).
  - intros x Hx _. destruct (from_inside d t x Hx) as [Hi L]. destruct (density_facts d x V Hi). apply Rmult_lt_0_compat; lra.
  - intros x Hx. destruct (from_inside d t x Hx) as [Hi L]. destruct (density_facts d x V Hi). apply Rmult_le_pos; lra.
  - intros x Hx. destruct (from_inside d t x Hx) as [Hi L]. apply (continuous_mult (fun x => x - t) (density d)); [|now apply density_facts]. apply (ex_derive_continuous (fun x => x - t)). auto_derive. exact I.
  - destruct (K 1 ltac:(lra)) as (a & b & Ia & Ib & Lab & _). destruct (a_next_point (supp_hi d) b (proj2 Ib)) as (y & Y1 & Y2).
    exists b, y. split; [exact Ib|]. split; [split; [apply Rbar_lt_trans with b; [apply Ib|exact Y1]|exact Y2]|exact Y1].
Qed.

Lemma mrl_right quad d (t v : R) : quad_right quad -> valid d -> Rbar_lt t (supp_hi d) -> remaining d t v -> mean_residual_life quad d t = v / sf d t.
Proof. intros Q V Ht K. unfold mean_residual_life. f_equal. apply (Q (sf d) t v). now apply remaining_integral. Qed.

(** Ageing: the expected age at failure grows. *)
Lemma H_shift d t1 t2 x : valid d -> H d t1 x = H d t1 t2 + H d t2 x.
Proof. intros V. unfold H. symmetry. exact (RInt_Chasles (sf d) t1 t2 x (sf_ex d V t1 t2) (sf_ex d V t2 x)). Qed.
Lemma limit_hi_unique f (t1 t2 : R) v w c : limit_hi f t1 p_infty v -> limit_hi (fun x => f x - c) t2 p_infty w -> v = c + w.
Proof.
  intros A B. apply Rle_antisym; apply Rnot_lt_le; intros L.
  - set (e := (v - (c + w)) / 2). destruct (A e ltac:(unfold e; lra)) as (a & _ & FA), (B e ltac:(unfold e; lra)) as (b & _ & FB).
    set (x := Rmax (Rmax a b) (Rmax t1 t2 + 1)). pose proof (Rmax_l (Rmax a b) (Rmax t1 t2 + 1)). pose proof (Rmax_r (Rmax a b) (Rmax t1 t2 + 1)). fold x in H, H0.
    pose proof (Rmax_l a b). pose proof (Rmax_r a b). pose proof (Rmax_l t1 t2). pose proof (Rmax_r t1 t2).
    specialize (FA x ltac:(unfold between; simpl; split; [lra|exact I]) ltac:(lra)). specialize (FB x ltac:(unfold between; simpl; split; [lra|exact I]) ltac:(lra)).
    apply Rabs_def2 in FA, FB. unfold e in *. lra.
  - set (e := (c + w - v) / 2). destruct (A e ltac:(unfold e; lra)) as (a & _ & FA), (B e ltac:(unfold e; lra)) as (b & _ & FB).
    set (x := Rmax (Rmax a b) (Rmax t1 t2 + 1)). pose proof (Rmax_l (Rmax a b) (Rmax t1 t2 + 1)). pose proof (Rmax_r (Rmax a b) (Rmax t1 t2 + 1)). fold x in H, H0.
    pose proof (Rmax_l a b). pose proof (Rmax_r a b). pose proof (Rmax_l t1 t2). pose proof (Rmax_r t1 t2).
    specialize (FA x ltac:(unfold between; simpl; split; [lra|exact I]) ltac:(lra)). specialize (FB x ltac:(unfold between; simpl; split; [lra|exact I]) ltac:(lra)).
    apply Rabs_def2 in FA, FB. unfold e in *. lra.
Qed.
Lemma tail_split d (t1 t2 v1 v2 : R) : valid d -> integral_over (sf d) t1 p_infty v1 -> integral_over (sf d) t2 p_infty v2 -> v1 = H d t1 t2 + v2.
Proof.
  intros V K1 K2. apply (H_of_io d V) in K1, K2. apply (limit_hi_unique (H d t1) t1 t2); [assumption|].
  revert K2. apply limit_hi_ext; [|reflexivity]. intros x. rewrite (H_shift d t1 t2 x V). ring.
Qed.
Lemma H_le d t1 t2 : valid d -> t1 <= t2 -> H d t1 t2 <= sf d t1 * (t2 - t1).
Proof.
  intros V L. unfold H. pose proof (RInt_const (V := R_CompleteNormedModule) t1 t2 (sf d t1)) as E. unfold scal in E; simpl in E. unfold mult in E; simpl in E.
  rewrite (Rmult_comm (sf d t1)), <- E. apply RInt_le; [assumption|now apply sf_ex|apply ex_RInt_const|]. intros x Hx. apply sf_decr; [assumption|lra].
Qed.
Lemma ageing d (t1 t2 v1 v2 : R) : valid d -> t1 <= t2 -> Rbar_lt t2 (supp_hi d) -> 0 < v2 -> integral_over (sf d) t1 p_infty v1 -> integral_over (sf d) t2 p_infty v2 ->
  t1 + v1 / sf d t1 <= t2 + v2 / sf d t2.
Proof.
  intros V L Ht P K1 K2. rewrite (tail_split d t1 t2 v1 v2 V K1 K2). pose proof (H_le d t1 t2 V L) as B. pose proof (sf_decr d V t1 t2 L) as M.
  pose proof (sf_pos d V t2 Ht) as S2. assert (0 < sf d t1) as S1 by lra.
  assert (H d t1 t2 / sf d t1 <= t2 - t1) as HB.
  { apply (Rmult_le_reg_r (sf d t1)); [assumption|]. replace (H d t1 t2 / sf d t1 * sf d t1) with (H d t1 t2) by (field; lra). lra. }
  assert (v2 / sf d t1 <= v2 / sf d t2) as HC by (apply Rmult_le_compat_l; [lra|]; now apply Rinv_le_contravar).
  replace ((H d t1 t2 + v2) / sf d t1) with (H d t1 t2 / sf d t1 + v2 / sf d t1) by (field; lra). lra.
Qed.

(** Comparison of two ages. *)
Lemma compare_ages d (t1 t2 v1 v2 : R) : valid d -> Rbar_lt t1 (supp_hi d) -> Rbar_lt t2 (supp_hi d) -> integral_over (sf d) t1 p_infty v1 -> integral_over (sf d) t2 p_infty v2 ->
  (forall x, 0 < x -> sf d t1 * sf d (t2 + x) <= sf d t2 * sf d (t1 + x)) -> v2 / sf d t2 <= v1 / sf d t1.
Proof.
  intros V T1 T2 K1 K2 Hx. pose proof (sf_pos d V t1 T1) as S1. pose proof (sf_pos d V t2 T2) as S2. apply (H_of_io d V) in K1, K2.
  assert (forall x, 0 < x -> sf d t1 * H d t2 (t2 + x) <= sf d t2 * H d t1 (t1 + x)) as LE.
  { intros x Px. set (D := fun y => sf d t2 * H d t1 (t1 + y) - sf d t1 * H d t2 (t2 + y)).
    assert (D 0 <= D x) as DL.
    { apply (nondecr_of_derive_nonneg D (fun y => sf d t2 * sf d (t1 + y) - sf d t1 * sf d (t2 + y)) 0 x); [lra| |].
      - intros y Hy. unfold D.
        assert (forall t, is_derive (fun y => H d t (t + y)) y (sf d (t + y))) as DH.
        { intros t. assert (is_derive (fun y => t + y) y 1) as D1 by (auto_derive; [exact I|ring]).
          pose proof (is_derive_comp (H d t) (fun y => t + y) y _ _ (H_derive d V t (t + y)) D1) as K. unfold scal in K; simpl in K; unfold mult in K; simpl in K. rewrite Rmult_1_l in K. exact K. }
        apply (is_derive_minus (fun y => sf d t2 * H d t1 (t1 + y)) (fun y => sf d t1 * H d t2 (t2 + y))); apply (is_derive_scal _ y); apply DH.
      - intros y Hy. specialize (Hx y ltac:(lra)). lra. }
    unfold D in DL. rewrite !Rplus_0_r, !H_0 in DL. lra. }
  assert (sf d t1 * v2 <= sf d t2 * v1) as F.
  { apply Rnot_lt_le. intros L. set (e := (sf d t1 * v2 - sf d t2 * v1) / (2 * (sf d t1 + sf d t2))). assert (0 < e) as He by (apply Rdiv_lt_0_compat; lra).
    destruct (K1 e He) as (a & _ & FA), (K2 e He) as (b & _ & FB). set (x := Rmax 1 (Rmax (a - t1) (b - t2))).
    pose proof (Rmax_l 1 (Rmax (a - t1) (b - t2))). pose proof (Rmax_r 1 (Rmax (a - t1) (b - t2))). pose proof (Rmax_l (a - t1) (b - t2)). pose proof (Rmax_r (a - t1) (b - t2)). fold x in H, H0.
    specialize (FA (t1 + x) ltac:(unfold between; simpl; split; [lra|exact I]) ltac:(lra)). specialize (FB (t2 + x) ltac:(unfold between; simpl; split; [lra|exact I]) ltac:(lra)).
    apply Rabs_def2 in FA, FB. specialize (LE x ltac:(lra)).
    assert (2 * e * (sf d t1 + sf d t2) = sf d t1 * v2 - sf d t2 * v1) as E by (unfold e; field; lra).
    set (h1 := MRLProofs.H d t1 (t1 + x)) in *. set (h2 := MRLProofs.H d t2 (t2 + x)) in *. clearbody h1 h2 e.
    assert (sf d t1 * (v2 - e) < sf d t1 * h2) by (apply Rmult_lt_compat_l; lra). assert (sf d t2 * h1 < sf d t2 * (v1 + e)) by (apply Rmult_lt_compat_l; lra). nra. }
  apply (Rmult_le_reg_r (sf d t1 * sf d t2)); [nra|].
  replace (v2 / sf d t2 * (sf d t1 * sf d t2)) with (sf d t1 * v2) by (field; lra). replace (v1 / sf d t1 * (sf d t1 * sf d t2)) with (sf d t2 * v1) by (field; lra). exact F.
Qed.
