(** Mean residual life. *)
From Coquelicot Require Import Coquelicot.
From Coq Require Import List Arith Reals Lra Lia.
From Verif Require Import Base RealFacts Gauss Improper Ext DistModel DistSpec DistIntegrals DistProofs PoFProofs2 DistProofs2 FitProofs2 DistProofs4 DistProofs5 ExpectSpec Expect MomentModel MomentSpec MomentProofs MomentProofs2 MomentProofs3 MomentProofs4 GumbelMean.
Import ListNotations.
Open Scope R_scope.

Lemma a_next_point (hi : Rbar) (x : R) : Rbar_lt x hi -> exists y, x < y /\ Rbar_lt y hi.
Proof.
  intros K. destruct hi as [h| |]; [exists ((x + h) / 2); simpl in K |- *; lra|exists (x + 1); simpl; split; [lra|exact I]|destruct K].
Qed.

Section OneDist.
  Variable d : dist.
  Hypothesis V : valid d.
  Let HF := all_facts d V.

  Lemma sf_cdf x : sf d x = 1 - cdf d x.
  Proof. exact (F_sf d HF x). Qed.

  Lemma cdf_continuous x : continuous (cdf d) x.
  Proof.
    destruct (position d x) as [A|[A|A]].
    - assert (cdf d x = 0) as E0 by now apply (F_low d HF). apply filterlim_locally. intros eps. destruct (cdf_close d eps V (cond_pos eps)) as (a & _ & Ha & _ & _ & La & _).
      assert (x < a) as L. { destruct Ha as [Ha _]. assert (Rbar_lt x a) as K by (apply Rbar_le_lt_trans with (supp_lo d); assumption). exact K. }
      exists (mkposreal (a - x) ltac:(lra)). intros y Hy. apply Rabs_def2 in Hy. simpl in Hy. unfold minus, plus, opp in Hy; simpl in Hy.
      pose proof (cdf_incr d V y a ltac:(lra)) as K. pose proof (cdf_range d V y). unfold ball; simpl. unfold AbsRing_ball, abs, minus, plus, opp; simpl. rewrite E0. apply Rabs_def1; lra.
    - apply (ex_derive_continuous (cdf d)). eexists. apply (pdf_real_spec d V x A).
    - assert (cdf d x = 1) as E0 by now apply (F_high d HF). apply filterlim_locally. intros eps. destruct (cdf_close d eps V (cond_pos eps)) as (_ & b & _ & Hb & _ & _ & Lb).
      assert (b < x) as L. { destruct Hb as [_ Hb]. assert (Rbar_lt b x) as K by (apply Rbar_lt_le_trans with (supp_hi d); assumption). exact K. }
      exists (mkposreal (x - b) ltac:(lra)). intros y Hy. apply Rabs_def2 in Hy. simpl in Hy. unfold minus, plus, opp in Hy; simpl in Hy.
      pose proof (cdf_incr d V b y ltac:(lra)) as K. pose proof (cdf_range d V y). unfold ball; simpl. unfold AbsRing_ball, abs, minus, plus, opp; simpl. rewrite E0. apply Rabs_def1; lra.
  Qed.
  Lemma sf_continuous x : continuous (sf d) x.
  Proof.
    apply (continuous_ext (fun y => 1 - cdf d y)); [intros y; now rewrite sf_cdf|].
    apply (continuous_minus (fun _ => 1) (cdf d)); [apply continuous_const|apply cdf_continuous].
  Qed.
  Lemma sf_range x : 0 <= sf d x <= 1.
  Proof. rewrite sf_cdf. pose proof (cdf_range d V x). lra. Qed.
  Lemma sf_decr x y : x <= y -> sf d y <= sf d x.
  Proof. intros H. rewrite !sf_cdf. pose proof (cdf_incr d V x y H). lra. Qed.
  Lemma sf_ex a b : ex_RInt (sf d) a b.
  Proof. apply ex_RInt_cont. exact sf_continuous. Qed.
  Lemma sf_below (x : R) : Rbar_le x (supp_lo d) -> sf d x = 1.
  Proof. intros H. rewrite sf_cdf, (F_low d HF x H). ring. Qed.
  Lemma sf_above (x : R) : Rbar_le (supp_hi d) x -> sf d x = 0.
  Proof. intros H. rewrite sf_cdf, (F_high d HF x H). ring. Qed.
  Lemma sf_pos (x : R) : Rbar_lt x (supp_hi d) -> 0 < sf d x.
  Proof.
    intros H. destruct (position d x) as [A|[A|A]].
    - rewrite sf_below by assumption. lra.
    - rewrite sf_cdf. pose proof (F_in d HF x A). lra.
    - exfalso. exact (Rbar_lt_not_le _ _ H A).
  Qed.

  (** The integral of the survival function from t. *)
  Variable t : R.
  Definition H (x : R) : R := RInt (sf d) t x.
  Lemma H_derive x : is_derive H x (sf d x).
  Proof.
    apply (is_derive_RInt (sf d) H t x); [|apply sf_continuous]. exists (mkposreal 1 ltac:(lra)). intros y _. apply (@RInt_correct R_CompleteNormedModule), sf_ex.
  Qed.
  Lemma H_cont x : continuous H x.
  Proof. apply (ex_derive_continuous H). eexists. apply H_derive. Qed.
  Lemma H_0 : H t = 0.
  Proof. unfold H. rewrite RInt_point. reflexivity. Qed.
  Lemma H_diff a b : H b - H a = RInt (sf d) a b.
  Proof.
    unfold H. pose proof (RInt_Chasles (sf d) t a b (sf_ex t a) (sf_ex a b)) as K. unfold plus in K; simpl in K. lra.
  Qed.
  Lemma cont_eps f x eps : continuous f x -> 0 < eps -> exists dl, 0 < dl /\ forall y, Rabs (y - x) < dl -> Rabs (f y - f x) < eps.
  Proof.
    intros C He. destruct (proj1 (filterlim_locally (F := locally x) f (f x)) C (mkposreal eps He)) as [[dl Hd] K]. exists dl. split; [assumption|]. intros y Hy. exact (K y Hy).
  Qed.
  Lemma io_of_H v : limit_hi H t p_infty v -> integral_over (sf d) t p_infty v.
  Proof.
    intros L. replace v with (v - 0) by ring. apply (io_antider _ _ _ H); [intros; apply H_derive|intros; apply sf_continuous| |assumption].
    intros eps He. destruct (cont_eps H t eps (H_cont t) He) as (dl & Hd & K). exists (t + dl / 2). split; [unfold between; simpl; split; [lra|exact I]|].
    intros a [Ha _] La. simpl in Ha. specialize (K a). rewrite H_0 in K. apply K. apply Rabs_def1; lra.
  Qed.
  Lemma H_of_io v : integral_over (sf d) t p_infty v -> limit_hi H t p_infty v.
  Proof.
    intros K eps He. destruct (K (eps / 2) ltac:(lra)) as (a0 & b0 & [Ia _] & [Ib _] & L & F). simpl in Ia, Ib. exists b0. split; [unfold between; simpl; split; [lra|exact I]|]. intros b [Hb _] Lb. simpl in Hb.
    destruct (cont_eps H t (eps / 2) (H_cont t) ltac:(lra)) as (dl & Hd & C). set (a := Rmin a0 (t + dl / 2)). pose proof (Rmin_l a0 (t + dl / 2)). pose proof (Rmin_r a0 (t + dl / 2)).
    assert (t < a) by (unfold a; apply Rmin_glb_lt; lra). fold a in H0, H1. destruct (F a b) as (I & RI & D); [unfold between; simpl; split; [assumption|exact I]|unfold between; simpl; split; [assumption|exact I]|assumption|assumption|].
    pose proof (is_RInt_unique _ _ _ _ RI) as RU. rewrite <- H_diff in RU. specialize (C a ltac:(apply Rabs_def1; lra)). rewrite H_0 in C. apply Rabs_def2 in C, D. apply Rabs_def1; lra.
  Qed.

  (** Integration by parts. *)
  Lemma parts a b : inside d a -> inside d b -> a <= b ->
    is_RInt (fun x => (x - t) * density d x) a b (H b - H a - ((b - t) * sf d b - (a - t) * sf d a)).
  Proof.
    intros Ha Hb L. pose proof (is_RInt_derive (fun x => H x - (x - t) * sf d x) (fun x => (x - t) * density d x) a b) as K.
    rewrite Rmin_left, Rmax_right in K by lra. replace (H b - H a - ((b - t) * sf d b - (a - t) * sf d a)) with (minus (H b - (b - t) * sf d b) (H a - (a - t) * sf d a)) by (unfold minus, plus, opp; simpl; ring).
    apply K; intros x Hx; assert (inside d x) as Hi by now apply (inside_between d a b).
    - destruct (pdf_real_spec d V x Hi) as (_ & _ & D). change (pdf_real d x) with (density d x) in D.
      assert (is_derive (sf d) x (- density d x)) as DS.
      { apply (is_derive_ext (fun y => 1 - cdf d y)); [intros y; now rewrite sf_cdf|]. replace (- density d x) with (0 - density d x) by ring.
        apply (is_derive_minus (fun _ => 1) (cdf d)); [exact (is_derive_const (K := R_AbsRing) (V := R_NormedModule) 1 x)|exact D]. }
      assert (is_derive (fun x => x - t) x 1) as D1 by (auto_derive; [exact I|ring]).
      pose proof (is_derive_minus _ _ x _ _ (H_derive x) (is_derive_mult (fun x => x - t) (sf d) x _ _ D1 DS Rmult_comm)) as DD. unfold minus, plus, opp, mult in DD; simpl in DD.
      replace ((x - t) * density d x) with (sf d x + - (1 * sf d x + (x - t) * - density d x)) by ring. exact DD.
    - apply (continuous_mult (fun x => x - t) (density d)); [|now apply density_facts]. apply (ex_derive_continuous (fun x => x - t)). auto_derive. exact I.
  Qed.

  Hypothesis Ht : Rbar_lt t (supp_hi d).
  Let lo := from_time d t.
  Let hi := supp_hi d.
  Lemma from_inside x : between lo hi x -> inside d x /\ t < x.
  Proof.
    unfold lo, from_time. destruct Rbar_lt_dec as [A|A]; intros [X1 X2]; split.
    - split; [|exact X2]. apply Rbar_lt_trans with t; assumption.
    - exact X1.
    - now split.
    - apply Rbar_not_lt_le in A. assert (Rbar_lt t x) as K by (apply Rbar_le_lt_trans with (supp_lo d); assumption). exact K.
  Qed.
  Lemma inside_from x : inside d x -> t < x -> between lo hi x.
  Proof. intros [X1 X2] L. unfold lo, from_time. destruct Rbar_lt_dec; split; try assumption. Qed.

  (** H - G vanishes at the left end. *)
  Lemma left_end eps : 0 < eps -> exists a0, between lo hi a0 /\ forall a, between lo hi a -> a <= a0 -> Rabs (H a - (a - t) * sf d a) < eps.
  Proof.
    intros He. assert (exists l, lo = Finite l /\ t <= l /\ Rbar_lt l hi /\ H l - (l - t) * sf d l = 0 /\ forall x, l < x -> Rbar_lt x hi -> between lo hi x) as (l & El & Ll & Lh & E0 & Bw).
    { unfold lo, from_time. destruct Rbar_lt_dec as [A|A].
      - exists t. split; [reflexivity|]. split; [lra|]. split; [exact Ht|]. split; [rewrite H_0; ring|]. intros x X1 X2. split; assumption.
      - apply Rbar_not_lt_le in A. destruct (supp_lo d) as [l| |] eqn:E; [|exfalso; destruct d; discriminate|destruct A].
        assert (Rbar_lt l hi) as Lh. { destruct (two_inside d V) as (x & _ & [X1 X2] & _). rewrite E in X1. apply Rbar_lt_trans with x; assumption. }
        exists l. split; [reflexivity|]. split; [exact A|]. split; [exact Lh|]. split; [|intros x X1 X2; split; assumption].
        rewrite (sf_below l) by (rewrite E; apply Rbar_le_refl). unfold H. rewrite (RInt_ext (sf d) (fun _ => 1)), RInt_const.
        + unfold scal; simpl. unfold mult; simpl. ring.
        + simpl in A. rewrite Rmin_left, Rmax_right by lra. intros x Hx. apply sf_below. rewrite E. simpl. lra. }
    assert (continuous (fun a => H a - (a - t) * sf d a) l) as C.
    { apply (continuous_minus H (fun a => (a - t) * sf d a)); [apply H_cont|]. apply (continuous_mult (fun a => a - t) (sf d)); [|apply sf_continuous].
      apply (ex_derive_continuous (fun a => a - t)). auto_derive. exact I. }
    destruct (cont_eps _ l eps C He) as (dl & Hd & K). destruct (a_next_point hi l Lh) as (y & Y1 & Y2).
    exists (Rmin y (l + dl / 2)). pose proof (Rmin_l y (l + dl / 2)). pose proof (Rmin_r y (l + dl / 2)).
    split. { apply Bw; [apply Rmin_glb_lt; lra|]. apply Rbar_le_lt_trans with y; [exact H0|exact Y2]. }
    intros a [Ha _] La. rewrite El in Ha. simpl in Ha. specialize (K a ltac:(apply Rabs_def1; lra)). rewrite E0, Rminus_0_r in K. exact K.
  Qed.

  Lemma remaining_H v : remaining d t v -> limit_hi H t p_infty v.
  Proof.
    intros Rm. pose proof Rm as Rm'. unfold remaining in Rm. fold lo hi in Rm.
    assert (forall x, between lo hi x -> 0 <= (x - t) * density d x) as NN.
    { intros x Hx. destruct (from_inside x Hx) as [Hi L]. destruct (density_facts d x V Hi). apply Rmult_le_pos; lra. }
    assert (forall x, between lo hi x -> continuous (fun x => (x - t) * density d x) x) as CC.
    { intros x Hx. destruct (from_inside x Hx) as [Hi L]. apply (continuous_mult (fun x => x - t) (density d)); [|now apply density_facts]. apply (ex_derive_continuous (fun x => x - t)). auto_derive. exact I. }
    (* inside the support *)
    assert (forall eps, 0 < eps -> exists b0, between lo hi b0 /\ forall b, between lo hi b -> b0 <= b -> Rabs (H b - v) < eps) as IN.
    { intros eps He. destruct (Rm (eps / 4) ltac:(lra)) as (a0 & b0 & Ia & Ib & L0 & F). destruct (left_end (eps / 4) ltac:(lra)) as (a1 & Ia1 & FL).
      set (a := Rmin a0 a1). assert (between lo hi a) as Ba by now apply between_min. pose proof (Rmin_l a0 a1) as M1. pose proof (Rmin_r a0 a1) as M2. fold a in M1, M2.
      exists b0. split; [assumption|]. intros b Bb Lb. destruct (F a b Ba Bb M1 Lb) as (I & RI & D).
      pose proof (is_RInt_unique _ _ _ _ (parts a b (proj1 (from_inside a Ba)) (proj1 (from_inside b Bb)) ltac:(lra))) as E1. pose proof (is_RInt_unique _ _ _ _ RI) as E2.
      assert (I = H b - H a - ((b - t) * sf d b - (a - t) * sf d a)) as EI by congruence.
      specialize (FL a Ba M2).
      assert (0 <= (b - t) * sf d b <= eps / 4) as GB.
      { destruct (from_inside b Bb) as [Hib Ltb]. pose proof (sf_range b) as Sb. split; [apply Rmult_le_pos; lra|]. apply le_epsilon. intros e' He'.
        destruct (cdf_close d (e' / (b - t)) V ltac:(apply Rdiv_lt_0_compat; lra)) as (_ & c0 & _ & Hc & _ & _ & Lc).
        set (c := Rmax b c0). assert (between lo hi c) as Bc. { unfold c, Rmax. destruct Rle_dec; [apply inside_from; [assumption|lra]|assumption]. }
        pose proof (Rmax_l b c0) as M3. pose proof (Rmax_r b c0) as M4. fold c in M3, M4. destruct (from_inside c Bc) as [Hic Ltc].
        assert (sf d c <= e' / (b - t)) as Sc. { apply Rle_trans with (sf d c0); [now apply sf_decr|]. rewrite sf_cdf. lra. }
        pose proof (pdf_integrates d b c V Hib Hic M3) as RD. change (pdf_real d) with (density d) in RD.
        pose proof (is_RInt_scal _ b c (b - t) _ RD) as RD'. unfold scal in RD'; simpl in RD'; unfold mult in RD'; simpl in RD'.
        assert ((b - t) * (cdf d c - cdf d b) <= H c - H b - ((c - t) * sf d c - (b - t) * sf d b)) as LE.
        { apply (is_RInt_le (fun x => (b - t) * density d x) (fun x => (x - t) * density d x) b c); [assumption|exact RD'|now apply parts|].
          intros x Hx. assert (inside d x) as Hix by (apply (inside_between d b c); [assumption|assumption|lra]). destruct (density_facts d x V Hix). apply Rmult_le_compat_r; lra. }
        destruct (F a c Ba Bc M1 ltac:(lra)) as (I' & RI' & D').
        pose proof (is_RInt_unique _ _ _ _ (parts a c (proj1 (from_inside a Ba)) Hic ltac:(lra))) as E3. pose proof (is_RInt_unique _ _ _ _ RI') as E4.
        assert (I' = H c - H a - ((c - t) * sf d c - (a - t) * sf d a)) as EI' by congruence.
        assert (I' <= v) as Up. { rewrite <- E4. apply (io_nonneg_bound lo hi _ v NN CC Rm a c Ba Bc). lra. }
        assert ((b - t) * sf d c <= e') as Sc'. { apply Rle_trans with ((b - t) * (e' / (b - t))); [apply Rmult_le_compat_l; lra|]. right. field. lra. }
        rewrite !sf_cdf in *. apply Rabs_def2 in D. nra. }
      apply Rabs_def2 in D, FL. apply Rabs_def1; lra. }
    intros eps He. destruct (IN (eps / 2) ltac:(lra)) as (b0 & Ib & FB). destruct (from_inside b0 Ib) as [Hib Lb0].
    exists b0. split; [unfold between; simpl; split; [exact Lb0|exact I]|]. intros b [Hb _] Lb. simpl in Hb.
    destruct (Rbar_lt_dec b hi) as [A|A].
    - assert (between lo hi b) as Bb. { apply inside_from; [|assumption]. split; [|exact A]. apply Rbar_lt_le_trans with b0; [apply Hib|exact Lb]. }
      specialize (FB b Bb Lb). lra.
    - apply Rbar_not_lt_le in A. fold hi in A. destruct hi as [h| |] eqn:Eh; [|destruct A|destruct (proj2 Ib)]. simpl in A.
      assert (H b = H h) as Ebh. { assert (H b - H h = 0); [|lra]. rewrite H_diff. rewrite (RInt_ext (sf d) (fun _ => 0)), RInt_const.
        - unfold scal; simpl. unfold mult; simpl. ring.
        - rewrite Rmin_left, Rmax_right by lra. intros x Hx. apply sf_above. fold hi. rewrite Eh. simpl. lra. }
      rewrite Ebh. destruct (cont_eps H h (eps / 2) (H_cont h) ltac:(lra)) as (dl & Hd & C).
      assert (b0 < h) as Lh by exact (proj2 Ib). set (y := Rmax b0 (h - dl / 2)). pose proof (Rmax_l b0 (h - dl / 2)) as M1. pose proof (Rmax_r b0 (h - dl / 2)) as M2. fold y in M1, M2.
      assert (y < h) as Ly by (unfold y; apply Rmax_lub_lt; lra).
      assert (between lo h y) as By. { split; [|exact Ly]. apply Rbar_lt_le_trans with b0; [apply Ib|exact M1]. }
      specialize (FB y By M1). specialize (C y ltac:(apply Rabs_def1; lra)). apply Rabs_def2 in FB, C. apply Rabs_def1; lra.
  Qed.
  Lemma remaining_integral v : remaining d t v -> integral_over (sf d) t p_infty v.
  Proof. intros R0. now apply io_of_H, remaining_H. Qed.
End OneDist.
